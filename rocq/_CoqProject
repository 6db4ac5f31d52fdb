-Q theories Verif
theories/Base.v
theories/IterTheory.v
theories/IterModel.v
theories/Spec.v
theories/SpecR.v
theories/IterProofs.v
theories/Props_Iter.v
theories/Num.v
theories/F64Lib.v
theories/LibModel.v
theories/LibDiscrete.v
theories/LibFloat.v
theories/LibReal.v
theories/Props_Lib.v
theories/ChaosModel.v
theories/ChaosProofs.v
theories/ChaosMod.v
theories/Props_Chaos.v
theories/Tab.v
theories/PskModel.v
theories/PskChain.v
theories/PskFloat.v
theories/RSums.v
theories/PskReal.v
theories/Props_Psk.v
theories/CdmaModel.v
theories/CdmaProofs.v
theories/Hadamard.v
theories/Props_Cdma.v
theories/FhModel.v
theories/FhProofs.v
theories/FhFloat.v
theories/Props_Fh.v
theories/PanicTheory.v
theories/SpecC.v
theories/FftModel.v
theories/OfdmModel.v
theories/Dft.v
theories/OfdmProofs.v
theories/OfdmReal.v
theories/OfdmWave.v
theories/OfdmLink.v
theories/OfdmPass.v
theories/Props_Ofdm.v
theories/BchModel.v
theories/SpecCode.v
theories/BchProofs.v
theories/Gf256.v
theories/RsCode.v
theories/Props_Bch.v
theories/FskModel.v
theories/FskReal.v
theories/Props_Fsk.v
theories/FilterModel.v
theories/Props_Filter.v
theories/BpfModel.v
theories/BpfProofs.v
theories/Props_Bpf.v
theories/FhOfdmModel.v
theories/FhOfdmProofs.v
theories/Props_FhOfdm.v
theories/SscaModel.v
theories/SscaProofs.v
theories/SscaCells.v
theories/Props_Ssca.v
theories/DetectModel.v
theories/Props_Detect.v
theories/PyModel.v
theories/Props_Py.v
theories/KomModel.v
theories/KomProofs.v
theories/Props_Kom.v
theories/Props_Kom2.v
theories/Props_Kom3.v
theories/Props_Pass.v
theories/FloatSum.v
theories/Props_PassF.v
theories/Props_Jam.v
theories/LabModel.v
theories/Props_Lab.v
theories/Props_Roc.v
theories/IterRel.v
theories/Props_Harness.v
theories/Props_Gain.v
theories/Props_Energy.v
theories/Props_Sync.v
theories/MultiModel.v
theories/Walsh.v
theories/Props_Multi.v
theories/BerModel.v
theories/Props_OfdmRx.v
theories/Props_Ber.v
theories/Props_OfdmF.v
theories/Demand.v
theories/Props_Demand.v
theories/ConstModel.v
theories/ConstProofs.v
theories/Props_Const.v
theories/RunModel.v
theories/Props_Run.v
theories/Props_ChaosNoise.v
theories/Props_FhJam.v
theories/Props_FskNoise.v
theories/Props_BerTheory.v
theories/Props_Offset.v
theories/Props_Fdm.v
theories/RadioModel.v
theories/Props_Radio.v
theories/Props_OfdmNoise.v
theories/OfdmPassF.v
theories/Props_OfdmPassF.v
theories/FskMargins.v
theories/FskFloat.v
theories/Props_FskF.v
theories/ErfPoly.v
theories/ErfReal.v
theories/ErfGauss.v
theories/ErfF.v
theories/Props_Erf.v
theories/NormalMean.v
theories/Props_Expected.v
theories/Props_Binomial.v
theories/NormalMoments.v
theories/Props_NoiseEnergy.v
theories/NormalTail.v
theories/Props_AnyCarrier.v
theories/Props_FhRate.v
theories/Props_QpskRate.v
theories/Props_CdmaRate.v
