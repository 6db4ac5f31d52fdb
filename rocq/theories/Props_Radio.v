(** Property C103: what the radiometer experiments of tests/billiam.rs count, on the signals they are run on. *)
From Coq Require Import List Arith ZArith Reals Bool Lia Lra Psatz.
From Flocq Require Import Core.
From Verif Require Import Base IterModel IterTheory Spec SpecR Tab Num LibModel LibReal RSums SscaModel SscaProofs PskModel PskChain PskReal
  CdmaModel CdmaProofs LabModel RadioModel Props_Psk Props_Pass Props_Cdma Props_Fsk Props_Energy Props_Harness.
Import ListNotations.
Local Open Scope R_scope.

(** ** Energy of a disturbed signal *)

(** Average power of a list of samples, of the first [n] numbers of a noise, and their correlation. *)
Definition mean_power (w : list R) : R := Rsum (map (fun x => x * x) w) / INR (length w).
Definition noise_power (n : nat) (z : nat -> R) : R := Rsum_n n (fun j => z j * z j) / INR n.
Definition overlap (w : list R) (z : nat -> R) : R := Rsum_n (length w) (fun j => nth j w 0 * z j) / INR (length w).

Lemma disturbed_tab (w : list R) z : disturbed Rplus w z = tab (length w) (fun i => nth i w 0 + z i).
Proof.
  unfold disturbed. rewrite <- (tab_nth_id w 0) at 1. change (map z (seq 0 (length w))) with (tab (length w) z).
  assert (G : forall n (f g : nat -> R), combine (tab n f) (tab n g) = tab n (fun i => (f i, g i))).
  { intros n f g. unfold tab. generalize (seq 0 n). induction l as [|a l IH]; [reflexivity|]. cbn. rewrite IH. reflexivity. }
  rewrite G, tab_map. reflexivity.
Qed.
Lemma mean_tab n f : mean_power (tab n f) = Rsum_n n (fun i => f i * f i) / INR n.
Proof. unfold mean_power. rewrite tab_map, Rsum_tab, tab_length. reflexivity. Qed.
Lemma mean_nth w : mean_power w = Rsum_n (length w) (fun i => nth i w 0 * nth i w 0) / INR (length w).
Proof. rewrite <- (tab_nth_id w 0) at 1. apply mean_tab. Qed.

Lemma mean_disturbed w z : mean_power (disturbed Rplus w z) = mean_power w + noise_power (length w) z + 2 * overlap w z.
Proof.
  rewrite disturbed_tab, mean_tab, mean_nth. unfold noise_power, overlap.
  rewrite (Rsum_n_ext _ _ (fun i => (nth i w 0 * nth i w 0 + z i * z i) + 2 * (nth i w 0 * z i))) by (intros; ring).
  rewrite !Rsum_n_plus, Rsum_n_scale. unfold Rdiv. ring.
Qed.

Lemma Rsum_sq_nonneg n (f : nat -> R) : 0 <= Rsum_n n (fun j => f j * f j).
Proof. apply Rsum_n_nonneg. intros. apply Rle_0_sqr. Qed.
Lemma mean_nonneg (a n : R) : 0 <= a -> 0 <= n -> 0 <= a / n.
Proof.
  intros Ha [Hn| <-]; [apply Rmult_le_pos; [exact Ha|left; apply Rinv_0_lt_compat, Hn]|]. unfold Rdiv. rewrite Rinv_0. lra.
Qed.
Lemma noise_power_nonneg n z : 0 <= noise_power n z.
Proof. apply mean_nonneg; [apply Rsum_sq_nonneg|apply pos_INR]. Qed.
Lemma mean_power_nonneg w : 0 <= mean_power w.
Proof. rewrite mean_nth. apply mean_nonneg; [apply Rsum_sq_nonneg|apply pos_INR]. Qed.

(** The roots of the powers obey the triangle inequality. *)
Lemma overlap_bound w z : Rabs (overlap w z) <= sqrt (mean_power w) * sqrt (noise_power (length w) z).
Proof.
  rewrite <- sqrt_mult by (apply mean_power_nonneg || apply noise_power_nonneg).
  rewrite <- sqrt_Rsqr_abs. apply sqrt_le_1_alt. unfold Rsqr, overlap, noise_power. rewrite mean_nth.
  pose proof (cauchy_schwarz (length w) (fun j => nth j w 0) z) as CS. cbv beta in CS.
  unfold Rdiv. set (n := / INR (length w)).
  replace (Rsum_n (length w) (fun j => nth j w 0 * z j) * n * (Rsum_n (length w) (fun j => nth j w 0 * z j) * n))
    with (n * n * (Rsum_n (length w) (fun j => nth j w 0 * z j) * Rsum_n (length w) (fun j => nth j w 0 * z j))) by ring.
  match goal with |- _ <= ?a * n * (?b * n) => replace (a * n * (b * n)) with (n * n * (a * b)) by ring end.
  apply Rmult_le_compat_l; [apply Rle_0_sqr|exact CS].
Qed.
Lemma energy_above w z t : sqrt (mean_power w) + sqrt (noise_power (length w) z) <= sqrt t -> 0 <= t ->
  mean_power (disturbed Rplus w z) <= t.
Proof.
  intros Ht T0. rewrite mean_disturbed. pose proof (overlap_bound w z) as B. apply Raux.Rabs_le_inv in B.
  pose proof (sqrt_pos (mean_power w)) as P1. pose proof (sqrt_pos (noise_power (length w) z)) as P2.
  pose proof (sqrt_sqrt _ (mean_power_nonneg w)) as S1. pose proof (sqrt_sqrt _ (noise_power_nonneg (length w) z)) as S2.
  rewrite <- (sqrt_sqrt t T0). rewrite <- S1, <- S2 at 1. set (a := sqrt (mean_power w)) in *. set (b := sqrt (noise_power _ z)) in *.
  set (s := sqrt t) in *. assert ((a + b) * (a + b) <= s * s) by (apply Rmult_le_compat; lra). lra.
Qed.
Lemma energy_below w z t : sqrt t + sqrt (noise_power (length w) z) < sqrt (mean_power w) -> 0 <= t ->
  t < mean_power (disturbed Rplus w z).
Proof.
  intros Ht T0. rewrite mean_disturbed. pose proof (overlap_bound w z) as B. apply Raux.Rabs_le_inv in B.
  pose proof (sqrt_pos t) as P0. pose proof (sqrt_pos (noise_power (length w) z)) as P2.
  pose proof (sqrt_sqrt _ (mean_power_nonneg w)) as S1. pose proof (sqrt_sqrt _ (noise_power_nonneg (length w) z)) as S2.
  rewrite <- (sqrt_sqrt t T0). rewrite <- S1, <- S2 at 1. set (a := sqrt (mean_power w)) in *. set (b := sqrt (noise_power _ z)) in *.
  set (s := sqrt t) in *. assert (s * s < (a - b) * (a - b)) by (apply Rmult_le_0_lt_compat; lra). lra.
Qed.

(** ** The transmitters of the experiments *)

(** For every [n] bits of data: [N] samples of average power [P]. *)
Definition steady (tx : list bool -> outcome (Iter R)) (n N : nat) (P : R) : Prop :=
  forall data, length data = n -> exists it w, tx data = Ret it /\ yields it w /\ length w = N /\ mean_power w = P.

Lemma mean_of_eb (tx : Iter R) w n eb P fuel : yields tx w -> (length w < fuel)%nat -> check_eb fuel n tx = Ret eb ->
  (1 <= n)%nat -> (1 <= length w)%nat -> eb * INR n = P * INR (length w) -> mean_power w = P.
Proof.
  intros Y Hf E Hn Hw HP. rewrite <- (tab_nth_id w 0) in Y. rewrite (eb_tab _ _ n _ Y fuel Hf) in E. injection E as E.
  rewrite mean_nth. assert (0 < INR n) by (apply lt_0_INR; lia). assert (0 < INR (length w)) by (apply lt_0_INR; lia).
  rewrite <- E in HP. unfold Rdiv in HP. rewrite Rmult_assoc, Rinv_l, Rmult_1_r in HP by lra. rewrite HP. field. lra.
Qed.

Lemma design_facts (sps sy : nat) (fc : R) (h : Z) : (1 <= sy)%nat -> (1 <= sps)%nat -> 0 < fc -> 2 * fc < INR (sps * sy) -> 2 * fc = IZR h * INR sy ->
  (sps * sy / sy = sps)%nat /\ (sy <= sps * sy)%nat /\ ~ (exists z : Z, 2 * fc = IZR z * INR (sps * sy)) /\ 2 * fc * INR sps = IZR h * INR (sps * sy).
Proof.
  intros Hy Hs Hf H2 Hh. split; [apply Nat.div_mul; lia|]. split; [nia|].
  assert (P : 0 < INR (sps * sy)) by (apply lt_0_INR; nia). split.
  - intros [z Hz]. rewrite Hz in H2. assert (IZR z < 1) by nra. assert (0 < IZR z) by nra.
    apply lt_IZR in H. apply (lt_IZR 0) in H0. lia.
  - rewrite Hh, mult_INR. ring.
Qed.
Lemma nyquist_design (sr : nat) (fc : R) : (Z.of_nat sr <= u64_max)%Z -> 0 < fc -> 2 * fc < INR sr -> nyquist_ok sr fc = true.
Proof.
  intros Hb Hf H2. unfold nyquist_ok. cbn [nto_u64 NumR]. apply Z.leb_le. unfold clamp_u64.
  assert (Ztrunc fc <= Z.of_nat (sr / 2))%Z; [|lia].
  rewrite Ztrunc_floor by lra. rewrite <- Z.lt_succ_r. apply lt_IZR.
  pose proof (Zfloor_lb fc) as L. eapply Rle_lt_trans; [exact L|].
  assert (2 * fc < 2 * IZR (Z.succ (Z.of_nat (sr / 2)))); [|lra]. eapply Rlt_le_trans; [exact H2|]. rewrite INR_IZR_INZ, <- mult_IZR. apply IZR_le.
  pose proof (Nat.div_mod sr 2 ltac:(lia)). pose proof (Nat.mod_upper_bound sr 2 ltac:(lia)). lia.
Qed.

(** With a whole number of samples per symbol and of half cycles per symbol, a BPSK signal has average
    power 1/2 and a QPSK signal 1, whatever the message, spread or not (the spread ones with keys of 16 chips
    and a whole number of samples per chip, at least two). *)
Theorem C103_powers :
  forall (sps sy n : nat) (fc : R) (half_cycles : Z),
    let fs := (sps * sy)%nat in
    (1 <= sy)%nat -> (1 <= sps)%nat -> (Z.of_nat sps < 2 ^ 32)%Z -> (Z.of_nat fs <= u64_max)%Z ->
    0 < fc -> 2 * fc < INR fs -> 2 * fc = IZR half_cycles * INR sy -> (1 <= n)%nat ->
    steady (fun data => tx_bpsk_signal (of_list data) fs sy fc) n (n * sps) (1 / 2) /\
    ((2 <= n)%nat -> steady (fun data => tx_qpsk_signal (of_list data) fs sy fc) n (n / 2 * sps) 1) /\
    forall key, length key = 16%nat -> (2 <= sps / 16)%nat -> (sps mod 16 = 0)%nat ->
      steady (fun data => tx_cdma_bpsk_signal (of_list data) fs sy fc key) n (n * sps) (1 / 2) /\
      ((2 <= n)%nat -> steady (fun data => tx_cdma_qpsk_signal (of_list data) fs sy fc key) n (n / 2 * sps) 1).
Proof.
  intros sps sy n fc h fs Hy Hs H32 H64 Hf H2 Hh Hn.
  destruct (design_facts sps sy fc h Hy Hs Hf H2 Hh) as (D & Dle & Dz & Dh). fold fs in D, Dle, Dz, Dh.
  pose proof (nyquist_design fs fc H64 Hf H2) as Ny.
  assert (PN : forall m, (1 <= m)%nat -> 0 < INR m) by (intros; apply lt_0_INR; lia).
  assert (Half : (2 <= n)%nat -> (1 <= n / 2)%nat) by (intros; apply Nat.div_le_lower_bound; lia).
  split; [|split; [|intros key Lk Hc Hd; split]].
  - intros data Ld. destruct (tx_bpsk_ok (of_list data) sps sy fc ltac:(lia) H32 Ny) as [tx Et]. fold fs in Et. exists tx.
    assert (Hne : data <> []) by (intros ->; cbn in Ld; lia).
    destruct (C88_bpsk_power (of_list data) data fs sy fc tx (of_list_yields _) Dle Et) as (w & Y & L & _). rewrite D, Ld in L.
    exists w. split; [exact Et|]. split; [exact Y|]. split; [exact L|].
    destruct (C88_bpsk_eb (of_list data) data fs sy fc tx (of_list_yields _) Hne Dle Et Dz) as (eb & E & _ & X).
    rewrite D in E, X. rewrite Ld in E. specialize (X h Dh).
    apply (mean_of_eb tx w n eb _ (S (length w)) Y ltac:(lia)); [apply E; lia|lia|nia|]. rewrite X, L, mult_INR. field.
  - intros Hn2 data Ld. assert (Hne : data <> []) by (intros ->; cbn in Ld; lia).
    destruct (tx_qpsk_inv (of_list data) fs sy fc ltac:(lia) ltac:(lia)) as (tx & Et & Yt). specialize (Yt data (of_list_yields _)).
    unfold qpsk_wave in Yt. rewrite (pairs_length (length data) data eq_refl), D, Ld in Yt.
    exists tx. eexists. split; [exact Et|]. split; [exact Yt|]. rewrite tab_length. split; [reflexivity|].
    destruct (C88_qpsk_eb (of_list data) data fs sy fc (of_list_yields _) Hne ltac:(lia) Dz) as (tx' & eb & Et' & E & _ & X).
    rewrite Et in Et'. injection Et' as <-. rewrite D in E, X. rewrite Ld in E, X. destruct (X h Dh) as [X' _].
    specialize (Half Hn2). eapply (mean_of_eb tx _ n eb _ (S (n / 2 * sps)) Yt); rewrite ?tab_length; [lia|apply E; lia|lia|nia|].
    rewrite X', mult_INR. field. apply Rgt_not_eq, PN. lia.
  - intros data Ld. assert (Hne : data <> []) by (intros ->; cbn in Ld; lia).
    assert (Rt : cdma_rates fs sy fc key = Ret (fs / sy, fs / sy / length key)%nat).
    { assert (Sp : sps = (sps / 16 * 16)%nat) by (pose proof (Nat.div_mod sps 16 ltac:(lia)); lia).
      assert (Ev : fs = (8 * (sps / 16) * sy * 2)%nat) by (unfold fs; rewrite Sp at 1; ring).
      apply cdma_rates_R_intro; [exact Hy|destruct key; discriminate|rewrite Lk; unfold fs; nia|rewrite Lk; exists (sps / 16)%nat; unfold fs; nia|exact H64|].
      split; [lra|]. rewrite Ev, Nat.div_mul by lia. rewrite Ev, mult_INR in H2. cbn [INR] in H2. lra. }
    destruct (tx_bpsk_ok (of_list data) sps sy fc ltac:(lia) H32 Ny) as [tx0 Et0]. fold fs in Et0.
    assert (Et : exists tx, tx_cdma_bpsk_signal (of_list data) fs sy fc key = Ret tx).
    { unfold tx_cdma_bpsk_signal. rewrite Rt. cbn [bind]. rewrite Et0. cbn [bind]. eexists. reflexivity. }
    destruct Et as [tx Et]. exists tx.
    destruct (C88_cdma_bpsk_power (of_list data) data fs sy fc key tx (of_list_yields _) Et) as (w & Y & L & _). rewrite D, Ld in L.
    exists w. split; [exact Et|]. split; [exact Y|]. split; [exact L|].
    destruct (C88_cdma_bpsk_eb (of_list data) data fs sy fc key tx (of_list_yields _) Hne Et Dz) as (eb & E & _ & X).
    rewrite D in E, X. rewrite Ld in E. specialize (X h Dh).
    apply (mean_of_eb tx w n eb _ (S (length w)) Y ltac:(lia)); [apply E; lia|lia|nia|]. rewrite X, L, mult_INR. field.
  - intros Hn2 data Ld. assert (Hne : data <> []) by (intros ->; cbn in Ld; lia).
    assert (Rt : cdma_rates fs sy fc key = Ret (fs / sy, fs / sy / length key)%nat).
    { assert (Sp : sps = (sps / 16 * 16)%nat) by (pose proof (Nat.div_mod sps 16 ltac:(lia)); lia).
      assert (Ev : fs = (8 * (sps / 16) * sy * 2)%nat) by (unfold fs; rewrite Sp at 1; ring).
      apply cdma_rates_R_intro; [exact Hy|destruct key; discriminate|rewrite Lk; unfold fs; nia|rewrite Lk; exists (sps / 16)%nat; unfold fs; nia|exact H64|].
      split; [lra|]. rewrite Ev, Nat.div_mul by lia. rewrite Ev, mult_INR in H2. cbn [INR] in H2. lra. }
    destruct (tx_qpsk_inv (of_list data) fs sy fc ltac:(lia) ltac:(lia)) as (tx0 & Et0 & Yt). specialize (Yt data (of_list_yields _)).
    unfold qpsk_wave in Yt. rewrite (pairs_length (length data) data eq_refl), D, Ld in Yt.
    assert (Et : tx_cdma_qpsk_signal (of_list data) fs sy fc key = Ret (chip_mul (sps / 16) key tx0)).
    { unfold tx_cdma_qpsk_signal. rewrite Rt. cbn [bind]. rewrite Et0. cbn [bind]. rewrite D, Lk. reflexivity. }
    pose proof (chip_mul_yields (sps / 16) key tx0 _ _ ltac:(lia) ltac:(destruct key; discriminate) Yt) as Yc.
    exists (chip_mul (sps / 16) key tx0). eexists. split; [exact Et|]. split; [exact Yc|]. rewrite tab_length. split; [reflexivity|].
    destruct (C88_cdma_qpsk_eb (of_list data) data fs sy fc key _ (of_list_yields _) Hne Et Dz) as (eb & E & _ & X).
    rewrite D in E, X. rewrite Ld in E, X. specialize (X h Dh).
    specialize (Half Hn2). eapply (mean_of_eb _ _ n eb _ (S (n / 2 * sps)) Yc); rewrite ?tab_length; [lia|apply E; lia|lia|nia|].
    rewrite X, mult_INR. field. apply Rgt_not_eq, PN. lia.
Qed.

(** The closures handed to get_pds collect such a signal; the argument for the energy is not used. *)
Definition collected (fuel : nat) (mk : list bool -> outcome (Iter R)) (data : list bool) (e : R) : outcome (list R) :=
  let? it := mk data in collect fuel it.
(** The key of lines 283-284. *)
Definition key_two : list bool :=
  [true; false; false; true; true; false; false; true; true; false; false; true; true; false; false; true].
Lemma key_two_spec : exists h, HadamardMatrix_new 16 = Ret h /\ HadamardMatrix_key h 2 = Ret key_two.
Proof. exists (match HadamardMatrix_new 16 with Ret M => M | _ => [] end). split; vm_compute; reflexivity. Qed.

Lemma closures_collected fuel fs sy (fc : R) :
  (forall x e, bpsk_closure fuel fs sy fc x e = collected fuel (fun data => tx_bpsk_signal (of_list data) fs sy fc) x e) /\
  (forall x e, qpsk_closure fuel fs sy fc x e = collected fuel (fun data => tx_qpsk_signal (of_list data) fs sy fc) x e) /\
  (forall spread x e, cdma_closure fuel spread fs sy fc x e = collected fuel (fun data => spread (of_list data) fs sy fc key_two) x e).
Proof.
  split; [reflexivity|]. split; [reflexivity|]. intros spread x e. unfold cdma_closure. destruct key_two_spec as (h & -> & E). cbn [bind]. rewrite E. reflexivity.
Qed.

(** ** What is counted *)

Lemma attempt (fuel : nat) (it : Iter R) w (nz : R -> Iter R) z : yields it w -> streams (nz 1) z -> (length w < fuel)%nat ->
  (let? chan := awgn nz it (nofZ 1) in let? chan_sig := collect fuel chan in Ret (avg_energy chan_sig)) =
  Ret (mean_power w + noise_power (length w) z + 2 * overlap w z).
Proof.
  intros Y Hz Hf. unfold awgn, normal_new. cbn [nfinite NumR assert_then bind].
  rewrite (collect_yields _ (disturbed Rplus w z) fuel).
  - cbn [bind]. f_equal. rewrite <- mean_disturbed. unfold avg_energy, mean_power. cbn [ndiv NumR]. rewrite nsum_R, nofnat_R. reflexivity.
  - unfold disturbed. apply imap_yields. apply (izip_stream_yields _ _ _ _ Y Hz).
  - rewrite disturbed_tab, tab_length. exact Hf.
Qed.

Lemma steady_fun mk n N P fuel : steady mk n N P -> (N < fuel)%nat ->
  exists sent : list bool -> list R, forall data, length data = n ->
    (exists it, mk data = Ret it /\ yields it (sent data)) /\ (forall e, collected fuel mk data e = Ret (sent data)) /\
    length (sent data) = N /\ mean_power (sent data) = P.
Proof.
  intros H Hf. exists (fun data => match collected fuel mk data 0 with Ret w => w | _ => [] end). intros data Hd.
  destruct (H data Hd) as (it & w & E & Y & L & M).
  assert (C : forall e, collected fuel mk data e = Ret w) by (intros e; unfold collected; rewrite E; cbn [bind]; apply (collect_yields _ _ _ Y); lia).
  rewrite C. split; [exists it; auto|]. auto.
Qed.

(** Row by row: an attempt counts as a detection when the power of the signal, that of the noise and twice
    their correlation do not exceed eb.  The signal does not depend on eb. *)
Theorem C103_pds :
  forall (fuel n N attempts attempts_var : nat) (P : R) mk (bits : R -> nat -> nat -> bool) noise (z : R -> nat -> nat -> R) (ebs : list R),
    steady mk n N P -> (N < fuel)%nat -> (forall eb i, streams (noise eb i 1) (z eb i)) ->
    let data eb i := map (bits eb i) (seq 0 n) in
    exists sent : list bool -> list R,
      (forall d, length d = n -> exists it, mk d = Ret it /\ yields it (sent d)) /\
      let energy eb i := P + noise_power N (z eb i) + 2 * overlap (sent (data eb i)) (z eb i) in
      radiometer_pds fuel bits noise attempts ebs attempts_var n (collected fuel mk) =
        Ret (map (fun eb => INR (at_most eb (map (energy eb) (seq 0 attempts_var))) / INR attempts) ebs).
Proof.
  intros fuel n N attempts av P mk bits noise z ebs S Hf Hz data. destruct (steady_fun mk n N P fuel S Hf) as (sent & H).
  exists sent. split; [intros d Hd; apply (H d Hd)|]. intros energy. unfold radiometer_pds. apply push_rows_map. intros eb _.
  rewrite (push_rows_map _ _ (energy eb)); [cbn [bind]; rewrite p_d_R; reflexivity|]. intros i _.
  assert (Ld : length (data eb i) = n) by (unfold data; rewrite map_length; apply seq_length).
  destruct (H _ Ld) as (_ & C & L & M). change (map (bits eb i) (seq 0 n)) with (data eb i). rewrite C. cbn [bind].
  rewrite (attempt fuel _ _ _ _ (of_list_yields _) (Hz eb i)) by lia. unfold energy. rewrite L, M. reflexivity.
Qed.

Theorem C103_pmds :
  forall (fuel n N attempts samp_rate symbol_rate : nat) (P fc : R) spread (bits : R -> nat -> nat -> bool) noise (z : R -> nat -> nat -> R) (ebs : list R),
    steady (fun d => spread (of_list d) samp_rate symbol_rate fc key_two) n N P -> (N < fuel)%nat -> (forall eb i, streams (noise eb i 1) (z eb i)) ->
    let data eb i := map (bits eb i) (seq 0 n) in
    exists sent : list bool -> list R,
      (forall d, length d = n -> exists it, spread (of_list d) samp_rate symbol_rate fc key_two = Ret it /\ yields it (sent d)) /\
      let energy eb i := P + noise_power N (z eb i) + 2 * overlap (sent (data eb i)) (z eb i) in
      radiometer_pmds fuel bits noise spread samp_rate symbol_rate fc n attempts ebs =
        Ret (map (fun eb => INR (attempts - at_most eb (map (energy eb) (seq 0 attempts))) / INR attempts) ebs).
Proof.
  intros fuel n N attempts fs sy P fc spread bits noise z ebs S Hf Hz data. destruct (steady_fun _ n N P fuel S Hf) as (sent & H).
  exists sent. split; [intros d Hd; apply (H d Hd)|]. intros energy. unfold radiometer_pmds. destruct key_two_spec as (h & -> & E). cbn [bind]. rewrite E. cbn [bind].
  apply push_rows_map. intros eb _.
  rewrite (push_rows_map _ _ (energy eb)); [cbn [bind]; rewrite p_md_R, map_length, seq_length; reflexivity|]. intros i _.
  assert (Ld : length (data eb i) = n) by (unfold data; rewrite map_length; apply seq_length).
  destruct (H _ Ld) as ((it & Ei & Y) & _ & L & M). change (map (bits eb i) (seq 0 n)) with (data eb i). rewrite Ei. cbn [bind].
  rewrite (attempt fuel _ _ _ _ Y (Hz eb i)) by lia. unfold energy. rewrite L, M. reflexivity.
Qed.

Lemma at_most_all t l : (forall e, In e l -> e <= t) -> at_most t l = length l.
Proof.
  unfold at_most. induction l as [|a l IH]; intros H; [reflexivity|]. cbn [filter]. destruct (Rle_dec a t) as [_|N]; [|destruct N; apply H; left; reflexivity].
  cbn [length]. rewrite IH; [reflexivity|]. intros; apply H; right; assumption.
Qed.
Lemma at_most_none t l : (forall e, In e l -> t < e) -> at_most t l = 0%nat.
Proof.
  unfold at_most. induction l as [|a l IH]; intros H; [reflexivity|]. cbn [filter]. pose proof (H a (or_introl eq_refl)). destruct (Rle_dec a t) as [K|_]; [lra|].
  apply IH. intros; apply H; right; assumption.
Qed.
Lemma at_most_mono t t' l : t <= t' -> (at_most t l <= at_most t' l)%nat.
Proof.
  intros H. unfold at_most. induction l as [|a l IH]; [cbn; lia|]. cbn [filter]. destruct (Rle_dec a t), (Rle_dec a t'); cbn [length]; try lra; lia.
Qed.

(** So every curve is a step of the same shape: 0 while the root of eb is below that of the signal power by
    more than the root mean square of the noise, and all attempts counted once it is above by as much; the
    probabilities of missed detection of the last two experiments the other way round. *)
Theorem C103_step :
  forall (fuel n N attempts attempts_var : nat) (P : R) mk (bits : R -> nat -> nat -> bool) noise (z : R -> nat -> nat -> R) (ebs : list R),
    steady mk n N P -> (N < fuel)%nat -> (forall eb i, streams (noise eb i 1) (z eb i)) -> Forall (fun eb => 0 <= eb) ebs ->
    exists ps, radiometer_pds fuel bits noise attempts ebs attempts_var n (collected fuel mk) = Ret ps /\
      Forall2 (fun eb p =>
        ((forall i, (i < attempts_var)%nat -> sqrt eb + sqrt (noise_power N (z eb i)) < sqrt P) -> p = 0) /\
        ((forall i, (i < attempts_var)%nat -> sqrt P + sqrt (noise_power N (z eb i)) <= sqrt eb) -> p = INR attempts_var / INR attempts)) ebs ps.
Proof.
  intros fuel n N attempts av P mk bits noise z ebs S Hf Hz He. destruct (steady_fun mk n N P fuel S Hf) as (sent & H).
  set (data := fun eb i => map (bits eb i) (seq 0 n)).
  set (energy := fun eb i => mean_power (disturbed Rplus (sent (data eb i)) (z eb i))).
  exists (map (fun eb => INR (at_most eb (map (energy eb) (seq 0 av))) / INR attempts) ebs).
  assert (D : forall eb i, length (data eb i) = n) by (intros; unfold data; rewrite map_length; apply seq_length).
  split.
  - unfold radiometer_pds. apply push_rows_map. intros eb _.
    rewrite (push_rows_map _ _ (energy eb)); [cbn [bind]; rewrite p_d_R; reflexivity|]. intros i _.
    destruct (H _ (D eb i)) as (_ & C & L & M). change (map (bits eb i) (seq 0 n)) with (data eb i). rewrite C. cbn [bind].
    rewrite (attempt fuel _ _ _ _ (of_list_yields _) (Hz eb i)) by lia. unfold energy. rewrite mean_disturbed. reflexivity.
  - induction ebs as [|eb ebs IH]; [constructor|]. inversion He; subst. constructor; [|apply IH; assumption]. split; intros Hi.
    + rewrite at_most_none; [unfold Rdiv; cbn; ring|]. intros e Ie. apply in_map_iff in Ie. destruct Ie as (i & <- & Ii). apply in_seq in Ii.
      destruct (H _ (D eb i)) as (_ & _ & L & M). apply energy_below; [|assumption]. rewrite L, M. apply Hi. lia.
    + rewrite at_most_all; [rewrite map_length, seq_length; reflexivity|]. intros e Ie. apply in_map_iff in Ie. destruct Ie as (i & <- & Ii). apply in_seq in Ii.
      destruct (H _ (D eb i)) as (_ & _ & L & M). apply energy_above; [|assumption]. rewrite L, M. apply Hi. lia.
Qed.

(** With the same draws a larger eb never lowers the curve, because only the threshold moves; and with as many
    attempts as the constant says, what the two kinds of experiment report adds up to one. *)
Theorem C103_rises :
  forall (fuel n N attempts attempts_var : nat) (P : R) mk (bits : R -> nat -> nat -> bool) noise (z : R -> nat -> nat -> R) (eb eb' : R),
    steady mk n N P -> (N < fuel)%nat -> (forall eb i, streams (noise eb i 1) (z eb i)) -> eb <= eb' ->
    (forall i, z eb i = z eb' i /\ bits eb i = bits eb' i) ->
    exists p p', radiometer_pds fuel bits noise attempts [eb; eb'] attempts_var n (collected fuel mk) = Ret [p; p'] /\ p <= p'.
Proof.
  intros fuel n N attempts av P mk bits noise z eb eb' S Hf Hz Hle Hs.
  destruct (C103_pds fuel n N attempts av P mk bits noise z [eb; eb'] S Hf Hz) as (sent & _ & E). cbv zeta in E. rewrite E. cbn [map].
  do 2 eexists. split; [reflexivity|]. apply Rmult_le_compat_r.
  - destruct attempts; [cbn; rewrite Rinv_0; lra|left; apply Rinv_0_lt_compat, lt_0_INR; lia].
  - apply le_INR. erewrite (map_ext (fun i => P + noise_power N (z eb i) + _)); [apply at_most_mono; exact Hle|].
    intros i. destruct (Hs i) as [-> ->]. reflexivity.
Qed.
Theorem C103_complement :
  forall (fuel n N attempts samp_rate symbol_rate : nat) (P fc : R) spread (bits : R -> nat -> nat -> bool) noise (z : R -> nat -> nat -> R) (ebs : list R),
    steady (fun d => spread (of_list d) samp_rate symbol_rate fc key_two) n N P -> (N < fuel)%nat -> (forall eb i, streams (noise eb i 1) (z eb i)) ->
    (1 <= attempts)%nat ->
    exists ps qs,
      radiometer_pds fuel bits noise attempts ebs attempts n (cdma_closure fuel spread samp_rate symbol_rate fc) = Ret ps /\
      radiometer_pmds fuel bits noise spread samp_rate symbol_rate fc n attempts ebs = Ret qs /\
      Forall2 (fun p q => p + q = 1) ps qs.
Proof.
  intros fuel n N attempts fs sy P fc spread bits noise z ebs S Hf Hz Ha. destruct (steady_fun _ n N P fuel S Hf) as (sent & H).
  set (data := fun eb i => map (bits eb i) (seq 0 n)).
  set (energy := fun eb i => P + noise_power N (z eb i) + 2 * overlap (sent (data eb i)) (z eb i)).
  assert (D : forall eb i, length (data eb i) = n) by (intros; unfold data; rewrite map_length; apply seq_length).
  exists (map (fun eb => INR (at_most eb (map (energy eb) (seq 0 attempts))) / INR attempts) ebs),
    (map (fun eb => INR (attempts - at_most eb (map (energy eb) (seq 0 attempts))) / INR attempts) ebs).
  split; [|split].
  - unfold radiometer_pds. apply push_rows_map. intros eb _.
    rewrite (push_rows_map _ _ (energy eb)); [cbn [bind]; rewrite p_d_R; reflexivity|]. intros i _.
    destruct (H _ (D eb i)) as (_ & C & L & M). change (map (bits eb i) (seq 0 n)) with (data eb i).
    rewrite (proj2 (proj2 (closures_collected fuel fs sy fc))), C. cbn [bind].
    rewrite (attempt fuel _ _ _ _ (of_list_yields _) (Hz eb i)) by lia. unfold energy. rewrite L, M. reflexivity.
  - unfold radiometer_pmds. destruct key_two_spec as (h & -> & E). cbn [bind]. rewrite E. cbn [bind]. apply push_rows_map. intros eb _.
    rewrite (push_rows_map _ _ (energy eb)); [cbn [bind]; rewrite p_md_R, map_length, seq_length; reflexivity|]. intros i _.
    destruct (H _ (D eb i)) as ((it & Ei & Y) & _ & L & M). change (map (bits eb i) (seq 0 n)) with (data eb i). rewrite Ei. cbn [bind].
    rewrite (attempt fuel _ _ _ _ Y (Hz eb i)) by lia. unfold energy. rewrite L, M. reflexivity.
  - clear -Ha. induction ebs as [|eb ebs IH]; constructor; [|exact IH].
    assert (B : (at_most eb (map (energy eb) (seq 0 attempts)) <= attempts)%nat).
    { unfold at_most. rewrite <- (seq_length attempts 0) at 2. rewrite <- (map_length (energy eb)). generalize (map (energy eb) (seq 0 attempts)).
      induction l as [|a l IHl]; [cbn; lia|]. cbn [filter]. destruct (Rle_dec a eb); cbn [length]; lia. }
    rewrite minus_INR by exact B. field. apply not_0_INR. lia.
Qed.

(** ** radiometer_pd_new: noise and threshold both from the energy per bit *)

Lemma noise_scaled N c g : 0 <= c -> sqrt (noise_power N (fun j => c * g j)) = c * sqrt (noise_power N g).
Proof.
  intros Hc. unfold noise_power. rewrite (Rsum_n_ext N _ (fun j => (c * c) * (g j * g j))) by (intros; ring). rewrite Rsum_n_scale.
  unfold Rdiv. rewrite Rmult_assoc. rewrite sqrt_mult_alt by (apply Rle_0_sqr). rewrite sqrt_square by exact Hc. reflexivity.
Qed.
(** The noise is e_b / snr times a noise [g] of unit level, the threshold is snr. *)
Theorem C103_new_step :
  forall (fuel attempts attempts_var num_bits samp_rate : nat) (tx : list R) (g : R -> nat -> nat -> R) noise (snrs : list R) (G : R),
    let e_b := mean_power tx * INR (length tx) / INR (samp_rate * num_bits) in
    0 < mean_power tx -> (1 <= samp_rate * num_bits)%nat -> (length tx < fuel)%nat -> 0 <= G ->
    (forall snr, In snr snrs -> 0 < snr) ->
    (forall snr i sigma, streams (noise snr i sigma) (fun j => sigma * g snr i j)) ->
    (forall snr i, noise_power (length tx) (g snr i) <= G * G) ->
    ((forall snr, In snr snrs -> sqrt (mean_power tx) + e_b / snr * G <= sqrt snr) ->
       get_pds fuel attempts noise snrs attempts_var num_bits samp_rate tx = Ret (map (fun _ => INR attempts_var / INR attempts) snrs)) /\
    ((forall snr, In snr snrs -> sqrt snr + e_b / snr * G < sqrt (mean_power tx)) ->
       get_pds fuel attempts noise snrs attempts_var num_bits samp_rate tx = Ret (map (fun _ => 0) snrs)).
Proof.
  intros fuel attempts av nb fs tx g noise snrs G e_b HP Hn Hf HG Hs Hz Hg.
  assert (X : exists x, In x tx /\ x <> 0).
  { clear -HP. unfold mean_power in HP. destruct (Exists_dec (fun x => x <> 0) tx) as [E|E].
    - intros x. destruct (Req_EM_T x 0); [right|left]; auto.
    - apply Exists_exists in E. exact E.
    - exfalso. assert (A : Rsum (map (fun x => x * x) tx) = 0); [|rewrite A in HP; unfold Rdiv in HP; rewrite Rmult_0_l in HP; lra].
      clear HP. induction tx as [|a l IH]; [reflexivity|]. cbn. rewrite IH by (intros K; apply E; right; exact K).
      destruct (Req_dec a 0) as [->|K]; [ring|destruct E; left; exact K]. }
  pose proof (C85_get_pds fuel attempts av nb fs tx noise (fun snr i j => e_b / snr * g snr i j) snrs X Hn Hf) as E.
  cbv zeta in E. assert (Ne : 0 < INR (length tx)) by (apply lt_0_INR; destruct X as (x & Hx & _); destruct tx; [destruct Hx|cbn; lia]).
  rewrite E; [|intros snr Hi; split; [apply Rgt_not_eq, Hs, Hi|]].
  2:{ intros i. replace (Rsum (map (fun x => x * x) tx) / INR (fs * nb) / snr) with (e_b / snr); [apply Hz|].
      unfold e_b, mean_power. do 2 f_equal. field. lra. }
  clear E.
  assert (He : 0 <= e_b).
  { unfold e_b. apply mean_nonneg; [apply Rmult_le_pos; [lra|apply pos_INR]|apply pos_INR]. }
  assert (W : forall snr i, In snr snrs -> sqrt (noise_power (length tx) (fun j => e_b / snr * g snr i j)) <= e_b / snr * G).
  { intros snr i Hi. specialize (Hs snr Hi). assert (0 <= e_b / snr) by (apply mean_nonneg; lra). rewrite noise_scaled by assumption.
    apply Rmult_le_compat_l; [assumption|]. rewrite <- (sqrt_square G) by exact HG. apply sqrt_le_1_alt, Hg. }
  split; intros C; f_equal; apply map_ext_in; intros snr Hi; specialize (C snr Hi); pose proof (Hs snr Hi).
  - rewrite at_most_all; [rewrite map_length, seq_length; reflexivity|]. intros e Ie. apply in_map_iff in Ie. destruct Ie as (i & <- & _).
    apply energy_above; [|lra]. specialize (W snr i Hi). lra.
  - rewrite at_most_none; [unfold Rdiv; cbn; ring|]. intros e Ie. apply in_map_iff in Ie. destruct Ie as (i & <- & _).
    apply energy_below; [|lra]. specialize (W snr i Hi). lra.
Qed.

(** The BPSK and CDMA BPSK curves of radiometer_pd_new: 43200 samples and 900 symbols per second, carrier
    1800 Hz, thresholds between 0.9999 and 1.0001.  The curve is constantly attempts_var / attempts unless the
    unit noise has a root mean square above 300. *)
Theorem C103_bpsk_flat :
  forall (fuel attempts attempts_var nb : nat) (data key : list bool) (g : R -> nat -> nat -> R) noise (snrs : list R),
    let fs := (48 * 900)%nat in
    length data = nb -> (1 <= nb)%nat -> (nb * 48 < fuel)%nat -> length key = 16%nat ->
    (forall snr, In snr snrs -> 9999 / 10000 <= snr) ->
    (forall snr i sigma, streams (noise snr i sigma) (fun j => sigma * g snr i j)) ->
    (forall snr i, noise_power (nb * 48) (g snr i) <= 300 * 300) ->
    exists bpsk cdma w w',
      tx_bpsk_signal (of_list data) fs 900 1800 = Ret bpsk /\ yields bpsk w /\
      tx_cdma_bpsk_signal (of_list data) fs 900 1800 key = Ret cdma /\ yields cdma w' /\
      get_pds fuel attempts noise snrs attempts_var nb fs w = Ret (map (fun _ => INR attempts_var / INR attempts) snrs) /\
      get_pds fuel attempts noise snrs attempts_var nb fs w' = Ret (map (fun _ => INR attempts_var / INR attempts) snrs).
Proof.
  intros fuel attempts av nb data key g noise snrs fs Ld Hn Hf Lk Hs Hz Hg.
  assert (F900 : INR 900 = 900) by (rewrite INR_IZR_INZ; reflexivity). assert (F48 : INR 48 = 48) by (rewrite INR_IZR_INZ; reflexivity).
  assert (Ffs : INR fs = 43200) by (unfold fs; rewrite mult_INR, F900, F48; lra).
  assert (Z64 : (Z.of_nat fs <= u64_max)%Z).
  { unfold u64_max, fs. rewrite Nat2Z.inj_mul. change (Z.of_nat 48) with 48%Z. change (Z.of_nat 900) with 900%Z. lia. }
  destruct (C103_powers 48 900 nb 1800 4%Z) as (B & _ & K);
    [apply Nat.leb_le; reflexivity|apply Nat.leb_le; reflexivity|reflexivity|exact Z64|lra|fold fs; lra|rewrite F900; lra|exact Hn|].
  fold fs in B, K. destruct (K key Lk ltac:(apply Nat.leb_le; reflexivity) eq_refl) as [C _].
  destruct (B data Ld) as (it & w & Ei & Y & L & M). destruct (C data Ld) as (it' & w' & Ei' & Y' & L' & M').
  exists it, it', w, w'. repeat (split; [assumption|]).
  assert (Pn : 0 < INR nb) by (apply lt_0_INR; lia).
  assert (Go : forall v, length v = (nb * 48)%nat -> mean_power v = 1 / 2 ->
    get_pds fuel attempts noise snrs av nb fs v = Ret (map (fun _ => INR av / INR attempts) snrs)).
  { intros v Lv Mv.
    assert (Eb : mean_power v * INR (length v) / INR (fs * nb) = / 1800) by (rewrite Mv, Lv, !mult_INR, F48, Ffs; field; lra).
    destruct (C103_new_step fuel attempts av nb fs v g noise snrs 300) as [A _].
    - rewrite Mv. lra.
    - unfold fs. lia.
    - rewrite Lv. exact Hf.
    - lra.
    - intros snr Hi. specialize (Hs snr Hi). lra.
    - exact Hz.
    - intros snr i. rewrite Lv. apply Hg.
    - apply A. intros snr Hi. specialize (Hs snr Hi). rewrite Eb, Mv.
      assert (S1 : sqrt (1 / 2) <= 71 / 100) by (rewrite <- (sqrt_square (71 / 100)) by lra; apply sqrt_le_1_alt; lra).
      assert (S2 : 99 / 100 <= sqrt snr) by (rewrite <- (sqrt_square (99 / 100)) by lra; apply sqrt_le_1_alt; lra).
      assert (/ snr <= 10000 / 9999) by (replace (10000 / 9999) with (/ (9999 / 10000)) by field; apply Rinv_le_contravar; lra).
      unfold Rdiv at 2. nra. }
  split; apply Go; assumption.
Qed.

(** ** Concrete cases *)

(** Noise without power: the thresholds 1/4 and 1 around the power 1/2 of four samples of BPSK. *)
Example C103_step_case (b : bool) :
  radiometer_pds 5 (fun _ _ _ => b) (fun _ _ _ => always 0) 2 [1 / 4; 1] 3 1 (bpsk_closure 5 4 1 1) = Ret [0; 3 / 2].
Proof.
  destruct (C103_powers 4 1 1 1 2%Z) as (B & _); try lia; try (cbn; lra); [unfold u64_max; cbn; lia|]. cbn [Nat.mul Nat.add] in B.
  assert (N0 : sqrt (noise_power 4 (fun _ => 0)) = 0).
  { replace (noise_power 4 (fun _ => 0)) with 0 by (unfold noise_power; cbn; field). apply sqrt_0. }
  destruct (C103_step 5 1 4 2 3 (1 / 2) _ (fun _ _ _ => b) (fun _ _ _ => always 0) (fun _ _ _ => 0) [1 / 4; 1] B ltac:(lia) (fun _ _ => always_streams 0))
    as (ps & E & F).
  { repeat constructor; lra. }
  change (radiometer_pds 5 (fun _ _ _ => b) (fun _ _ _ => always 0) 2 [1 / 4; 1] 3 1 (bpsk_closure 5 4 1 1) = Ret ps) in E. rewrite E.
  destruct ps as [|p [|q [|]]]; try (exfalso; inversion F; subst; repeat match goal with H : Forall2 _ _ _ |- _ => inversion H; clear H; subst end; fail).
  inversion F as [|? ? ? ? [H1 _] F2]; subst. inversion F2 as [|? ? ? ? [_ H2] _]; subst.
  assert (S1 : sqrt (1 / 4) < sqrt (1 / 2)) by (apply sqrt_lt_1_alt; lra). assert (S2 : sqrt (1 / 2) <= sqrt 1) by (apply sqrt_le_1_alt; lra).
  rewrite H1, H2; [cbn [INR]; replace ((1 + 1 + 1) / (1 + 1)) with (3 / 2) by lra; reflexivity| |]; intros i _; rewrite N0; lra.
Qed.
(** Two thresholds with the same draws, and spreading by the key of the file. *)
Example C103_rises_case (b : bool) : exists p p',
  radiometer_pds 5 (fun _ _ _ => b) (fun _ _ _ => always 7) 2 [1 / 4; 1] 2 1 (bpsk_closure 5 4 1 1) = Ret [p; p'] /\ p <= p'.
Proof.
  destruct (C103_powers 4 1 1 1 2%Z) as (B & _); try lia; try (cbn; lra); [unfold u64_max; cbn; lia|]. cbn [Nat.mul Nat.add] in B.
  exact (C103_rises 5 1 4 2 2 (1 / 2) _ (fun _ _ _ => b) (fun _ _ _ => always 7) (fun _ _ _ => 7) (1 / 4) 1 B ltac:(lia) (fun _ _ => always_streams 7)
    ltac:(lra) (fun _ => conj eq_refl eq_refl)).
Qed.
Example C103_complement_case (b : bool) : exists ps qs,
  radiometer_pds 65 (fun _ i _ => xorb b (Nat.even i)) (fun _ _ _ => always 1) 10 [1; 2; 3] 10 2 (cdma_closure 65 tx_cdma_qpsk_signal 32 1 1) = Ret ps /\
  radiometer_pmds 65 (fun _ i _ => xorb b (Nat.even i)) (fun _ _ _ => always 1) tx_cdma_qpsk_signal 32 1 1 2 10 [1; 2; 3] = Ret qs /\
  Forall2 (fun p q => p + q = 1) ps qs.
Proof.
  assert (I32 : INR (32 * 1) = 32) by (rewrite INR_IZR_INZ; reflexivity).
  destruct (C103_powers 32 1 2 1 2%Z) as (_ & _ & K);
    [lia|apply Nat.leb_le; reflexivity|reflexivity|apply Z.leb_le; reflexivity|lra|rewrite I32; lra|cbn [INR]; lra|lia|].
  destruct (K key_two eq_refl ltac:(apply Nat.leb_le; reflexivity) eq_refl) as [_ C]. specialize (C ltac:(lia)). change (32 * 1)%nat with 32%nat in C.
  apply (C103_complement 65 2 (2 / 2 * 32) 10 32 1 1 1 _ _ _ (fun _ _ _ => 1) [1; 2; 3] C); [apply Nat.ltb_lt; reflexivity|intros; apply always_streams|lia].
Qed.
Example C103_flat_case (b : bool) : exists w : list R,
  get_pds 100 1000 (fun _ _ _ => always 0) [1] 1000 2 (48 * 900) w = Ret [1].
Proof.
  destruct (C103_bpsk_flat 100 1000 1000 2 [b; true] key_two (fun _ _ _ => 0) (fun _ _ _ => always 0) [1]) as (_ & _ & w & _ & _ & _ & _ & _ & E & _);
    try reflexivity; try lia.
  - intros snr [<-|[]]. lra.
  - intros snr i sigma. replace (fun j : nat => sigma * 0) with (fun _ : nat => 0); [apply always_streams|].
    apply FunctionalExtensionality.functional_extensionality. intros; ring.
  - intros snr i. replace (noise_power (2 * 48) (fun _ => 0)) with 0; [lra|]. unfold noise_power. rewrite (Rsum_n_0 _ _ (fun j _ => Rmult_0_l 0)). unfold Rdiv. ring.
  - exists w. rewrite E. cbn [map]. do 2 f_equal. unfold Rdiv. apply Rinv_r. rewrite INR_IZR_INZ. apply IZR_neq. discriminate.
Qed.

(** ** Axioms used *)
Print Assumptions C103_powers.
Print Assumptions C103_pds.
Print Assumptions C103_pmds.
Print Assumptions C103_step.
Print Assumptions C103_rises.
Print Assumptions C103_complement.
Print Assumptions C103_new_step.
Print Assumptions C103_bpsk_flat.
