(** The crate rustfft, as used by /repo/src/ofdm.rs, fh_ofdm_dcsk.rs, bpf.rs and ssca.rs.
    Definitions only. *)
From Coq Require Import List Arith ZArith Reals Bool.
From Verif Require Import Base Spec Num SpecC.
Import ListNotations.

(** A plan for one length: any two functions that keep the length.  Nothing else is assumed of the
    binary64 transforms; over the reals the theorems use [exact_fft]. *)
Record Fft (T : Type) : Type := {
  fft_forward : list (cpx T) -> list (cpx T);
  fft_inverse : list (cpx T) -> list (cpx T);
  fft_forward_length : forall x, length (fft_forward x) = length x;
  fft_inverse_length : forall x, length (fft_inverse x) = length x
}.
Arguments fft_forward {T} _ _.
Arguments fft_inverse {T} _ _.
Arguments fft_forward_length {T} _ _.
Arguments fft_inverse_length {T} _ _.

(** [fft.process_with_scratch(buffer, scratch)] (and [process]) of a plan of length n: transforms
    every run of n items; panics if the buffer is shorter than n or not a whole number of runs. *)
Definition fft_process {T} (n : nat) (transform : list (cpx T) -> list (cpx T)) (buffer : list (cpx T))
  : outcome (list (cpx T)) :=
  if n =? 0 then Ret buffer
  else if (length buffer <? n) || negb (length buffer mod n =? 0) then Panic
  else Ret (flat_map (fun i => transform (firstn n (skipn (i * n) buffer))) (seq 0 (length buffer / n))).

(** Exact arithmetic: rustfft documents its transforms as unnormalised DFTs. *)
Lemma dft_length x : length (dft x) = length x.
Proof. unfold dft, tab. rewrite map_length, seq_length. reflexivity. Qed.
Lemma idft_length x : length (idft x) = length x.
Proof. unfold idft, tab. rewrite map_length, seq_length. reflexivity. Qed.
Definition exact_fft : Fft R := {|
  fft_forward := dft; fft_inverse := idft;
  fft_forward_length := dft_length; fft_inverse_length := idft_length |}.
