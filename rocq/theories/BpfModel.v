(** /repo/src/bpf.rs, [bandpass], and the crate realfft as it uses it.  Definitions only. *)
From Coq Require Import List Arith ZArith Reals Bool.
From Verif Require Import Base IterModel Spec Num LibModel SpecC FftModel.
Import ListNotations.

(** The two plans of one length n of realfft 3.3 (bpf.rs:16-18).  [make_output_vec] of the forward
    plan has n/2+1 bins, that of the inverse plan n samples.  The inverse plan's [process] returns
    an error (here [None]) on inputs it rejects; realfft documents that it rejects a non-zero
    imaginary part in the first bin, and in the last bin of an even length. *)
Record RealFft (T : Type) : Type := {
  rfft_forward : list T -> list (cpx T);
  rfft_inverse : nat -> list (cpx T) -> option (list T);
  rfft_forward_length : forall x, length (rfft_forward x) = length x / 2 + 1;
  rfft_inverse_length : forall n z y, rfft_inverse n z = Some y -> length y = n
}.
Arguments rfft_forward {T} _ _.
Arguments rfft_inverse {T} _ _ _.
Arguments rfft_forward_length {T} _ _.
Arguments rfft_inverse_length {T} _ _ _ _ _.

Section Bandpass.
Context {T : Type} `{Num T}.
Variable fft : RealFft T.

(** bpf.rs:20-22.  Simplified: the product [i * sample_rate] is exact; overflow of usize is not
    modelled. *)
Definition bp_frequencies (sample_rate fft_len : nat) : list T :=
  map (fun i => ndiv (nofnat (i * sample_rate)) (nofnat fft_len)) (seq 0 fft_len).

(** bpf.rs:31-38: [zip] stops at the shorter list, the rest of the spectrum stays. *)
Fixpoint bp_mask (low high : T) (spectrum : list (cpx T)) (frequencies : list T) : list (cpx T) :=
  match spectrum, frequencies with
  | s :: spectrum', f :: frequencies' =>
      (if nltb f low || nltb high f then c0 else s) :: bp_mask low high spectrum' frequencies'
  | _, _ => spectrum
  end.

(** The closure of bpf.rs:24-45. *)
Definition bp_block (low high : T) (sample_rate fft_len : nat) (chunk : list T) : outcome (list T) :=
  assert_then (length chunk =? fft_len)
    (let spectrum := rfft_forward fft chunk in
     let spectrum := bp_mask low high spectrum (bp_frequencies sample_rate fft_len) in
     match rfft_inverse fft fft_len spectrum with
     | None => Panic
     | Some real_sig => Ret (map (fun s_i => ndiv s_i (nofnat fft_len)) real_sig)
     end).

(** bpf.rs:9-46. *)
Definition bandpass (low high : T) (stream : Iter T) (sample_rate fft_len : nat) : Iter T :=
  iflat_map tt (fun _ chunk => let? l := bp_block low high sample_rate fft_len chunk in Ret (l, tt))
            (chunks fft_len stream).
End Bandpass.

(** Exact arithmetic: the first n/2+1 values of the DFT, and the inverse transform of the
    spectrum extended by conjugate symmetry. *)
Definition real_forward (x : list R) : list (cpx R) :=
  firstn (length x / 2 + 1) (dft (map (fun v => Cpx v 0%R) x) ++ [Cpx 0%R 0%R]).
Definition half_extend (n : nat) (z : list (cpx R)) : list (cpx R) :=
  tab n (fun k => if k <=? n / 2 then nth k z (Cpx 0%R 0%R) else cconj (nth (n - k) z (Cpx 0%R 0%R))).
Definition real_inverse (n : nat) (z : list (cpx R)) : option (list R) :=
  if Req_EM_T (im (nth 0 z (Cpx 0%R 0%R))) 0%R then
    if Nat.even n then
      if Req_EM_T (im (nth (n / 2) z (Cpx 0%R 0%R))) 0%R then Some (map re (idft (half_extend n z))) else None
    else Some (map re (idft (half_extend n z)))
  else None.

Lemma real_forward_length x : length (real_forward x) = length x / 2 + 1.
Proof.
  unfold real_forward. rewrite firstn_length_le; [reflexivity|].
  rewrite app_length, dft_length, map_length. cbn [length].
  destruct (length x) as [|m]; [apply le_n|]. pose proof (Nat.div_lt (S m) 2 (Nat.lt_0_succ m) (le_n 2)).
  rewrite 2!Nat.add_1_r. apply le_n_S, Nat.lt_le_incl. assumption.
Qed.
Lemma real_inverse_length n z y : real_inverse n z = Some y -> length y = n.
Proof.
  assert (L : length (map re (idft (half_extend n z))) = n)
    by (rewrite map_length, idft_length; unfold half_extend, tab; rewrite map_length, seq_length; reflexivity).
  unfold real_inverse. destruct (Req_EM_T _ _); [|discriminate].
  destruct (Nat.even n); [destruct (Req_EM_T _ _); [|discriminate]|]; intros [= <-]; exact L.
Qed.
Definition exact_real_fft : RealFft R := {|
  rfft_forward := real_forward; rfft_inverse := real_inverse;
  rfft_forward_length := real_forward_length; rfft_inverse_length := real_inverse_length |}.
