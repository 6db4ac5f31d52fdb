(** /repo/src/lib.rs: bit packing, checks, small numeric helpers; /repo/src/willie.rs energy detector.
    Definitions only. *)
From Coq Require Import List Arith ZArith NArith Bool.
From Verif Require Import Base IterModel Num.
Import ListNotations.

(** ** Bits and bytes.  A u8 is an [N] below 256. *)

(** src/lib.rs:48-56.  The index i is below 8, so [1 << i] does not overflow. *)
Definition bool_to_u8 (bools : list bool) : N :=
  fold_left (fun out '(i, b) => if b : bool then N.lor out (N.shiftl 1 (N.of_nat i)) else out)
            (firstn (Nat.min (length bools) 8) (index_from 0 bools)) 0%N.

(** src/lib.rs:58-65. *)
Definition u8_to_bools (data : N) : list bool :=
  map (fun i => negb (N.land data (N.shiftl 1 (N.of_nat i)) =? 0)%N) (seq 0 8).

(** src/lib.rs:74-76: [while !last_chunk.len() < 8 { push(false) }]; [!] on a usize is the bitwise
    complement.  At most 8 rounds are possible before [!len] wraps to 0 (a Vec that long
    cannot exist anyway): that is the fuel. *)
Fixpoint pad_loop (fuel : nat) (chunk : list bool) : list bool :=
  match fuel with
  | 0 => chunk
  | S fuel' =>
      if (two64 - 1 - Z.of_nat (length chunk) <? 8)%Z then pad_loop fuel' (chunk ++ [false]) else chunk
  end.

(** src/lib.rs:67-82. *)
Definition bools_to_u8s (bools : Iter bool) : Iter N :=
  imap (fun chunk => if negb (length chunk =? 8) then bool_to_u8 (pad_loop 8 chunk) else bool_to_u8 chunk)
       (chunks 8 bools).

(** src/lib.rs:84-86. *)
Definition u8s_to_bools (bytes : Iter N) : Iter bool := iflat_map tt (pure_fn u8_to_bools) bytes.

(** ** Slices *)

(** Indexing a slice: out of bounds panics. *)
Definition idx {A} (l : list A) (i : nat) : outcome A :=
  match nth_error l i with Some a => Ret a | None => Panic end.
Fixpoint set_idx {A} (l : list A) (i : nat) (v : A) : outcome (list A) :=
  match l, i with
  | [], _ => Panic
  | _ :: r, 0 => Ret (v :: r)
  | a :: r, S i' => let? r' := set_idx r i' v in Ret (a :: r')
  end.
(** A [for] loop over a list of loop values, with a mutable state. *)
Fixpoint for_each {A X} (l : list A) (body : X -> A -> outcome X) (s : X) : outcome X :=
  match l with
  | [] => Ret s
  | a :: r => let? s1 := body s a in for_each r body s1
  end.

(** usize::div_ceil(2). *)
Definition div_ceil2 (n : nat) : nat := (n + 1) / 2.

(** src/lib.rs:142-148. *)
Definition fftshift {A} (x : list A) : list A :=
  let pivot := div_ceil2 (length x) in skipn pivot x ++ firstn pivot x.

(** src/lib.rs:150-159. *)
Definition fftshift_mut {A} (x : list A) : outcome (list A) :=
  let pivot := div_ceil2 (length x) in
  let v := firstn pivot x in
  let? x1 := for_each (index_from 0 (seq pivot (length x - pivot)))
                      (fun x '(i, j) => let? a := idx x j in set_idx x i a) x in
  for_each (combine (seq 0 pivot) v) (fun x '(i, item) => set_idx x i item) x1.

(** ** Numeric helpers *)
Section Numeric.
Context {T : Type} `{Num T}.
Local Open Scope num_scope.

(** src/lib.rs:88-90. *)
Definition is_int (num : T) : bool := neqb num (nofZ (nto_u64 num)).

(** src/lib.rs:118-120. *)
Definition db (x : T) : T := nofZ 10 * nlog10 x.
(** src/lib.rs:123-125. *)
Definition undb (x : T) : T := npow (nofZ 10) (x / nofZ 10).

(** src/lib.rs:128-131. *)
Definition linspace (start stop : T) (num : nat) : Iter T :=
  let step := (stop - start) / nofnat num in
  imap (fun i => start + step * nofnat i) (of_list (seq 0 num)).

(** src/lib.rs:134-140. *)
Definition bit_to_nrz (b : bool) : T := if b then nofZ 1 else - nofZ 1.

(** src/lib.rs:163-175: the local variable tau of erf. *)
Definition erf_tau (x : T) : T :=
  let t := nofZ 1 / (nofZ 1 + nlit 1 2 * nabs x) in
  t *
    nexp (- nsqr x - nlit 126551223 100000000
          + nlit 100002368 100000000 * t
          + nlit 37409196 100000000 * npowi t 2
          + nlit 9678418 100000000 * npowi t 3
          - nlit 18628806 100000000 * npowi t 4
          + nlit 27886807 100000000 * npowi t 5
          - nlit 113520398 100000000 * npowi t 6
          + nlit 148851587 100000000 * npowi t 7
          - nlit 82215223 100000000 * npowi t 8
          + nlit 17087277 100000000 * npowi t 9).
(** src/lib.rs:162-181. *)
Definition erf (x : T) : T :=
  let tau := erf_tau x in
  if nleb (nofZ 0) x then nofZ 1 - tau else tau - nofZ 1.

(** src/lib.rs:184-186. *)
Definition erfc (x : T) : T := nofZ 1 - erf x.

(** src/lib.rs:188-192. *)
Definition hamming_window (length : nat) : list T :=
  map (fun i => nlit 54 100 - nlit 46 100 * ncos (nofZ 2 * npi * nofnat i / nofnat length)) (seq 0 length).
(** src/lib.rs:194-203. *)
Definition hamming_window_complex (length : nat) : list (cpx T) :=
  map (fun i => Cpx (nlit 54 100 - nlit 46 100 * ncos (nofZ 2 * npi * nofnat i / nofnat length)) (nofZ 0))
      (seq 0 length).

(** src/lib.rs:206-214. *)
Definition ber (tx rx : list bool) : T :=
  let len := Nat.min (length tx) (length rx) in
  let errors := fold_left Nat.add (map (fun '(ti, ri) => if Bool.eqb ti ri then 0%nat else 1%nat) (combine tx rx)) 0%nat in
  nofnat errors / nofnat len.

(** rand_distr 0.4 Normal::new(0, sigma).unwrap(): panics unless sigma is finite.  The samples drawn
    afterwards are an arbitrary endless iterator, the parameter [noise] at this deviation. *)
Definition normal_new {A} (sigma : T) (k : outcome A) : outcome A := assert_then (nfinite sigma) k.

(** src/lib.rs:216-227. *)
Definition awgn_complex (noise : T -> Iter T) (signal : Iter (cpx T)) (sigma : T) : outcome (Iter (cpx T)) :=
  normal_new sigma (Ret (imap (fun '(sample, noise) => cadds sample noise) (izip signal (noise sigma)))).
(** src/lib.rs:229-237, and 401-411 (which collects). *)
Definition awgn (noise : T -> Iter T) (signal : Iter T) (sigma : T) : outcome (Iter T) :=
  normal_new sigma (Ret (imap (fun '(sample, noise) => sample + noise) (izip signal (noise sigma)))).

(** src/lib.rs:414-420, before collect. *)
Definition pure_awgn (noise : T -> Iter T) (size : nat) (sigma : T) : outcome (Iter T) :=
  normal_new sigma (Ret (itake size (noise sigma))).

(** src/lib.rs:241-243 and 247-249. *)
Definition avg_energy (signal : list T) : T := nsum (map nsqr signal) / nofnat (length signal).

(** src/lib.rs:251-253; the signal iterator is given as the list it yields. *)
Definition energy (signal : list T) (sample_rate : T) : T := nsum (map nsqr signal) / sample_rate.

(** src/lib.rs:255-261. *)
Definition power (signal : list T) (sample_rate : T) : T :=
  let '(count, power) :=
    fold_left (fun acc '(idx, sample) => (idx, snd acc + nsqr sample)) (index_from 0 signal) (0%nat, nofZ 0) in
  power / nofnat count / sample_rate.

(** src/lib.rs:395-397. *)
Definition energy_detector (signal : list T) : T := nofZ 10 * nlog10 (nsum (map nsqr signal)).

(** src/willie.rs:21-24. *)
Definition willie_energy_detector (signal : list T) (n0 : T) : bool :=
  let energy := nsum (map nsqr signal) / nofnat (length signal) in
  nltb n0 (nsqrt energy).

End Numeric.

(** ** src/lib.rs:92-115: trait IsNan and no_nans, on f64 and Complex<f64>.
    [x == f64::NAN] is an IEEE comparison. *)
Definition f64_nan : F64 := BinarySingleNaN.B754_nan.
Definition f64_inf : F64 := BinarySingleNaN.B754_infinity false.
Definition f64_neg_inf : F64 := BinarySingleNaN.B754_infinity true.
Definition isnan_f64 (x : F64) : bool :=
  BinarySingleNaN.Beqb x f64_nan || BinarySingleNaN.Beqb x f64_inf || BinarySingleNaN.Beqb x f64_neg_inf.
Definition isnan_complex (z : cpx F64) : bool :=
  BinarySingleNaN.Beqb (re z) f64_nan || BinarySingleNaN.Beqb (im z) f64_nan
  || BinarySingleNaN.Beqb (re z) f64_inf || BinarySingleNaN.Beqb (im z) f64_inf
  || BinarySingleNaN.Beqb (re z) f64_neg_inf || BinarySingleNaN.Beqb (im z) f64_neg_inf.
Definition no_nans {A} (is_nan : A -> bool) (v : list A) : bool := negb (existsb is_nan v).
