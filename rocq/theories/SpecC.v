(** Textbook complex sums and the discrete Fourier transform over the reals, used in theorem
    statements and as the exact instance of the FFT crate. *)
From Coq Require Import List ZArith Reals.
From Verif Require Import Spec Num.
Import ListNotations.
Local Open Scope R_scope.

(** Sum of f 0 ... f (n-1). *)
Fixpoint Csum_n (n : nat) (f : nat -> cpx R) : cpx R :=
  match n with O => Cpx 0 0 | S n' => cadd (Csum_n n' f) (f n') end.

(** e^(i x). *)
Definition cis (x : R) : cpx R := Cpx (cos x) (sin x).

(** e^(2 pi i z / n). *)
Definition root (n : nat) (z : Z) : cpx R := cis (2 * PI * IZR z / INR n).

(** Modulus. *)
Definition cmod (a : cpx R) : R := sqrt (re a * re a + im a * im a).

(** Forward transform: X k = sum over j of x j e^(-2 pi i j k / n). *)
Definition dft (x : list (cpx R)) : list (cpx R) :=
  tab (length x) (fun k => Csum_n (length x) (fun j =>
    cmul (nth j x (Cpx 0 0)) (root (length x) (- (Z.of_nat j * Z.of_nat k))))).
(** Inverse transform without the factor 1/n. *)
Definition idft (x : list (cpx R)) : list (cpx R) :=
  tab (length x) (fun k => Csum_n (length x) (fun j =>
    cmul (nth j x (Cpx 0 0)) (root (length x) (Z.of_nat j * Z.of_nat k)))).
