(** The numbers of the code.  Numeric Rust code is modelled once, over the operations of a type [T]
    (class [Num]), and instantiated twice: at the reals and at IEEE-754 binary64. *)
From Coq Require Import List ZArith Reals Bool.
From Flocq Require Import Core BinarySingleNaN.
Import ListNotations.

(** The operations of [f64] the code uses. *)
Class Num (T : Type) : Type := {
  nadd : T -> T -> T;           (* + *)
  nsub : T -> T -> T;           (* - *)
  nmul : T -> T -> T;           (* * *)
  ndiv : T -> T -> T;           (* / *)
  nopp : T -> T;                (* unary - *)
  nabs : T -> T;                (* f64::abs *)
  nsqrt : T -> T;               (* f64::sqrt *)
  nltb : T -> T -> bool;        (* < *)
  nleb : T -> T -> bool;        (* <= *)
  neqb : T -> T -> bool;        (* == *)
  nfinite : T -> bool;          (* f64::is_finite *)
  nofZ : Z -> T;                (* [usize as f64], and integer literals *)
  nto_u64 : T -> Z;             (* [f64 as u64], [f64 as usize]: truncates, saturates, NaN to 0 *)
  nsin : T -> T;
  ncos : T -> T;
  nexp : T -> T;
  nlog10 : T -> T;
  npow : T -> T -> T;           (* f64::powf *)
  npi : T;                      (* std::f64::consts::PI *)
  nsum0 : T                     (* what [Iterator::sum::<f64>] starts from *)
}.

Declare Scope num_scope.
Delimit Scope num_scope with num.
Infix "+" := nadd : num_scope.
Infix "-" := nsub : num_scope.
Infix "*" := nmul : num_scope.
Infix "/" := ndiv : num_scope.
Notation "- x" := (nopp x) : num_scope.

(** [usize as f64]. *)
Definition nofnat {T} `{Num T} (n : nat) : T := nofZ (Z.of_nat n).

(** A decimal literal p/q: p and q below 2^53, so at binary64 the division rounds the literal
    correctly, as the compiler does. *)
Definition nlit {T} `{Num T} (p q : Z) : T := ndiv (nofZ p) (nofZ q).

(** [x.powi(2)]: one multiplication. *)
Definition nsqr {T} `{Num T} (x : T) : T := nmul x x.

(** [x.powi(n)], n >= 0, as the square-and-multiply loop of compiler-rt's __powidf2:
    r = 1; loop { if b & 1 { r *= a }; b /= 2; if b == 0 { break }; a *= a }. *)
Fixpoint npowi_loop {T} `{Num T} (r a : T) (b : positive) : T :=
  match b with
  | xH => nmul r a
  | xO b' => npowi_loop r (nmul a a) b'
  | xI b' => npowi_loop (nmul r a) (nmul a a) b'
  end.
Definition npowi {T} `{Num T} (a : T) (b : positive) : T := npowi_loop (nofZ 1) a b.

(** [iter.sum::<f64>()]. *)
Definition nsum {T} `{Num T} (l : list T) : T := fold_left nadd l nsum0.

(** ** Exact reals *)

Definition u64_max : Z := (2 ^ 64 - 1)%Z.

Definition clamp_u64 (z : Z) : Z := Z.max 0 (Z.min u64_max z).

#[global] Instance NumR : Num R := {
  nadd := Rplus; nsub := Rminus; nmul := Rmult; ndiv := Rdiv; nopp := Ropp; nabs := Rabs; nsqrt := R_sqrt.sqrt;
  nltb := fun x y => if Rlt_dec x y then true else false;
  nleb := fun x y => if Rle_dec x y then true else false;
  neqb := fun x y => if Req_EM_T x y then true else false;
  nfinite := fun _ => true;
  nofZ := IZR;
  nto_u64 := fun x => clamp_u64 (Ztrunc x);
  nsin := sin; ncos := cos; nexp := exp;
  nlog10 := fun x => Rdiv (ln x) (ln 10);
  npow := Rpower;
  npi := PI;
  nsum0 := 0%R
}.

(** ** IEEE-754 binary64, round to nearest even *)

Definition F64 : Type := binary_float 53 1024.

#[global] Instance prec53 : Prec_gt_0 53 := eq_refl.
#[global] Instance emax1024 : Prec_lt_emax 53 1024 := eq_refl.

(** The parts of f64 that IEEE-754 leaves open.  A theorem about F64 is stated for every [Libm].
    [libm_sum_neg]: Iterator::sum starts from -0.0 since Rust 1.83 and from 0.0 before. *)
Record Libm : Type := {
  libm_sin : F64 -> F64;
  libm_cos : F64 -> F64;
  libm_exp : F64 -> F64;
  libm_log10 : F64 -> F64;
  libm_pow : F64 -> F64 -> F64;
  libm_sum_neg : bool
}.

Definition f64_ofZ (z : Z) : F64 := binary_normalize 53 1024 _ _ mode_NE z 0 false.

Definition f64_to_u64 (x : F64) : Z :=
  match x with
  | B754_nan => 0
  | B754_infinity s => if s then 0 else u64_max
  | _ => clamp_u64 (Btrunc x)
  end%Z.

(** std::f64::consts::PI = 0x400921FB54442D18 = 7074237752028440 * 2^-51. *)
Definition f64_pi : F64 := binary_normalize 53 1024 _ _ mode_NE 7074237752028440 (-51) false.

Definition NumF (m : Libm) : Num F64 := {|
  nadd := Bplus mode_NE; nsub := Bminus mode_NE; nmul := Bmult mode_NE; ndiv := Bdiv mode_NE;
  nopp := Bopp; nabs := Babs; nsqrt := Bsqrt mode_NE;
  nltb := Bltb; nleb := Bleb; neqb := Beqb;
  nfinite := is_finite;
  nofZ := f64_ofZ;
  nto_u64 := f64_to_u64;
  nsin := libm_sin m; ncos := libm_cos m; nexp := libm_exp m; nlog10 := libm_log10 m; npow := libm_pow m;
  npi := f64_pi;
  nsum0 := B754_zero (libm_sum_neg m)
|}.

(** ** Complex numbers (crate num-complex) *)

Record cpx (T : Type) : Type := Cpx { re : T; im : T }.
Arguments Cpx {T} re im.
Arguments re {T} _.
Arguments im {T} _.

Section Cpx.
Context {T : Type} `{Num T}.
Definition c0 : cpx T := Cpx (nofZ 0) (nofZ 0).
Definition cadd (a b : cpx T) : cpx T := Cpx (nadd (re a) (re b)) (nadd (im a) (im b)).
Definition csub (a b : cpx T) : cpx T := Cpx (nsub (re a) (re b)) (nsub (im a) (im b)).
(** Complex * Complex: re = a.re*b.re - a.im*b.im, im = a.re*b.im + a.im*b.re. *)
Definition cmul (a b : cpx T) : cpx T :=
  Cpx (nsub (nmul (re a) (re b)) (nmul (im a) (im b))) (nadd (nmul (re a) (im b)) (nmul (im a) (re b))).
(** Complex * f64, f64 * Complex, Complex / f64, Complex + f64. *)
Definition cscale (a : cpx T) (s : T) : cpx T := Cpx (nmul (re a) s) (nmul (im a) s).
Definition scalec (s : T) (a : cpx T) : cpx T := Cpx (nmul s (re a)) (nmul s (im a)).
Definition cdivs (a : cpx T) (s : T) : cpx T := Cpx (ndiv (re a) s) (ndiv (im a) s).
Definition cadds (a : cpx T) (s : T) : cpx T := Cpx (nadd (re a) s) (im a).
(** Complex::conj, Complex::norm_sqr. *)
Definition cconj (a : cpx T) : cpx T := Cpx (re a) (nopp (im a)).
Definition cnorm_sqr (a : cpx T) : T := nadd (nmul (re a) (re a)) (nmul (im a) (im a)).
(** Sum for Complex: fold from zero. *)
Definition csum (l : list (cpx T)) : cpx T := fold_left cadd l c0.
End Cpx.
