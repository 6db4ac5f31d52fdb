(** The cyclostationary detectors of /repo/src/lib.rs:316-371.  Definitions only. *)
From Coq Require Import List Arith ZArith Bool.
From Verif Require Import Base Num LibModel FftModel SscaModel.
Import ListNotations.
Local Open Scope num_scope.

Section Detect.
Context {T : Type} `{Num T}.
Variable fft : Fft T.
(** ndarray's [sum_axis] on one lane.  The order of the additions is the library's: in exact
    arithmetic it does not matter, and the binary64 theorems hold for every order they name. *)
Variable lane_sum : list T -> T.

(** [|a, b| a.partial_cmp(b).unwrap()]: panics on a pair with a NaN. *)
Definition cmp_unwrap (a b : T) : outcome comparison :=
  if neqb a b then Ret Eq else if nltb a b then Ret Lt else if nltb b a then Ret Gt else Panic.
(** [iter.max_by(..)]: the later of two equal items is kept. *)
Definition max_by_cmp (l : list T) : outcome (option T) :=
  match l with
  | [] => Ret None
  | x :: l' =>
      let? m := for_each l' (fun m y => let? c := cmp_unwrap m y in Ret (match c with Gt => m | _ => y end)) x in
      Ret (Some m)
  end.
(** [Option::unwrap]. *)
Definition unwrap {A} (o : option A) : outcome A := match o with Some a => Ret a | None => Panic end.

(** lib.rs:334-346 (dcs_detector_sxf) on the array sx, and the same lines of dcs_detector (322-330).
    The columns are those of row 0: the array is rectangular. *)
Definition dcs_detector_sxf (sx : list (list (cpx T))) : outcome T :=
  let? row0 := idx sx 0%nat in
  let top := map (fun j => lane_sum (map cnorm_sqr (column c0 sx j))) (seq 0 (length row0)) in
  let bot := map cnorm_sqr row0 in
  let? best := max_by_cmp (map (fun '(t, b) => t / b) (combine top bot)) in
  let? lambda := unwrap best in
  Ret (nofZ 10 * nlog10 lambda).

(** lib.rs:361-370 (max_cut_detector_sxf), and the same lines of max_cut_detector (352-358). *)
Definition max_cut_detector_sxf (sxf : list (list (cpx T))) : outcome T :=
  let? best := max_by_cmp (map cnorm_sqr (concat sxf)) in
  let? lambda := unwrap best in
  Ret (nofZ 10 * nlog10 lambda).

(** The sizes np = 64 and n = 4096 of lib.rs:318-319 and 350-351. *)
Definition det_np : nat := Z.to_nat 64.
Definition det_n : nat := Z.to_nat 4096.

(** lib.rs:316-331. *)
Definition dcs_detector (signal : list T) : outcome T :=
  let? sx := ssca_base fft signal det_n det_np in dcs_detector_sxf sx.

(** lib.rs:348-359. *)
Definition max_cut_detector (signal : list T) : outcome T :=
  let? sx := ssca_base fft signal det_n det_np in max_cut_detector_sxf sx.
End Detect.
