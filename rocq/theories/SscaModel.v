(** /repo/src/ssca.rs.  Definitions only. *)
From Coq Require Import List Arith ZArith Bool.
From Verif Require Import Base IterModel Num LibModel ChaosModel PskModel CdmaModel FftModel OfdmModel.
Import ListNotations.
Local Open Scope num_scope.

(** A two-dimensional ndarray is the list of its rows.  [m\[\[i, j\]\]] and [m\[\[i, j\]\] = v]: out of
    bounds panics. *)
Definition aget {A} (m : list (list A)) (i j : nat) : outcome A := let? row := idx m i in idx row j.
Definition aset {A} (m : list (list A)) (i j : nat) (v : A) : outcome (list (list A)) :=
  let? row := idx m i in
  let? row' := set_idx row j v in
  set_idx m i row'.
(** Column j of an array whose rows are longer than j (the default [d] is not reached). *)
Definition column {A} (d : A) (m : list (list A)) (j : nat) : list A := map (fun row => nth j row d) m.
(** [push_row] in a loop: [body i] for every i, in order. *)
Definition push_rows {A B} (l : list A) (body : A -> outcome B) : outcome (list B) :=
  for_each l (fun rows i => let? row := body i in Ret (rows ++ [row])) [].

Section Ssca.
Context {T : Type} `{Num T}.
(** The plans of both lengths (ssca.rs:12-15). *)
Variable fft : Fft T.

(** ssca.rs:33-53: row i of xg.  The products of arrays are element by element; all have np items. *)
Definition ssca_row (s : list T) (n np i : nat) : outcome (list (cpx T)) :=
  let a := hamming_window_complex np in
  let? window := slice s i (i + np) in
  let xa := map (fun '(a_i, s_i) => cscale a_i s_i) (combine a window) in
  let? xa := fft_process np (fft_forward fft) xa in
  let xat := fftshift xa in
  let em := map (fun j =>
              let k := nofnat j - nofnat np / nofZ 2 in
              cexp_i (- nofZ 2 * npi * k * nofnat i / nofnat np)) (seq 0 np) in
  let? g := idx (hamming_window n) i in
  let? xs := push_rows (seq 0 np) (fun _ =>
               let? x := idx s (np / 2 + i)%nat in Ret (cconj (Cpx x (nofZ 0)))) in
  Ret (map (fun '((x, e), c) => cmul (cmul (cmul x e) c) (Cpx g (nofZ 0))) (combine (combine xat em) xs)).

(** ssca.rs:9-64.  g_m (ssca.rs:19-28) has np equal columns hamming_window(n): its row i, np times the
    value hamming_window(n)\[i\], is written as that value in [ssca_row]. *)
Definition ssca_base (s : list T) (n np : nat) : outcome (list (list (cpx T))) :=
  assert_then (np <? n)%nat
    (let? xg := push_rows (seq 0 n) (ssca_row s n np) in
     let? sx := push_rows (seq 0 np) (fun j =>
                  let? xgi := fft_process n (fft_forward fft) (column c0 xg j) in Ret (fftshift xgi)) in
     Ret (map (column c0 sx) (seq 0 n))).

(** ssca.rs:72-75: the cell of the result that entry (q_p, k_p) goes to. *)
Definition ssca_cell (n np q_p k_p : nat) : nat * nat :=
  let f := nofnat k_p / (nofZ 2 * nofnat np) - nofnat q_p / (nofZ 2 * nofnat n) in
  let a := nofnat k_p / nofnat np + nofnat q_p / nofnat n in
  let k := Z.to_nat (nto_u64 (nofnat np * (f + nlit 1 2))) in
  let q := Z.to_nat (nto_u64 (nofnat n * a)) in
  (k, q).

(** ssca.rs:66-80. *)
Definition ssca_mapped (s : list T) (n np : nat) : outcome (list (list (cpx T))) :=
  let? sx := ssca_base s n np in
  let sxf := repeat (repeat c0 (2 * n + 1)) (np + 1) in
  for_each (seq 0 n) (fun sxf q_p =>
    for_each (seq 0 np) (fun sxf k_p =>
      let '(k, q) := ssca_cell n np q_p k_p in
      let? v := aget sx q_p k_p in
      aset sxf k q v) sxf) sxf.
End Ssca.
