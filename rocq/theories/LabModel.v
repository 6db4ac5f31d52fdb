(** The experiments around the package: the statistics of kom_py/willie.py and src/willie.rs, the
    example kom_py/pd_ber_snr_example.py, the ROC table of kom_py/lambdas.py and roc.py, the bit error
    harness of tests/ber.rs and the radiometer of tests/billiam.rs.  Definitions only.

    scipy and scikit-learn are not modelled: what they compute is a parameter, except the normal
    density and [roc_curve], whose formulas are written out. *)
From Coq Require Import List Arith ZArith Bool.
From Flocq Require Import BinarySingleNaN.
From Verif Require Import Base Num LibModel SscaModel.
Import ListNotations.
Local Open Scope num_scope.

Section Stats.
Context {T : Type} `{Num T}.

(** [np.mean] and [np.std].  Simplified: numpy adds in pairs, the model from left to right. *)
Definition np_sum (l : list T) : T := fold_left nadd l (nofZ 0).
Definition np_mean (l : list T) : T := np_sum l / nofnat (length l).
Definition np_std (l : list T) : T := nsqrt (np_mean (map (fun x => nsqr (nabs (x - np_mean l))) l)).

(** [scipy.stats.norm.pdf(x, mu, sigma)]: exp(-z**2 / 2) / sqrt(2 pi) / sigma at z = (x - mu) / sigma;
    [None] is the nan scipy answers unless sigma > 0. *)
Definition norm_pdf (mu sigma x : T) : option T :=
  if nltb (nofZ 0) sigma then
    let z := (x - mu) / sigma in
    Some (nexp (- nsqr z / nofZ 2) / nsqrt (nofZ 2 * npi) / sigma)
  else None.

(** [np.prod], from left to right; a nan makes the product nan. *)
Definition np_prod (l : list (option T)) : option T :=
  fold_left (fun acc o => match acc, o with Some a, Some b => Some (a * b) | _, _ => None end) l (Some (nofZ 1)).

(** kom_py/willie.py:32-49.  [ppf] is [scipy.stats.norm.ppf].  The prints are left out; comparing
    with nan is false. *)
Definition kom_neyman_pearson (ppf : T -> T) (signal : list T) (n0 alpha : T) : bool :=
  let mu0 := nofZ 0 in
  let mu1 := np_mean signal in
  let sigma0 := n0 in
  let sigma1 := np_std signal in
  let p0 := np_prod (map (norm_pdf mu0 sigma0) signal) in
  let p1 := np_prod (map (norm_pdf mu1 sigma1) signal) in
  let threshold := ppf (nofZ 1 - alpha) in
  match p0, p1 with
  | Some p0, Some p1 => let likelihood_ratio := p0 / p1 in nltb threshold likelihood_ratio
  | _, _ => false
  end.
(** The default of its parameter alpha, 0.05. *)
Definition NP_ALPHA : T := nlit 5 100.

(** kom_py/willie.py:52-55.  [normaltest] is the p-value of [scipy.stats.normaltest], or its
    exception. *)
Definition kom_p_value (normaltest : list T -> outcome T) (signal : list T) (n0 : T) : outcome bool :=
  let? pvalue := normaltest signal in Ret (nltb pvalue (nlit 5 100)).

(** src/willie.rs:3-15 and 17-19: the same p-value through pyo3; [unwrap] panics on an exception. *)
Definition normal_detector (normaltest : list T -> outcome T) (signal : list T) (alpha : T) : outcome bool :=
  let? p := normaltest signal in Ret (nltb alpha p).

(** kom_py/pd_ber_snr_example.py:11-12. *)
Definition logistic_curve (x x0 L k : T) : T := L / (nofZ 1 + nexp (- k * (x - x0))).

(** kom_py/pd_ber_snr_example.py:19-23: [while True] reads vec\[idx\], and both branches leave idx as
    it is. *)
Fixpoint find_idx_closest_to_point (fuel : nat) (point : T) (vec : list T) (i : nat) : outcome nat :=
  match fuel with
  | O => Diverge
  | S f => let? v := idx vec i in
           if nltb point v then find_idx_closest_to_point f point vec i else find_idx_closest_to_point f point vec i
  end.

End Stats.

(** ** The table of kom_py/lambdas.py *)
Section Roc.
Context {T : Type} `{Num T}.

(** A row of df_test (lambdas.py:92-98): the statistic x, the class y, the fitted probability. *)
Record row : Type := Row { r_x : T; r_y : bool; r_proba : T }.
(** A row with the columns added at lambdas.py:103-111. *)
Record full_row : Type := FullRow { f_row : row; f_tpr : T; f_fpr : T; f_j : T }.

(** [sklearn.metrics.roc_curve(y, score, drop_intermediate=False)] on rows in descending order of the
    score: after the last row of each run of equal scores, how many rows of each class have been
    seen; a zero in front; and both divided by their last value.  Simplified: where a class is
    missing sklearn answers nan with a warning, the model divides by 0. *)
Fixpoint clf_curve (fp tp : nat) (l : list row) : list (nat * nat) :=
  match l with
  | [] => []
  | r :: rest =>
      let fp := if r_y r then fp else S fp in
      let tp := if r_y r then S tp else tp in
      match rest with
      | [] => [(fp, tp)]
      | r2 :: _ => if neqb (r_proba r2 - r_proba r) (nofZ 0) then clf_curve fp tp rest else (fp, tp) :: clf_curve fp tp rest
      end
  end.
Definition roc_curve (desc : list row) : list T * list T :=
  let pts := (0%nat, 0%nat) :: clf_curve 0 0 desc in
  let '(fp, tp) := last pts (0%nat, 0%nat) in
  (map (fun p => nofnat (fst p) / nofnat fp) pts, map (fun p => nofnat (snd p) / nofnat tp) pts).

(** lambdas.py:103-110: [col\[::-1\]] if the curve has as many points as there are H0 samples, else
    [col\[1:\]\[::-1\]]; pandas raises if the length is not that of the table. *)
Definition column_of (n_h0 rows : nat) (col : list T) : outcome (list T) :=
  let c := if (length col =? n_h0)%nat then rev col else rev (tl col) in
  assert_then (length c =? rows)%nat (Ret c).

(** lambdas.py:75-114.  [test] is the second half of [train_test_split]: the labelled samples used for
    testing.  [proba] is the fitted regression's probability of class 1.  [sort] is
    [sort_values(by="proba")]; roc_curve sorts by the same key, and its treatment of equal scores does
    not show in the result.  roc.py:48-78 is the same with the second branch only. *)
Definition log_regress (test : list (T * bool) -> list (T * bool)) (proba : T -> T) (sort : list row -> list row)
  (h0 h1 : list T) : outcome (list full_row) :=
  let labelled := map (fun x => (x, false)) h0 ++ map (fun x => (x, true)) h1 in
  let df := map (fun '(x, y) => Row x y (proba x)) (test labelled) in
  let '(fpr, tpr) := roc_curve (rev (sort df)) in
  let df := sort df in
  let? tpr := column_of (length h0) (length df) tpr in
  let? fpr := column_of (length h0) (length df) fpr in
  Ret (map (fun '(r, (t, f)) => FullRow r t f (t - f)) (combine df (combine tpr fpr))).

(** lambdas.py:122-123: max(abs(lr\["youden_j"\])); raises on an empty table. *)
Definition youden_j (lr : list full_row) : outcome T :=
  match map (fun r => nabs (f_j r)) lr with
  | [] => Panic
  | a :: l => Ret (fold_left (fun m x => if nltb m x then x else m) l a)
  end.

(** lambdas.py:218-220: the x of the first row after sorting by youden_j, largest first. *)
Definition best_threshold (sort_j : list full_row -> list full_row) (lr : list full_row) : outcome T :=
  match sort_j lr with
  | [] => Panic
  | r :: _ => Ret (r_x (f_row r))
  end.

End Roc.
Arguments row T : clear implicits.
Arguments full_row T : clear implicits.

(** ** The harness of tests/ber.rs *)

(** tests/util/mod.rs:156-164.  std::f64::MAX = (2^53 - 1) * 2^971. *)
Definition f64_max : F64 := binary_normalize 53 1024 _ _ mode_NE (2 ^ 53 - 1) 971 false.
Definition not_inf (num : F64) : F64 :=
  if Beqb num f64_inf then f64_max else if Beqb num f64_neg_inf then Bopp f64_max else num.

Section Harness.
Context {T : Type} `{Num T}.
(** [not_inf] at the number type. *)
Variable ninf : T -> T.

(** The last lines of both macros: errors among the received bits, over the number of bits sent. *)
Definition error_rate (fuel : nat) (rx : Iter bool) (data : list bool) : outcome T :=
  let? pairs := collect fuel (izip rx (of_list data)) in
  Ret (nsum (map (fun '(rx, tx) => if Bool.eqb rx tx then nofZ 0 else nofZ 1) pairs) / nofnat (length data)).

(** tests/ber.rs:66-92 [calculate_bers!].  [noise snr sigma] is the sequence drawn for one snr
    from the distribution of deviation sigma; par_iter keeps the order of the results. *)
Definition calculate_bers (fuel : nat) (data : list bool) (tx_sig : list T) (rx : Iter T -> outcome (Iter bool))
  (noise : T -> T -> Iter T) (snrs : list T) : outcome (list T) :=
  push_rows snrs (fun snr =>
    let eb := nsum (map nsqr tx_sig) / nofnat (length data) in
    let n0 := ninf (nsqrt (nofZ 2 * eb / snr)) in
    normal_new (n0 / nofZ 2)
      (let noisy_signal := imap (fun '(symb, noise) => symb + noise) (izip (of_list tx_sig) (noise snr (n0 / nofZ 2))) in
       let? received := rx noisy_signal in
       error_rate fuel received data)).

(** tests/ber.rs:94-124 [calculate_bers_baseband!]: Complex + f64 adds to the real part. *)
Definition calculate_bers_baseband (fuel : nat) (data : list bool) (tx_sig : list (cpx T))
  (rx : Iter (cpx T) -> outcome (Iter bool)) (noise : T -> T -> Iter T) (snrs : list T) : outcome (list T) :=
  push_rows snrs (fun snr =>
    let eb := nsum (map cnorm_sqr tx_sig) / nofnat (length data) in
    let n0 := ninf (nsqrt (eb / (nofZ 2 * snr))) in
    normal_new n0
      (let noisy_signal := imap (fun '(symb, noise) => cadds symb noise) (izip (of_list tx_sig) (noise snr n0)) in
       let? received := rx noisy_signal in
       error_rate fuel received data)).

(** tests/ber.rs:27-32 and 34-39. *)
Definition ber_bpsk (eb_nos : list T) : list T := map (fun eb_no => nlit 1 2 * erfc (nsqrt eb_no)) eb_nos.
Definition ber_qpsk (eb_nos : list T) : list T :=
  map (fun eb_no => nlit 1 2 * erfc (nsqrt eb_no) - nlit 1 4 * nsqr (erfc (nsqrt eb_no))) eb_nos.

(** tests/eb.rs:13-18 [check_eb!]: the energy of everything the transmitter yields, per bit. *)
Definition check_eb (fuel num_bits : nat) (tx : Iter T) : outcome T :=
  let? tx_sig := collect fuel tx in Ret (nsum (map nsqr tx_sig) / nofnat num_bits).
(** tests/eb.rs:39-41: the other measure. *)
Definition bpsk_eb_2 (fuel num_bits : nat) (tx : Iter T) : outcome T :=
  let? tx_sig := collect fuel tx in Ret (avg_energy tx_sig / nofnat num_bits).

(** ** The radiometer of tests/billiam.rs *)

(** billiam.rs:45-49: how many energies do not exceed the threshold, over the constant [attempts].
    Lines 239-243 are the same with another threshold. *)
Definition p_d (threshold : T) (attempts : nat) (energies : list T) : T :=
  nofnat (fold_left Nat.add (map (fun nrg => if nltb threshold nrg then 0%nat else 1%nat) energies) 0%nat) / nofnat attempts.
(** billiam.rs:418-422 and 475-479: how many exceed it. *)
Definition p_md (eb : T) (attempts : nat) (energies : list T) : T :=
  nofnat (fold_left Nat.add (map (fun nrg => if nltb eb nrg then 1%nat else 0%nat) energies) 0%nat) / nofnat attempts.

(** billiam.rs:25-54 [get_pds] of radiometer_pd_new; [attempts] is the constant of line 61, not the
    parameter [attempts_var].  [noise snr i sigma] is the noise of one attempt at deviation sigma. *)
Definition get_pds (fuel attempts : nat) (noise : T -> nat -> T -> Iter T) (snrs : list T) (attempts_var num_bits samp_rate : nat)
  (tx : list T) : outcome (list T) :=
  let e_b := nsum (map nsqr tx) / nofnat (samp_rate * num_bits) in
  push_rows snrs (fun snr =>
    let n_0 := e_b / snr in
    let? energies := push_rows (seq 0 attempts_var) (fun i =>
      let? chan := awgn (noise snr i) (of_list tx) n_0 in
      let? chan_sig := collect fuel chan in
      Ret (avg_energy chan_sig)) in
    Ret (p_d (e_b / n_0) attempts energies)).

End Harness.
