(** The iterator adapters of /repo/src/iter, as state machines over an arbitrary source.
    Definitions only; proofs are in IterProofs.v. *)
From Coq Require Import List Arith Bool.
From Verif Require Import Base.
Import ListNotations.

(** ** src/iter/inflate.rs *)

(** src/iter/inflate.rs:2-7, struct Inflate.  [copies] is a constant of the iterator. *)
Record inflate_st (X A : Type) : Type := InflateSt {
  inf_source : X;
  inf_curr_copy : nat;
  inf_curr : option A
}.
Arguments InflateSt {X A} _ _ _.
Arguments inf_source {X A} _.
Arguments inf_curr_copy {X A} _.
Arguments inf_curr {X A} _.

(** src/iter/inflate.rs:23-31, fn next.  The counter is unbounded (a usize in the code: it only
    exceeds [copies] when copies = 0, where it would overflow after 2^64 calls). *)
Definition inflate_next {A X} (copies : nat) (nx : X -> outcome (option A * X)) (s : inflate_st X A)
  : outcome (option A * inflate_st X A) :=
  if (match inf_curr s with None => true | Some _ => false end)
     || (inf_curr_copy s =? copies)
  then
    let? (o, s1) := nx (inf_source s) in
    Ret (o, InflateSt s1 1 o)
  else
    Ret (inf_curr s, InflateSt (inf_source s) (inf_curr_copy s + 1) (inf_curr s)).

(** src/iter/inflate.rs:10-17, Inflate::new; src/iter/mod.rs:74-80. *)
Definition inflate {A} (copies : nat) (it : Iter A) : Iter A :=
  MkIter (InflateSt (cur it) 0 None) (inflate_next copies (next it)).

(** ** src/iter/chunks.rs *)

(** src/iter/chunks.rs:18-27: the while loop of Chunks::next, [room] = num_chunks - buf.len(). *)
Fixpoint fill_buf {A X} (room : nat) (nx : X -> outcome (option A * X)) (s : X)
  : outcome (list A * X) :=
  match room with
  | 0 => Ret ([], s)
  | S room' =>
      let? (o, s1) := nx s in
      match o with
      | None => Ret ([], s1)
      | Some t => let? (buf, s2) := fill_buf room' nx s1 in Ret (t :: buf, s2)
      end
  end.

(** src/iter/chunks.rs:15-33, Chunks::next. *)
Definition chunks_next {A X} (num_chunks : nat) (nx : X -> outcome (option A * X)) (s : X)
  : outcome (option (list A) * X) :=
  let? (buf, s1) := fill_buf num_chunks nx s in
  match buf with
  | [] => Ret (None, s1)
  | _ :: _ => Ret (Some buf, s1)
  end.

(** src/iter/chunks.rs:7-9, src/iter/mod.rs:22-28. *)
Definition chunks {A} (num_chunks : nat) (it : Iter A) : Iter (list A) :=
  MkIter (cur it) (chunks_next num_chunks (next it)).

(** src/iter/chunks.rs:59-69: the for loop of WholeChunks::next; [d] is T::default(). *)
Fixpoint fill_whole {A X} (d : A) (room : nat) (nx : X -> outcome (option A * X)) (s : X) (done : bool)
  : outcome (list A * X * bool) :=
  match room with
  | 0 => Ret ([], s, done)
  | S room' =>
      let? (o, s1) := nx s in
      match o with
      | Some t =>
          let? (buf, s2, dn) := fill_whole d room' nx s1 done in Ret (t :: buf, s2, dn)
      | None =>
          let? (buf, s2, dn) := fill_whole d room' nx s1 true in Ret (d :: buf, s2, dn)
      end
  end.

(** src/iter/chunks.rs:55-76, WholeChunks::next; the state is (source, done). *)
Definition wchunks_next {A X} (d : A) (num_chunks : nat) (nx : X -> outcome (option A * X))
  (s : X * bool) : outcome (option (list A) * (X * bool)) :=
  let '(s0, done) := s in
  let? (buf, s1, dn) := (if done then Ret ([], s0, true) else fill_whole d num_chunks nx s0 false) in
  match buf with
  | [] => Ret (None, (s1, dn))
  | _ :: _ => Ret (Some buf, (s1, dn))
  end.

(** src/iter/chunks.rs:43-49, src/iter/mod.rs:34-40. *)
Definition wchunks {A} (d : A) (num_chunks : nat) (it : Iter A) : Iter (list A) :=
  MkIter (cur it, false) (wchunks_next d num_chunks (next it)).

(** ** src/iter/take_every.rs *)

(** src/iter/take_every.rs:20-30, Take::next.  The state is (source, curr).  The loop
    runs until curr is a multiple of frequency, i.e. at most [frequency] times: that is the fuel.
    [x % 0] panics. *)
Fixpoint take_every_loop {A X} (fuel frequency : nat) (nx : X -> outcome (option A * X)) (s : X) (c : nat)
  : outcome (option A * (X * nat)) :=
  match fuel with
  | 0 => Diverge
  | S fuel' =>
      match frequency with
      | 0 => Panic
      | S _ =>
          if c mod frequency =? 0
          then let? (o, s1) := nx s in Ret (o, (s1, c + 1))
          else let? (_, s1) := nx s in take_every_loop fuel' frequency nx s1 (c + 1)
      end
  end.
Definition take_every_next {A X} (frequency : nat) (nx : X -> outcome (option A * X)) (s : X * nat)
  : outcome (option A * (X * nat)) :=
  take_every_loop (S frequency) frequency nx (fst s) (snd s).

(** src/iter/take_every.rs:8-14, src/iter/mod.rs:162-167. *)
Definition take_every {A} (frequency : nat) (it : Iter A) : Iter A :=
  MkIter (cur it, 0) (take_every_next frequency (next it)).

(** ** src/iter/integrate.rs *)

(** src/iter/integrate.rs:21-24, Integrate::next; the state is (source, sum).
    [add] is AddAssign of the item type. *)
Definition integrate_next {A X} (add : A -> A -> A) (nx : X -> outcome (option A * X)) (s : X * A)
  : outcome (option A * (X * A)) :=
  let '(s0, sum) := s in
  let? (o, s1) := nx s0 in
  match o with
  | None => Ret (None, (s1, sum))
  | Some v => Ret (Some (add sum v), (s1, add sum v))
  end.

(** src/iter/integrate.rs:7-12 ([d] is T::default()), src/iter/mod.rs:90-96. *)
Definition integrate {A} (d : A) (add : A -> A -> A) (it : Iter A) : Iter A :=
  MkIter (cur it, d) (integrate_next add (next it)).

(** src/iter/integrate.rs:59-60 and 129-130: row.zip(sum.iter_mut()).for_each(|(row, sum)| *sum += row)
    on arrays [T; N] (lists of one length). *)
Fixpoint lanes_add {A} (add : A -> A -> A) (sum row : list A) : list A :=
  match sum, row with
  | s :: sum', r :: row' => add s r :: lanes_add add sum' row'
  | _, _ => sum
  end.

(** src/iter/integrate.rs:40-45 and 55-62, Nintegrate: Integrate on arrays, lane by lane. *)
Definition nintegrate {A} (N : nat) (d : A) (add : A -> A -> A) (it : Iter (list A)) : Iter (list A) :=
  integrate (repeat d N) (lanes_add add) it.

(** src/iter/integrate.rs:84-86: the for loop of IntegrateDump::next; [None] = the [?] returned early. *)
Fixpoint dump_loop {A X} (add : A -> A -> A) (n : nat) (nx : X -> outcome (option A * X)) (s : X) (sum : A)
  : outcome (option A * X) :=
  match n with
  | 0 => Ret (Some sum, s)
  | S n' =>
      let? (o, s1) := nx s in
      match o with
      | None => Ret (None, s1)
      | Some v => dump_loop add n' nx s1 (add sum v)
      end
  end.

(** src/iter/integrate.rs:71-73 and 82-88, IntegrateDump; src/iter/mod.rs:120-126. *)
Definition integrate_and_dump {A} (d : A) (add : A -> A -> A) (dump_every : nat) (it : Iter A) : Iter A :=
  MkIter (cur it) (fun s => dump_loop add dump_every (next it) s d).

(** src/iter/integrate.rs:106-113 and 123-133, NintegrateDump (its fields curr and sum are
    never used by next); src/iter/mod.rs:128-134. *)
Definition nintegrate_and_dump {A} (N : nat) (d : A) (add : A -> A -> A) (dump_every : nat)
  (it : Iter (list A)) : Iter (list A) :=
  integrate_and_dump (repeat d N) (lanes_add add) dump_every it.

(** ** src/iter/scale.rs *)

(** src/iter/scale.rs:15-17, Scale::next. *)
Definition scale {A B} (mul : A -> B -> A) (scalar : B) (it : Iter A) : Iter A :=
  imap (fun x => mul x scalar) it.

(** ** src/iter/convolution.rs *)

(** src/iter/convolution.rs:32-38, _convolve: front-to-back over the buffer, against the filter
    reversed, multiplied and summed from the left.  [zero]/[add] are [Sum]'s for the item
    type, [mul] takes (buffer item, tap). *)
Definition convolve_sum {A B C} (zero : C) (add : C -> C -> C) (mul : A -> B -> C)
  (buffer : list A) (filter : list B) : C :=
  fold_left add (map (fun '(b, f) => mul b f) (combine buffer (rev filter))) zero.

(** src/iter/convolution.rs:48-72, Convolver::next.  The state is (source, buffer), the head of
    the list being the front of the VecDeque; pop_back is [removelast]. *)
Definition convolve_next {A B C X} (zero : C) (add : C -> C -> C) (mul : A -> B -> C) (filter : list B)
  (nx : X -> outcome (option A * X)) (s : X * list A) : outcome (option C * (X * list A)) :=
  let '(s0, buffer) := s in
  let? (o, s1) := nx s0 in
  match o with
  | Some num =>
      let buffer1 := num :: buffer in
      let buffer2 :=
        if length filter <? length buffer1 then removelast buffer1 else buffer1 in
      Ret (Some (convolve_sum zero add mul buffer2 filter), (s1, buffer2))
  | None =>
      if length buffer <=? 1 then Ret (None, (s1, buffer))
      else
        let buffer2 := removelast buffer in
        Ret (Some (convolve_sum zero add mul buffer2 filter), (s1, buffer2))
  end.

(** src/iter/convolution.rs:23-30, Convolver::new; src/iter/mod.rs:46-52. *)
Definition convolve {A B C} (zero : C) (add : C -> C -> C) (mul : A -> B -> C) (filter : list B)
  (it : Iter A) : Iter C :=
  MkIter (cur it, []) (convolve_next zero add mul filter (next it)).

(** src/iter/convolution.rs:99-110 and 120-141, Nonvolver: the same machine on arrays [T; N];
    [ret\[jdx\] += buf * filt] for each lane jdx, starting from the default value. *)
Definition nonvolve {A B} (N : nat) (zero : A) (add : A -> A -> A) (mul : A -> B -> A) (filter : list B)
  (it : Iter (list A)) : Iter (list A) :=
  convolve (repeat zero N) (lanes_add add) (fun lanes f => map (fun b => mul b f) lanes) filter it.
