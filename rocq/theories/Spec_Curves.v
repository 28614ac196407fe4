(** What the performance curves should be, in elementary terms: total weights
    of the samples selected by score and label. *)
From Coq Require Import Reals Lra List Sorted Bool.
From Verif Require Import Num.
Import ListNotations.
Open Scope R_scope.

(** Total weight of the samples whose (score, label) is selected. *)
Fixpoint wt (sel : R -> bool -> bool) (s : list R) (y : list bool) (w : list R) : R :=
  match s, y, w with
  | a :: s', b :: y', c :: w' => (if sel a b then c else 0) + wt sel s' y' w'
  | _, _, _ => 0
  end.

(** Samples with label [c]: all of them, and those with score at least, above
    or equal to [t]. *)
Definition w_all (c : bool) := wt (fun _ b => eqb b c).
Definition w_ge (c : bool) (t : R) := wt (fun a b => eqb b c && Rleb t a).
Definition w_gt (c : bool) (t : R) := wt (fun a b => eqb b c && Rltb t a).
Definition w_eq (c : bool) (t : R) := wt (fun a b => eqb b c && Reqb t a).

(** One row of weights per curve; no weights means every weight is one. *)
Definition weight_rows (sw : option (list (list R))) (n : nat) : list (list R) :=
  match sw with None => [repeat 1 n] | Some W => W end.

Definition valid_input (s : list R) (y : list bool) (sw : option (list (list R))) : Prop :=
  length s = length y /\ s <> [] /\
  match sw with
  | None => True
  | Some W => W <> [] /\ Forall (fun w => length w = length y /\ Forall (fun c => 0 < c) w) W
  end.

(** Both labels occur. *)
Definition two_class (y : list bool) : Prop := In true y /\ In false y.

(** The distinct scores, in decreasing order. *)
Definition distinct_desc (s D : list R) : Prop :=
  StronglySorted Rgt D /\ forall x, In x D <-> In x s.

(** The weighted probability that a positive outscores a negative, ties
    counting one half, times the weight of all pairs. *)
Fixpoint pair_wins_against (a c : R) (s : list R) (y : list bool) (w : list R) : R :=
  match s, y, w with
  | b :: s', l :: y', d :: w' =>
      (if l then 0 else c * d * (if Rltb b a then 1 else if Reqb b a then 1 / 2 else 0))
      + pair_wins_against a c s' y' w'
  | _, _, _ => 0
  end.
Fixpoint pair_wins_from (s0 : list R) (y0 : list bool) (w0 : list R) (s : list R) (y : list bool) (w : list R) : R :=
  match s, y, w with
  | a :: s', l :: y', c :: w' =>
      (if l then pair_wins_against a c s0 y0 w0 else 0) + pair_wins_from s0 y0 w0 s' y' w'
  | _, _, _ => 0
  end.
Definition pair_wins (s : list R) (y : list bool) (w : list R) : R := pair_wins_from s y w s y w.
Definition mann_whitney (s : list R) (y : list bool) (w : list R) : R :=
  pair_wins s y w / (w_all true s y w * w_all false s y w).
