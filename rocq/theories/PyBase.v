(** Common vocabulary of the model: Python exceptions as values, strings as
    lists of characters, dictionaries as association lists.  Nothing here
    models a function of /repo; it is the target language of the model. *)
From Coq Require Export Ascii String.
From Coq Require Export List ZArith NArith Bool Lia.
From Coq Require Import ZifyBool ZifyNat ZifyN.
Export ListNotations.
Open Scope Z_scope.
Open Scope list_scope.

(** ** Exceptions as values *)

(** The exception classes that the modelled code can raise. *)
Inductive exn :=
| AssertionError | ValueError | TypeError | KeyError | IndexError
| NotImplementedError | InvalidOperation (* decimal.InvalidOperation *).

Inductive res (A : Type) := Ok (a : A) | Err (e : exn).
Arguments Ok {A} a.
Arguments Err {A} e.

Definition bind {A B} (m : res A) (f : A -> res B) : res B :=
  match m with Ok a => f a | Err e => Err e end.
Notation "'do' x <- m ; f" := (bind m (fun x => f))
  (at level 200, x name, m at level 100, f at level 200).
Notation "'do' ' p <- m ; f" := (bind m (fun p => f))
  (at level 200, p strict pattern, m at level 100, f at level 200).

(** [assert b]: a Python [assert] statement. *)
Definition py_assert (b : bool) : res unit := if b then Ok tt else Err AssertionError.
Notation "'assert!' b ; f" := (bind (py_assert b) (fun _ => f))
  (at level 200, b at level 100, f at level 200).

Definition is_ok {A} (m : res A) : bool := match m with Ok _ => true | Err _ => false end.

(** A Python loop / comprehension whose body can raise; the first exception
    wins. *)
Fixpoint mapM {A B} (f : A -> res B) (l : list A) : res (list B) :=
  match l with
  | [] => Ok []
  | a :: l' => do b <- f a; do bs <- mapM f l'; Ok (b :: bs)
  end.

(** ** Strings *)

Definition pystr := list ascii.
Definition str (s : string) : pystr := list_ascii_of_string s.
Definition show (s : pystr) : string := string_of_list_ascii s.

Definition ascii_eqb_refl := Ascii.eqb_refl.

Fixpoint pystr_eqb (a b : pystr) : bool :=
  match a, b with
  | [], [] => true
  | x :: a', y :: b' => Ascii.eqb x y && pystr_eqb a' b'
  | _, _ => false
  end.

(** [c in s] *)
Definition mem_char (c : ascii) (s : pystr) : bool := existsb (Ascii.eqb c) s.

(** [s.find(c)] for a one character needle: index of the first occurrence, or
    -1. *)
Fixpoint find_char (c : ascii) (s : pystr) : Z :=
  match s with
  | [] => -1
  | x :: s' => if Ascii.eqb x c then 0
               else let r := find_char c s' in if r <? 0 then -1 else r + 1
  end.

(** [c * n] (string repetition; non-positive counts give the empty string). *)
Definition rep_char (c : ascii) (n : Z) : pystr := repeat c (Z.to_nat n).

Definition strlen (s : pystr) : Z := Z.of_nat (List.length s).

(** [s.replace(a, b)] for single characters. *)
Definition replace_char (a b : ascii) (s : pystr) : pystr :=
  map (fun c => if Ascii.eqb c a then b else c) s.

(** ** Dictionaries with string keys *)

Definition dict (V : Type) := list (pystr * V).
Fixpoint dict_get {V} (d : dict V) (k : pystr) : option V :=
  match d with
  | [] => None
  | (k', v) :: d' => if pystr_eqb k k' then Some v else dict_get d' k
  end.
Definition dict_get_def {V} (d : dict V) (k : pystr) (v : V) : V :=
  match dict_get d k with Some v' => v' | None => v end.

(** Python's [min]/[max] of a non-empty list of integers; empty raises
    ValueError. *)
Definition py_min (l : list Z) : res Z :=
  match l with [] => Err ValueError | a :: l' => Ok (fold_left Z.min l' a) end.
Definition py_max (l : list Z) : res Z :=
  match l with [] => Err ValueError | a :: l' => Ok (fold_left Z.max l' a) end.

Lemma Ok_inj {A} (a b : A) : Ok a = Ok b -> a = b.
Proof. intros H; inversion H; reflexivity. Qed.
