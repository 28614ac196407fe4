(** Numbers as numpy sees them.  The numerical code is modelled once, over an
    interface [num] of floating point operations, and instantiated twice:
    - [f64_num]: IEEE binary64 with rounding (what the machine computes);
    - [xr_num]: the reals extended with +-inf and NaN, i.e. floating point
      arithmetic with the rounding, overflow and signed zeros taken away. *)
From Coq Require Import Reals Lra.
From Verif Require Import PyBase F64.
Open Scope R_scope.

Class num (T : Type) := {
  n0 : T; n1 : T; ninf : T; nninf : T; nnan : T;
  nadd : T -> T -> T; nsub : T -> T -> T; nmul : T -> T -> T; ndiv : T -> T -> T;
  nltb : T -> T -> bool; nleb : T -> T -> bool; neqb : T -> T -> bool;
  nisnan : T -> bool; nisfin : T -> bool;
  nofZ : Z -> T;
  (** [np.floor(x).astype(int)] and [np.ceil(x).astype(int)] of a finite [x] *)
  nfloorZ : T -> Z; nceilZ : T -> Z
}.

(** ** IEEE doubles *)
Global Instance f64_num : num f64 := {
  n0 := f0; n1 := f_of_Z 1; ninf := finf; nninf := fninf; nnan := fnan;
  nadd := fadd; nsub := fsub; nmul := fmul; ndiv := fdiv;
  nltb := fltb; nleb := fleb; neqb := feqb;
  nisnan := fisnan; nisfin := fisfin;
  nofZ := f_of_Z;
  nfloorZ := fun x => ftruncZ (ffloor x); nceilZ := fun x => ftruncZ (fceil x)
}.

(** ** Extended reals *)
Inductive xr := Fin (r : R) | PInf | NInf | NaN.

Definition Rltb (a b : R) : bool := if Rlt_dec a b then true else false.
Definition Rleb (a b : R) : bool := if Rle_dec a b then true else false.
Definition Reqb (a b : R) : bool := if Req_EM_T a b then true else false.

Lemma Rltb_spec a b : Rltb a b = true <-> a < b.
Proof. unfold Rltb. destruct (Rlt_dec a b); split; auto; discriminate || contradiction. Qed.
Lemma Rleb_spec a b : Rleb a b = true <-> a <= b.
Proof. unfold Rleb. destruct (Rle_dec a b); split; auto; discriminate || contradiction. Qed.
Lemma Reqb_spec a b : Reqb a b = true <-> a = b.
Proof. unfold Reqb. destruct (Req_EM_T a b); split; auto; discriminate || contradiction. Qed.
Lemma Rltb_false a b : Rltb a b = false <-> b <= a.
Proof. unfold Rltb. destruct (Rlt_dec a b); split; intros; auto; try discriminate; lra. Qed.
Lemma Rleb_false a b : Rleb a b = false <-> b < a.
Proof. unfold Rleb. destruct (Rle_dec a b); split; intros; auto; try discriminate; lra. Qed.

Definition xopp (a : xr) : xr :=
  match a with Fin x => Fin (- x) | PInf => NInf | NInf => PInf | NaN => NaN end.
Definition xadd (a b : xr) : xr :=
  match a, b with
  | Fin x, Fin y => Fin (x + y)
  | NaN, _ | _, NaN => NaN
  | PInf, NInf | NInf, PInf => NaN
  | PInf, _ | _, PInf => PInf
  | NInf, _ | _, NInf => NInf
  end.
Definition xsub (a b : xr) : xr := xadd a (xopp b).
(** Infinity times a finite number: NaN for 0. *)
Definition xinf_mul (pos : bool) (x : R) : xr :=
  if Reqb x 0 then NaN else if Bool.eqb pos (Rltb 0 x) then PInf else NInf.
Definition xmul (a b : xr) : xr :=
  match a, b with
  | Fin x, Fin y => Fin (x * y)
  | NaN, _ | _, NaN => NaN
  | PInf, Fin x | Fin x, PInf => xinf_mul true x
  | NInf, Fin x | Fin x, NInf => xinf_mul false x
  | PInf, PInf | NInf, NInf => PInf
  | PInf, NInf | NInf, PInf => NInf
  end.
(** Division: x/0 is +-inf by the sign of x (zero is taken as +0), 0/0 and
    inf/inf are NaN. *)
Definition xdiv (a b : xr) : xr :=
  match a, b with
  | NaN, _ | _, NaN => NaN
  | Fin x, Fin y =>
      if Reqb y 0 then (if Reqb x 0 then NaN else if Rltb 0 x then PInf else NInf) else Fin (x / y)
  | Fin _, _ => Fin 0
  | PInf, Fin y => if Rltb y 0 then NInf else PInf
  | NInf, Fin y => if Rltb y 0 then PInf else NInf
  | _, _ => NaN
  end.
Definition xleb (a b : xr) : bool :=
  match a, b with
  | NaN, _ | _, NaN => false
  | Fin x, Fin y => Rleb x y
  | NInf, _ | _, PInf => true
  | _, _ => false
  end.
Definition xltb (a b : xr) : bool :=
  match a, b with
  | NaN, _ | _, NaN => false
  | Fin x, Fin y => Rltb x y
  | NInf, NInf | PInf, PInf => false
  | NInf, _ | _, PInf => true
  | _, _ => false
  end.
Definition xeqb (a b : xr) : bool :=
  match a, b with
  | Fin x, Fin y => Reqb x y
  | PInf, PInf | NInf, NInf => true
  | _, _ => false
  end.
Definition xisnan (a : xr) : bool := match a with NaN => true | _ => false end.
Definition xisfin (a : xr) : bool := match a with Fin _ => true | _ => false end.

Global Instance xr_num : num xr := {
  n0 := Fin 0; n1 := Fin 1; ninf := PInf; nninf := NInf; nnan := NaN;
  nadd := xadd; nsub := xsub; nmul := xmul; ndiv := xdiv;
  nltb := xltb; nleb := xleb; neqb := xeqb;
  nisnan := xisnan; nisfin := xisfin;
  nofZ := fun n => Fin (IZR n);
  nfloorZ := fun x => match x with Fin r => Zfloor r | _ => 0%Z end;
  nceilZ := fun x => match x with Fin r => Zceil r | _ => 0%Z end
}.

(** ** numpy helpers over any [num] *)
Section Numpy.
  Context {T : Type} {NT : num T}.

  (** [np.diff] *)
  Fixpoint diff (l : list T) : list T :=
    match l with
    | a :: (b :: _) as l' => nsub b a :: diff l'
    | _ => []
    end.

  (** The sum from left to right: [np.dot], and [np.sum] along the longer
      stride of a matrix, see [row_sum]. *)
  Definition nsum (l : list T) : T := fold_left nadd l n0.

  (** [np.sum] of a vector, or of the rows of a matrix stored row by row:
      [pairwise_sum] of numpy 1.15 (numpy/core/src/umath/loops.c.src).  Up to
      128 terms are added in eight interleaved sums, longer vectors are split
      in two at a multiple of eight. *)
  Fixpoint sum8 (r0 r1 r2 r3 r4 r5 r6 r7 : T) (l : list T) : T :=
    match l with
    | a0 :: a1 :: a2 :: a3 :: a4 :: a5 :: a6 :: a7 :: l' =>
        sum8 (nadd r0 a0) (nadd r1 a1) (nadd r2 a2) (nadd r3 a3) (nadd r4 a4) (nadd r5 a5) (nadd r6 a6) (nadd r7 a7) l'
    | _ => fold_left nadd l (nadd (nadd (nadd r0 r1) (nadd r2 r3)) (nadd (nadd r4 r5) (nadd r6 r7)))
    end.
  Definition sum_block (l : list T) : T :=
    match l with
    | a0 :: a1 :: a2 :: a3 :: a4 :: a5 :: a6 :: a7 :: l' => sum8 a0 a1 a2 a3 a4 a5 a6 a7 l'
    | _ => fold_left nadd l n0
    end.
  (** [depth] bounds the recursion; the length of the vector is enough. *)
  Fixpoint pairwise_sum (depth : nat) (l : list T) : T :=
    match depth with
    | O => sum_block l
    | S k =>
        if (length l <=? 128)%nat then sum_block l else
        let n2 := (length l / 2 - (length l / 2) mod 8)%nat in
        nadd (pairwise_sum k (firstn n2 l)) (pairwise_sum k (skipn n2 l))
    end.
  Definition psum (l : list T) : T := nadd n0 (pairwise_sum (length l) l).

  (** One entry of [np.sum(m, axis=1)] for a matrix [m] with [rows] rows made
      with [a[:, idx]] or computed from such.  numpy stores these column by
      column and adds whole columns, so that each row is summed from left to
      right; a single row is summed like a vector. *)
  Definition row_sum (rows : nat) (l : list T) : T := if (rows =? 1)%nat then psum l else nsum l.
  (** [np.nansum(m, axis=1)] *)
  Definition nansum (rows : nat) (l : list T) : T := row_sum rows (map (fun x => if nisnan x then n0 else x) l).

  (** [np.minimum], [np.maximum] *)
  Definition nmin (a b : T) : T := if nleb a b || nisnan a then a else b.
  Definition nmax (a b : T) : T := if nleb b a || nisnan a then a else b.

  (** [np.cumsum] *)
  Fixpoint cumsum_from (acc : T) (l : list T) : list T :=
    match l with
    | [] => []
    | a :: l' => let s := nadd acc a in s :: cumsum_from s l'
    end.
  Definition cumsum (l : list T) : list T :=
    match l with [] => [] | a :: l' => a :: cumsum_from a l' end.
End Numpy.

(** ** Order laws shared by both instances *)

Class num_ok {T} (NT : num T) : Prop := {
  leb_refl_ : forall x : T, nisnan x = false -> nleb x x = true;
  leb_total_ : forall x y : T, nisnan x = false -> nisnan y = false -> nleb x y = true \/ nleb y x = true;
  leb_trans_ : forall x y z : T, nleb x y = true -> nleb y z = true -> nleb x z = true;
  leb_notnan_ : forall x y : T, nleb x y = true -> nisnan x = false /\ nisnan y = false;
  ltb_notnan_ : forall x y : T, nltb x y = true -> nisnan x = false /\ nisnan y = false;
  ltb_leb_ : forall x y : T, nisnan x = false -> nisnan y = false -> nltb x y = negb (nleb y x);
  eqb_leb_ : forall x y : T, neqb x y = nleb x y && nleb y x;
  (** the sign of a difference decides the order *)
  diff_pos_ : forall x y : T, nisnan x = false -> nisnan y = false -> nltb n0 (nsub y x) = nltb x y;
  diff_nonneg_ : forall x y : T, nisfin x = true -> nisfin y = true -> nleb n0 (nsub y x) = nleb x y;
  diff_nonneg_le_ : forall x y : T, nleb n0 (nsub y x) = true -> nleb x y = true;
  fin_notnan_ : forall x : T, nisfin x = true -> nisnan x = false;
  ninf_le_ : forall x : T, nisnan x = false -> nleb nninf x = true;
  ninf_min_ : forall x : T, nleb x nninf = true -> nisfin x = false;
  ninf_notnan_ : nisnan (nninf : T) = false
}.
