(** * mlpaper/util.py *)
From Coq Require Import Reals Permutation.
From Verif Require Import PyBase F64 Num.
Open Scope Z_scope.

(** ** one_hot, util.py 21-45 *)

(** [y.dtype.kind]: signed integers are 'i'. *)
Inductive dkind := Ki | Ku | Kb | Kf.
Definition dkind_eqb (a b : dkind) : bool :=
  match a, b with Ki, Ki | Ku, Ku | Kb, Kb | Kf, Kf => true | _, _ => false end.

(** numpy item assignment [row[j] = True] on a row of length [n]; callers only
    use 0 <= j < n (negative [j] would count from the end). *)
Fixpoint set_true (row : list bool) (j : nat) : list bool :=
  match row, j with
  | [], _ => []
  | _ :: r, O => true :: r
  | b :: r, S j' => b :: set_true r j'
  end.

(** lines 38-45.  [y_bin[range(N), y] = True] sets one cell in each row. *)
Definition one_hot (kd : dkind) (y : list Z) (n_labels : Z) : res (list (list bool)) :=
  assert! (1 <=? n_labels);
  assert! (dkind_eqb kd Ki);
  assert! (forallb (fun v => 0 <=? v) y && forallb (fun v => v <? n_labels) y);
  let zeros := repeat false (Z.to_nat n_labels) in
  Ok (map (fun v => set_true zeros (Z.to_nat v)) y).

(** ** normalize, util.py 48-69 (exact arithmetic) *)

(** [np.exp], [np.log] on the extended reals. *)
Definition xexp (a : xr) : xr :=
  match a with Fin x => Fin (exp x) | PInf => PInf | NInf => Fin 0 | NaN => NaN end.
Definition xlog (a : xr) : xr :=
  match a with
  | Fin x => if Rltb 0 x then Fin (ln x) else if Reqb x 0 then NInf else NaN
  | PInf => PInf
  | NInf | NaN => NaN
  end.

(** [np.amax]: NaN if any entry is NaN (empty raises; callers exclude it). *)
Definition amax {T} {NT : num T} (l : list T) : T :=
  match l with [] => nnan | a :: l' => fold_left nmax l' a end.
Definition amin {T} {NT : num T} (l : list T) : T :=
  match l with [] => nnan | a :: l' => fold_left nmin l' a end.

(** scipy.special.logsumexp (scipy 1.1.0) of one row: shift by the maximum,
    taken as 0 when it is not finite. *)
Definition logsumexp (row : list xr) : xr :=
  let m := amax row in
  let a_max := if nisfin m then m else n0 in
  nadd (xlog (nsum (map (fun a => xexp (nsub a a_max)) row))) a_max.

Definition normalize_row (row : list xr) : list xr :=
  let normalizer := logsumexp row in
  map (fun a => nsub a normalizer) row.

(** lines 64-69; [ncol] is [log_pred_prob.shape[1]]. *)
Definition normalize (ncol : nat) (m : list (list xr)) : res (list (list xr)) :=
  assert! (1 <=? Z.of_nat ncol);
  Ok (map normalize_row m).

Section Generic.
  Context {T : Type} {NT : num T}.

  (** ** epsilon_noise, util.py 72-102 *)

  Fixpoint insert (x : T) (l : list T) : list T :=
    match l with
    | [] => [x]
    | a :: l' => if nleb x a then x :: l else a :: insert x l'
    end.
  Fixpoint sort (l : list T) : list T :=
    match l with [] => [] | a :: l' => insert a (sort l') end.
  Fixpoint dedup (l : list T) : list T :=
    match l with
    | a :: ((b :: _) as l') => if neqb a b then dedup l' else a :: dedup l'
    | _ => l
    end.
  (** [np.unique] *)
  Definition unique (l : list T) : list T := dedup (sort l).

  Definition nhalf : T := ndiv n1 (nofZ 2).

  (** lines 93-102.  [u] is the outcome of [np.random.rand(len(x))]. *)
  Definition epsilon_noise (u x : list T) (default_epsilon max_epsilon : T) : res (list T) :=
    assert! (forallb nisfin x);
    let u_x := unique x in
    let delta := if (length u_x <=? 1)%nat then default_epsilon else amin (diff u_x) in
    let delta := nmin max_epsilon delta in
    assert! (nltb n0 delta && nleb delta max_epsilon);
    Ok (map (fun '(a, v) => nadd a (nmul delta (nsub v nhalf))) (combine x u)).

  (** ** unique_take_last, util.py 147-184 *)

  (** Boolean mask indexing. *)
  Fixpoint mask {A} (m : list bool) (l : list A) : list A :=
    match m, l with
    | b :: m', a :: l' => if b then a :: mask m' l' else mask m' l'
    | _, _ => []
    end.

  Definition utl_idx (xp : list T) : list bool :=
    match xp with [] => [] | _ => map (nltb n0) (diff xp) ++ [true] end.

  Definition unique_take_last {A} (xp : list T) (yp : option (list A)) : res (list T * option (list A)) :=
    assert! (negb (existsb nisnan xp));
    assert! (match yp with None => true | Some y => (length xp =? length y)%nat end);
    assert! (match yp with None => true | Some _ => negb (existsb nisnan xp) end);
    assert! (forallb (nleb n0) (diff xp));
    let idx := utl_idx xp in
    Ok (mask idx xp, option_map (mask idx) yp).

  (** ** eval_step_func, util.py 213-266 *)

  (** Fancy indexing with a list of valid indices. *)
  Definition take {A} (l : list A) (idx : list nat) : list A :=
    flat_map (fun i => match nth_error l i with Some a => [a] | None => [] end) idx.

  (** The order of numpy's sorting routines: NaN is the largest value. *)
  Definition npless (a b : T) : bool := nltb a b || (nisnan b && negb (nisnan a)).

  (** [np.searchsorted(xp, g, side="right")] for sorted [xp]: how many entries
      are not above [g]. *)
  Definition searchsorted_right (xp : list T) (g : T) : Z :=
    Z.of_nat (length (filter (fun x => negb (npless g x)) xp)).

  (** [l[i]] with Python's wrap around of negative indices. *)
  Definition py_index {A} (l : list A) (i : Z) : res A :=
    let i' := if i <? 0 then i + Z.of_nat (length l) else i in
    if i' <? 0 then Err IndexError else
    match nth_error l (Z.to_nat i') with Some a => Ok a | None => Err IndexError end.

  (** [argsort] is [np.argsort]: quicksort, so any sorting permutation. *)
  Definition eval_step_func {A} (argsort : list T -> list nat) (x_grid xp : list T) (yp : list A)
      (ival : option A) (assume_sorted skip_unique_chk : bool) : res (list A) :=
    assert! (length xp =? length yp)%nat;
    let idx := argsort xp in
    let '(xp, yp) := if assume_sorted then (xp, yp) else (take xp idx, take yp idx) in
    assert! (skip_unique_chk || forallb (nltb n0) (diff xp));
    do p <- (match ival with
             | None =>
                 match x_grid with
                 | [] => Ok (xp, yp)
                 | _ => do x0 <- py_index xp 0;
                        assert! (forallb (nleb x0) x_grid);
                        Ok (xp, yp)
                 end
             | Some v => Ok (nninf :: xp, v :: yp)
             end);
    let '(xp, yp) := p in
    mapM (fun g => py_index yp (searchsorted_right xp g - 1)) x_grid.

  (** ** _interp1d and interp1d, util.py 269-319 *)

  Inductive ikind := Previous | Next | Linear.

  (** [scipy.interpolate.interp1d(xp, yp, kind='linear', assume_sorted=True)]
      evaluated at [g] (scipy 1.1.0, [_call_linear_np]): [np.interp] and then
      ValueError if [g] is outside [xp[0], xp[-1]].  [np.interp] looks up the
      last [xp[j] <= g]. *)
  Definition np_interp (xp yp : list T) (g : T) : res T :=
    if nisnan g then Ok g else
    let n := Z.of_nat (length xp) in
    let j := searchsorted_right xp g - 1 in
    if j =? n - 1 then py_index yp j else
    do x0 <- py_index xp j;
    do x1 <- py_index xp (j + 1);
    do y0 <- py_index yp j;
    do y1 <- py_index yp (j + 1);
    let slope := ndiv (nsub y1 y0) (nsub x1 x0) in
    Ok (nadd (nmul slope (nsub g x0)) y0).

  Definition interp_linear (xp yp : list T) (g : T) : res T :=
    do lo <- py_index xp 0;
    do hi <- py_index xp (-1);
    if nltb g lo || nltb hi g then Err ValueError else np_interp xp yp g.

  (** lines 294-315; STRICT_SPACING is False (line 11). *)
  Definition _interp1d (x_grid xp yp : list T) (kd : ikind) : res (list T) :=
    assert! (length xp =? length yp)%nat;
    assert! (2 <=? length xp)%nat;
    assert! (forallb (nleb n0) (diff xp));
    match kd with
    | Previous =>
        do p <- unique_take_last xp (Some yp);
        let '(xp, yp) := p in
        match yp with
        | Some yp => eval_step_func (fun _ => []) x_grid xp yp None true false
        | None => Err TypeError (* unreachable *)
        end
    | Next => Err NotImplementedError
    | Linear => mapM (interp_linear xp yp) x_grid
    end.

  (** line 319: [np.vectorize] over the bootstrap axis; one common grid. *)
  Definition interp1d (x_grid : list T) (curves : list (list T * list T)) (kd : ikind)
    : res (list (list T)) :=
    mapM (fun '(xp, yp) => _interp1d x_grid xp yp kd) curves.

  (** ** area, util.py 322-360 *)

  Fixpoint map2 {A B C} (f : A -> B -> C) (l : list A) (m : list B) : list C :=
    match l, m with
    | a :: l', b :: m' => f a b :: map2 f l' m'
    | _, _ => []
    end.

  (** [y_curve[:, :-1] * np.diff(x_curve, axis=1)], [np.nansum] *)
  Definition area_previous (rows : nat) (x y : list T) : T := nansum rows (map2 nmul (removelast y) (diff x)).
  (** [np.trapz] *)
  Definition area_linear (rows : nat) (x y : list T) : T :=
    row_sum rows (map2 (fun d s => ndiv (nmul d s) (nofZ 2)) (diff x) (map2 nadd (tl y) (removelast y))).

  (** One entry per bootstrap replicate; all rows have the same width
      [ncol = x_curve.shape[1]]. *)
  Definition area (ncol : nat) (curves : list (list T * list T)) (kd : ikind) : res (list T) :=
    assert! (2 <=? ncol)%nat;
    assert! (negb (existsb (fun c => existsb nisnan (fst c)) curves));
    assert! (forallb (fun c => length (fst c) =? length (snd c))%nat curves);
    assert! (negb (existsb (fun c => existsb nisnan (snd c)) curves));
    do auc <- (match kd with
               | Previous => Ok (map (fun c => area_previous (length curves) (fst c) (snd c)) curves)
               | Linear => Ok (map (fun c => area_linear (length curves) (fst c) (snd c)) curves)
               | Next => Err NotImplementedError
               end);
    assert! (negb (existsb nisnan auc));
    Ok auc.
End Generic.

(** ** cummax_strict, util.py 187-210 (doubles) *)

(** The loop of lines 207-208; [prev] is [x[ii - 1]] after its own update. *)
Fixpoint cummax_loop (prev : f64) (l : list f64) : list f64 :=
  match l with
  | [] => []
  | a :: l' => let a' := fmax (fsucc prev) a in a' :: cummax_loop a' l'
  end.
Definition cummax_strict (x : list f64) : res (list f64) :=
  let x := match x with [] => [] | a :: l => a :: cummax_loop a l end in
  assert! (forallb (fltb f0) (diff x));
  Ok x.

(** ** clip_chk, util.py 14-18 *)

Section Clip.
  Context {T : Type} {NT : num T}.
  (** [np.clip(a, lo, hi)] of a scalar *)
  Definition nclip (a lo hi : T) : T :=
    if nltb a lo then lo else if nltb hi a then hi else a.
  (** [isclose] is [np.isclose] with its default tolerances; it only decides
      whether the assertion fires. *)
  Definition clip_chk (isclose : T -> T -> bool) (a lo hi : T) : res T :=
    let a_clip := nclip a lo hi in
    assert! (neqb a a_clip || isclose a lo || isclose a hi);
    Ok a_clip.
End Clip.

(** ** remove_chars, util.py 117-138 *)
Definition remove_chars (s del : pystr) : pystr := filter (fun c => negb (mem_char c del)) s.
