(** Model of mlpaper/data_splitter.py.

    - Series values are elements of a type [A] with a boolean equality and a
      boolean total order; [None] is a null (NaN/None) entry.  The linear split
      needs arithmetic, so it works on the doubles obtained from the values
      (identity for float columns, [float(n)] for integer columns).
    - Fractions are IEEE doubles and all arithmetic on them is IEEE arithmetic.
    - [np.random.permutation(n)], on which [np.random.choice(replace=False)] is
      built (numpy 1.15), is an oracle [rng n]: an arbitrary list, which the
      theorems assume to be a permutation of [0..n-1].
    - pandas aligns masks on the index; every mask used here carries the index
      of the frame itself, so masks are positional lists. *)
From Verif Require Import PyBase F64.
Open Scope Z_scope.
Open Scope list_scope.

Definition f1 : f64 := f_of_Z 1.
Definition zlen {T} (l : list T) : Z := Z.of_nat (List.length l).
Definition count {T} (p : T -> bool) (l : list T) : Z := zlen (filter p l).

(** [0.0 <= frac and frac <= 1.0] *)
Definition frac_ok (frac : f64) : bool := fleb f0 frac && fleb frac f1.

(** data_splitter.py 93-116.  [np.random.choice(x, N, replace=False)] is
    [x[permutation(len(x))[:N]]] and raises ValueError for empty [x]. *)
Definition choice {T} (x : list T) (N : Z) (rng : nat -> list nat) : res (list T) :=
  match x with
  | [] => Err ValueError
  | _ => Ok (flat_map (fun i => match nth_error x i with Some a => [a] | None => [] end)
                      (firstn (Z.to_nat N) (rng (List.length x))))
  end.

Definition rand_subset {T} (x : list T) (frac : f64) (rng : nat -> list nat) : res (list T) :=
  assert! frac_ok frac;
  let N := ftruncZ (fceil (fmul frac (f_of_Z (zlen x)))) in
  assert! (0 <=? N) && (N <=? zlen x);
  do L <- choice x N rng;
  assert! fleb (fmul (f_of_Z (zlen x)) frac) (f_of_Z (zlen L));
  assert! fltb (f_of_Z (zlen L - 1)) (fmul (f_of_Z (zlen x)) frac);
  Ok L.

(** data_splitter.py 119-141.  [mask[pos] = True] sets the listed positions. *)
Definition rand_mask (n : nat) (frac : f64) (rng : nat -> list nat) : res (list bool) :=
  do pos <- rand_subset (seq 0 n) frac rng;
  let mask := map (fun i => existsb (Nat.eqb i) pos) (seq 0 n) in
  let sum := count (fun b : bool => b) mask in
  assert! fleb (fmul (f_of_Z (Z.of_nat n)) frac) (f_of_Z sum);
  assert! fltb (f_of_Z (sum - 1)) (fmul (f_of_Z (Z.of_nat n)) frac);
  Ok mask.

Section Values.
  Context {A : Type} (eqb leb : A -> A -> bool).

  Definition isnull (v : option A) : bool := match v with None => true | Some _ => false end.
  Definition values (S : list (option A)) : list A :=
    flat_map (fun v => match v with Some a => [a] | None => [] end) S.
  Definition memb (a : A) (l : list A) : bool := existsb (eqb a) l.

  (** [Series.unique()]: distinct values in order of first appearance. *)
  Fixpoint unique_from (seen : list A) (l : list A) : list A :=
    match l with
    | [] => []
    | a :: l' => if memb a seen then unique_from seen l' else a :: unique_from (a :: seen) l'
    end.
  Definition unique (l : list A) : list A := unique_from [] l.

  (** [np.sort]; on a total order every sorting algorithm gives this list. *)
  Fixpoint insert (a : A) (l : list A) : list A :=
    match l with
    | [] => [a]
    | b :: l' => if leb a b then a :: l else b :: insert a l'
    end.
  Definition np_sort (l : list A) : list A := fold_right insert [] l.

  (** [np.unique]: sort, then drop elements equal to their predecessor. *)
  Fixpoint dedup (l : list A) : list A :=
    match l with
    | a :: (b :: _) as l' => if eqb a b then dedup l' else a :: dedup l'
    | _ => l
    end.
  Definition np_unique (l : list A) : list A := dedup (np_sort l).

  (** data_splitter.py 144-178; [assume_sorted] is not used by the code. *)
  Definition random_split_series (S : list (option A)) (frac : f64)
      (assume_sorted assume_unique : bool) (rng : nat -> list nat) : res (list bool) :=
    assert! negb (existsb isnull S);
    if assume_unique then rand_mask (List.length S) frac rng
    else
      do train_cases <- rand_subset (unique (values S)) frac rng;
      Ok (map (fun v => memb v train_cases) (values S)).

  (** [np.mean(all_cases <= p)]: mean of a boolean array. *)
  Definition mean_le (all_cases : list A) (p : A) : f64 :=
    fdiv (f_of_Z (count (fun v => leb v p) all_cases)) (f_of_Z (zlen all_cases)).

  (** data_splitter.py 181-223. *)
  Definition ordered_split_series (S : list (option A)) (frac : f64)
      (assume_sorted assume_unique : bool) : res (list bool) :=
    assert! negb (existsb isnull S);
    assert! frac_ok frac;
    let all_cases :=
      if assume_sorted && assume_unique then values S
      else if assume_unique then np_sort (values S)
      else np_unique (values S) in
    let idx := Z.min (ftruncZ (fmul frac (f_of_Z (zlen all_cases)))) (zlen all_cases - 1) in
    assert! (0 <=? idx);
    match nth_error all_cases (Z.to_nat idx) with
    | None => Err IndexError
    | Some pivotal_case =>
        assert! fleb frac (mean_le all_cases pivotal_case);
        assert! (idx =? 0) ||
          match nth_error all_cases (Z.to_nat (idx - 1)) with
          | Some q => fltb (mean_le all_cases q) frac
          | None => false
          end;
        Ok (map (fun v => leb v pivotal_case) (values S))
    end.
End Values.

(** [np.min], [np.max] of a non-empty array (ValueError on empty). *)
Definition np_min (l : list f64) : res f64 :=
  match l with [] => Err ValueError | a :: l' => Ok (fold_left fmin l' a) end.
Definition np_max (l : list f64) : res f64 :=
  match l with [] => Err ValueError | a :: l' => Ok (fold_left fmax l' a) end.

(** The pivot of data_splitter.py 259-261. *)
Definition linear_pivot (start end_ frac : f64) : f64 :=
  let pivotal_point := fadd (fmul (fsub f1 frac) start) (fmul frac end_) in
  fmax start (fmin pivotal_point end_).

(** data_splitter.py 226-267; [assume_unique] is not used by the code.
    [S.isnull()] is [isnan] for doubles. *)
Definition linear_split_series (S : list f64) (frac : f64)
    (assume_sorted assume_unique : bool) : res (list bool) :=
  assert! negb (existsb fisnan S);
  assert! frac_ok frac;
  do '(start, end_) <-
    (if assume_sorted then
       match S with
       | [] => Err IndexError
       | a :: _ => Ok (a, last S a)
       end
     else do s <- np_min S; do e <- np_max S; Ok (s, e));
  assert! fisfin start && fisfin end_;
  let pivotal_point := linear_pivot start end_ frac in
  assert! fleb start pivotal_point && fleb pivotal_point end_;
  Ok (map (fun v => fleb v pivotal_point) S).

(** ** split_df, data_splitter.py 273-337 *)

(** Column names; [None] is the reserved name INDEX. *)
Definition feature := option pystr.
Definition feature_eqb (a b : feature) : bool :=
  match a, b with
  | None, None => true
  | Some x, Some y => pystr_eqb x y
  | _, _ => false
  end.

(** A data frame: index labels and named columns of the same length. *)
Record frame (A : Type) := Frame {
  d_index : list (option A);
  d_cols : list (feature * list (option A))
}.
Arguments Frame {A} _ _.
Arguments d_index {A} _.
Arguments d_cols {A} _.

(** [df[mask]] for a boolean mask. *)
Fixpoint select {T} (mask : list bool) (l : list T) : list T :=
  match mask, l with
  | b :: mask', a :: l' => if b then a :: select mask' l' else select mask' l'
  | _, _ => []
  end.
Definition frame_select {A} (mask : list bool) (df : frame A) : frame A :=
  Frame (select mask (d_index df)) (map (fun c => (fst c, select mask (snd c))) (d_cols df)).
Definition frame_len {A} (df : frame A) : Z := zlen (d_index df).

Fixpoint col_get {A} (cols : list (feature * list (option A))) (f : feature) : option (list (option A)) :=
  match cols with
  | [] => None
  | (g, c) :: cols' => if feature_eqb f g then Some c else col_get cols' f
  end.

(** [S] of line 318; an unknown column raises KeyError. *)
Definition get_series {A} (df : frame A) (f : feature) : res (list (option A)) :=
  match f with
  | None => Ok (d_index df)
  | Some _ => match col_get (d_cols df) f with Some c => Ok c | None => Err KeyError end
  end.

Definition split_how := (pystr * f64)%type.

Definition band (a b : list bool) : list bool := map (fun p => fst p && snd p) (combine a b).
Definition bnot (a : list bool) : list bool := map negb a.
Definition bor (a b : list bool) : list bool := map (fun p => fst p || snd p) (combine a b).

Section SplitDf.
  Context {A : Type} (eqb leb : A -> A -> bool) (to_f : A -> f64).

  (** SPLITTER_LIB, line 270; an unknown split type raises KeyError. *)
  Definition run_splitter (name : pystr) (S : list (option A)) (frac : f64)
      (assume_sorted assume_unique : bool) (rng : nat -> list nat) : res (list bool) :=
    if pystr_eqb name (str "random") then random_split_series eqb S frac assume_sorted assume_unique rng
    else if pystr_eqb name (str "ordered") then ordered_split_series eqb leb S frac assume_sorted assume_unique
    else if pystr_eqb name (str "linear") then
      linear_split_series (map (fun v => match v with Some a => to_f a | None => fnan end) S)
                          frac assume_sorted assume_unique
    else Err KeyError.

  (** The loop of lines 312-326: [k] numbers the iterations, [rngs k] is the
      random state at iteration [k]. *)
  Fixpoint split_loop (df : frame A) (splits : list (feature * split_how))
      (assume_unique assume_sorted : list feature) (rngs : nat -> nat -> list nat) (k : nat)
      (train test : list bool) : res (list bool * list bool) :=
    match splits with
    | [] => Ok (train, test)
    | (f, (split_type, frac)) :: rest =>
        do S <- get_series df f;
        do train_curr <- run_splitter split_type S frac
             (existsb (feature_eqb f) assume_sorted) (existsb (feature_eqb f) assume_unique) (rngs k);
        split_loop df rest assume_unique assume_sorted rngs (Datatypes.S k)
          (band train train_curr) (band test (bnot train_curr))
    end.

  Definition split_df (df : frame A) (splits : list (feature * split_how))
      (assume_unique assume_sorted : list feature) (rngs : nat -> nat -> list nat)
      : res (frame A * frame A * frame A) :=
    assert! (0 <? zlen splits);
    assert! (0 <? frame_len df);
    assert! negb (existsb (feature_eqb None) (map fst (d_cols df)));
    let ones := map (fun _ => true) (d_index df) in
    do '(train, test) <- split_loop df splits assume_unique assume_sorted rngs O ones ones;
    assert! negb (existsb (fun b : bool => b) (band train test));
    let df_train := frame_select train df in
    let df_test := frame_select test df in
    let df_unused := frame_select (bnot (bor train test)) df in
    assert! (frame_len df_train + frame_len df_test + frame_len df_unused =? frame_len df);
    Ok (df_train, df_test, df_unused).
End SplitDf.

(** ** build_lag_df, data_splitter.py 19-65

    Line 64 evaluates [range(1, n) + [0]]; [range] is Python 3's (lines 4),
    whose [+] with a list raises TypeError.  Columns are lists of optional
    values (None is NaN); [shift k] moves the rows down by [k].  [n_lags] and
    [stride] are the call's arguments, [features] the optional column subset,
    whose unknown names raise KeyError. *)
Definition py_range := (Z * Z)%type.
Inductive pyval := PyRange (r : py_range) | PyList (l : list Z).
Definition py_add (a b : pyval) : res pyval :=
  match a, b with
  | PyList x, PyList y => Ok (PyList (x ++ y))
  | _, _ => Err TypeError
  end.

(** [Series.shift(k)]: for k >= 0 drop the last k entries and pad with nulls in
    front; for k < 0 the other way round. *)
Definition shift {A} (k : Z) (c : list (option A)) : list (option A) :=
  let n := zlen c in
  if 0 <=? k then repeat None (Z.to_nat (Z.min k n)) ++ firstn (Z.to_nat (n - Z.min k n)) c
  else skipn (Z.to_nat (Z.min (- k) n)) c ++ repeat None (Z.to_nat (Z.min (- k) n)).

Definition lag_frame {A} (df : frame A) (n_lags stride : Z) (features : option (list feature))
  : res (list (Z * list (feature * list (option A)))) :=
  do df_sub <-
    match features with
    | None => Ok (d_cols df)
    | Some fs => mapM (fun f => match col_get (d_cols df) f with
                                | Some c => Ok (f, c) | None => Err KeyError end) fs
    end;
  Ok ((0, d_cols df) ::
      map (fun nn => (Z.of_nat nn, map (fun c => (fst c, shift (stride * Z.of_nat nn) (snd c))) df_sub))
          (seq 1 (Z.to_nat (n_lags - 1)))).

Definition build_lag_df {A} (df : frame A) (n_lags stride : Z) (features : option (list feature))
  : res (list (Z * list (feature * list (option A)))) :=
  do D <- lag_frame df n_lags stride features;
  (* number of column levels after concat: the columns' own level plus "lag" *)
  do order <- py_add (PyRange (1, 2)) (PyList [0]);
  match order with PyList _ => Ok D | PyRange _ => Err TypeError end.
