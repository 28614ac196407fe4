(** * mlpaper/regression.py *)
From Coq Require Import Reals.
From Verif Require Import PyBase F64 Num Util BootUtil PerfCurves MLPaper Checkpoint.
Open Scope Z_scope.

Section Regression.
  Context {T : Type} {NT : num T} {FT : fn T}.

  (** ** shape_and_validate, lines 17-44 *)
  Definition r_shape_and_validate (y mu std : list T) : res nat :=
    let n_samples := length y in
    assert! (1 <=? n_samples)%nat;
    assert! (forallb nisfin y);
    assert! ((length mu =? n_samples)%nat && (length std =? n_samples)%nat);
    assert! (forallb nisfin mu && forallb nisfin std);
    assert! (forallb (nltb n0) std);
    Ok n_samples.

  (** ** square_loss, lines 52-74; [x ** 2] is [x * x] in numpy *)
  Definition square_loss (y mu std : list T) : res (list T) :=
    do _n <- r_shape_and_validate y mu std;
    Ok (map2 (fun a m => nmul (nsub a m) (nsub a m)) y mu).

  (** ** abs_loss, lines 77-99 *)
  Definition abs_loss (y mu std : list T) : res (list T) :=
    do _n <- r_shape_and_validate y mu std;
    Ok (map2 (fun a m => nabs (nsub a m)) y mu).

  (** ** log_loss, lines 102-124.  [scipy.stats.norm.logpdf] (scipy 1.1.0) is
      [(-z**2/2 - logC) - log(scale)] with [z = (x - loc)/scale]; [logC] is
      scipy's constant log(sqrt(2 pi)). *)
  Definition norm_logpdf (logC : T) (x loc scale : T) : T :=
    let z := ndiv (nsub x loc) scale in
    nsub (nsub (ndiv (nopp (nmul z z)) (nofZ 2)) logC) (nlog scale).
  Definition r_log_loss (logC : T) (y mu std : list T) : res (list T) :=
    do _n <- r_shape_and_validate y mu std;
    Ok (map2 (fun a ms => nopp (norm_logpdf logC a (fst ms) (snd ms))) y (combine mu std)).

  (** ** loss_table, lines 132-173.  For every method of the first column level
      its columns "mu" and "std". *)
  Record gauss_table := {
    gt_len : nat;
    gt_methods : list (pystr * (list T * list T))
  }.
  Definition r_metric_fun := list T -> list T -> list T -> res (list T).
  Definition r_column_values (n : nat) (v : list T) : res (list T) :=
    if (length v =? n)%nat then Ok v else Err ValueError.

  Definition r_loss_table (tbl : gauss_table) (y : list T) (metrics_dict : dict r_metric_fun) : res (loss_table_t T) :=
    assert! (length y =? gt_len tbl)%nat;
    assert! ((1 <=? gt_len tbl) && (1 <=? length (gt_methods tbl)))%nat;
    do cols <- mapM (fun m : pystr * (list T * list T) =>
      mapM (fun mf : pystr * r_metric_fun =>
        do loss <- (snd mf) y (fst (snd m)) (snd (snd m));
        do v <- r_column_values (gt_len tbl) loss;
        Ok ((fst mf, fst m), v)) metrics_dict) (gt_methods tbl);
    Ok {| lt_metrics := map fst metrics_dict; lt_methods := map fst (gt_methods tbl);
          lt_len := gt_len tbl; lt_cols := concat cols |}.

  (** ** JustNoise, lines 184-204: [fit] gives the mean and standard deviation
      that [predict] repeats. *)
  Definition r_noise_fit (y_train : list T) : res (T * T) :=
    assert! (2 <=? length y_train)%nat;
    Ok (nmean y_train, nstd 0 y_train).
  Definition r_noise_predict (ms : T * T) (n : nat) : list T * list T := (repeat (fst ms) n, repeat (snd ms) n).

  (** ** get_gauss_pred, lines 207-281.
      Feature arrays are opaque apart from shape and dtype kind.  An sklearn
      object is its state with the methods [fit], [predict(.., return_std=True)]
      and [predict]. *)
  Context {S X : Type}.
  Record farray := { fa_shape : list Z; fa_kind : dkind; fa_data : X }.
  Record regressor := {
    rg_fit : S -> X -> list T -> res S;
    rg_predict_std : S -> X -> res (list T * list T);
    rg_predict : S -> X -> res (list T)
  }.
  Definition r_train_predict (o : regressor) (s : S) (data : X * list T * X) : res (list T * list T) :=
    let '(X_train, y_train, X_test) := data in
    do s' <- rg_fit o s X_train y_train;
    match rg_predict_std o s' X_test with
    | Ok r => Ok r
    | Err TypeError => do mu <- rg_predict o s' X_test; Ok (mu, map (fun _ => n1) mu)
    | Err e => Err e
    end.
  Definition r_finish (n_test : nat) (min_std : T) (v : list T * list T) : res (list T * list T) :=
    assert! ((length (fst v) =? n_test)%nat && (length (snd v) =? n_test)%nat);
    Ok (fst v, map (nmax min_std) (snd v)).
  Definition dim (a : farray) (i : nat) : Z := nth i (fa_shape a) 0.
  Definition r_checks (X_train : farray) (y_train : list T) (X_test : farray) (min_std : T) : bool :=
    (0 <? dim X_test 0) && (length (fa_shape X_train) =? 2)%nat &&
    (Z.of_nat (length y_train) =? dim X_train 0) &&
    (length (fa_shape X_test) =? 2)%nat && (dim X_test 1 =? dim X_train 1) &&
    dkind_eqb (fa_kind X_train) (fa_kind X_test) && nleb n0 min_std.
  (** [memory] and [st]: checkpoint directory, see Checkpoint.v. *)
  Definition get_gauss_pred key_eqb (o : regressor) (memory : bool) (st : store (S := S) (D := X * list T * X))
      (X_train : farray) (y_train : list T) (X_test : farray) (methods : list (pystr * S)) (min_std : T)
    : res gauss_table :=
    assert! (r_checks X_train y_train X_test min_std);
    match snd (run key_eqb (r_train_predict o) (r_finish (Z.to_nat (dim X_test 0)) min_std) memory st
                 (fa_data X_train, y_train, fa_data X_test) methods None) with
    | Done t => Ok {| gt_len := Z.to_nat (dim X_test 0); gt_methods := t |}
    | Raised e => Err e
    | Crashed => Err AssertionError (* not reached without a crash *)
    end.

  (** ** just_benchmark, lines 284-357 (no checkpoint directory); the comparison
      of the two dtypes of [y] is not modelled, both are lists of numbers. *)
  Definition r_just_benchmark key_eqb (o : regressor) draw (X_train : farray) (y_train : list T) (X_test : farray) (y_test : list T)
      (methods : list (pystr * S)) (loss_dict : dict r_metric_fun) (ref_method : pystr) (min_std : T) (pairwise_CI : bool)
      (method_EB : eb_method) (limits : dict (T * T)) : res (list ((pystr * pystr) * cell T)) :=
    do pred_tbl <- get_gauss_pred key_eqb o false [] X_train y_train X_test methods min_std;
    do loss_tbl <- r_loss_table pred_tbl y_test loss_dict;
    loss_summary_table draw loss_tbl ref_method pairwise_CI (ndiv (nofZ 95) (nofZ 100)) method_EB limits.
End Regression.
Arguments gauss_table T : clear implicits.
Arguments r_metric_fun T : clear implicits.
Arguments regressor T S X : clear implicits.
Arguments farray X : clear implicits.
