(** * mlpaper/classification.py: get_pred_log_prob and just_benchmark *)
From Coq Require Import Reals.
From Verif Require Import PyBase F64 Num Util BootUtil PerfCurves CurveBoot MLPaper Checkpoint Classification Regression.
Open Scope Z_scope.

Section Benchmark.
  Context {T : Type} {NT : num T} {FT : fn T}.
  Context (normalize : nat -> list (list T) -> res (list (list T))).
  Context {S X : Type}.

  (** ** get_pred_log_prob, lines 656-738.  An sklearn object is its state with
      [fit], [predict_log_proba] and [predict_proba]; the predictions are
      matrices given by their rows and number of columns. *)
  Record classifier := {
    cl_fit : S -> X -> list Z -> res S;
    cl_predict_log_proba : S -> X -> res (list (list T) * nat);
    cl_predict_proba : S -> X -> res (list (list T) * nat)
  }.
  Definition c_train_predict (o : classifier) (s : S) (data : X * list Z * X) : res (list (list T) * nat) :=
    let '(X_train, y_train, X_test) := data in
    do s' <- cl_fit o s X_train y_train;
    match cl_predict_log_proba o s' X_test with
    | Ok r => Ok r
    | Err _ => do r <- cl_predict_proba o s' X_test; Ok (map (map nlog) (fst r), snd r)
    end.
  Definition c_finish (n_test n_labels : nat) (min_log_prob : T) (v : list (list T) * nat) : res (list (list T)) :=
    assert! ((length (fst v) =? n_test)%nat && (snd v =? n_labels)%nat);
    normalize (snd v) (map (map (nmax min_log_prob)) (fst v)).

  (** [y_train.min()] of an empty array raises ValueError. *)
  Definition c_checks (X_train : farray X) (kd : dkind) (y_train : list Z) (X_test : farray X) (n_labels : nat) (min_log_prob : T) : res unit :=
    assert! (0 <? dim X_test 0);
    assert! (2 <=? length (fa_shape X_train))%nat;
    assert! (Z.of_nat (length y_train) =? dim X_train 0);
    assert! (dkind_eqb kd Kb || dkind_eqb kd Ki);
    do lo <- py_min y_train;
    do hi <- py_max y_train;
    assert! ((0 <=? lo) && (hi <? Z.of_nat n_labels));
    assert! ((length (fa_shape X_test) =? length (fa_shape X_train))%nat && (dim X_test 1 =? dim X_train 1));
    assert! (dkind_eqb (fa_kind X_train) (fa_kind X_test));
    py_assert (nltb min_log_prob n0).

  Definition get_pred_log_prob key_eqb (o : classifier) (memory : bool) (st : store (S := S) (D := X * list Z * X))
      (X_train : farray X) (kd : dkind) (y_train : list Z) (X_test : farray X) (n_labels : nat) (methods : list (pystr * S)) (min_log_prob : T)
    : res (pred_table T) :=
    do _u <- c_checks X_train kd y_train X_test n_labels min_log_prob;
    match snd (run key_eqb (c_train_predict o) (c_finish (Z.to_nat (dim X_test 0)) n_labels min_log_prob) memory st
                 (fa_data X_train, y_train, fa_data X_test) methods None) with
    | Done t => Ok {| pt_len := Z.to_nat (dim X_test 0); pt_labels := range_Z n_labels;
                      pt_methods := map (fun m => (fst m, (range_Z n_labels, snd m))) t |}
    | Raised e => Err e
    | Crashed => Err AssertionError (* not reached without a crash *)
    end.

  (** ** just_benchmark, lines 741-828 (the two dtypes of [y] are one [kd]). *)
  Definition just_benchmark key_eqb (o : classifier) draw_curve draw_loss (X_train : farray X) (kd : dkind) (y_train : list Z)
      (X_test : farray X) (y_test : list Z) (n_labels : nat) (methods : list (pystr * S)) (loss_dict : dict (metric_fun T))
      (curve_dict : dict (curve_fun T)) (ref_method : pystr) (min_log_prob : T) (pairwise_CI : bool) (method_EB : eb_method)
      (limits : dict (T * T)) :=
    do pred_tbl <- get_pred_log_prob key_eqb o false [] X_train kd y_train X_test n_labels methods min_log_prob;
    summary_table normalize draw_curve draw_loss pred_tbl kd y_test loss_dict curve_dict ref_method None 1000 pairwise_CI
      (ndiv (nofZ 95) (nofZ 100)) method_EB limits.
End Benchmark.
Arguments classifier T S X : clear implicits.
