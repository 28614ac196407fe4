(** * mlpaper/classification.py: losses, tables and JustNoise.
    [shape_and_validate] (lines 21-51), [check_curve] and [curve_boot] are in
    CurveBoot.v.  A matrix argument is the list of its rows together with its
    number of columns [ncol]. *)
From Coq Require Import Reals.
From Verif Require Import PyBase F64 Num Util BootUtil PerfCurves CurveBoot MLPaper.
Open Scope Z_scope.

Section Losses.
  Context {T : Type} {NT : num T} {FT : fn T}.

  (** ** hard_loss_decision, lines 59-82 *)

  (** [np.argmin] of one row (numpy 1.15.0 loop: stop at the first NaN, else
      keep the first minimum); ValueError when empty. *)
  Fixpoint argmin_loop (mp : T) (best i : nat) (l : list T) : nat :=
    match l with
    | [] => best
    | a :: l' =>
        if nleb mp a then argmin_loop mp best (S i) l'
        else if nisnan a then i else argmin_loop a i (S i) l'
    end.
  Definition argmin (l : list T) : res nat :=
    match l with
    | [] => Err ValueError
    | a :: l' => Ok (if nisnan a then 0%nat else argmin_loop a 0 1 l')
    end.

  (** [np.dot(pred_prob, loss_mat)], one row; summed from left to right. *)
  Definition column_of (loss_mat : list (list T)) (a : nat) : list T := map (fun r => nth a r n0) loss_mat.
  Definition expected_losses (prob : list T) (loss_mat : list (list T)) (n_actions : nat) : list T :=
    map (fun a => nsum (map2 nmul prob (column_of loss_mat a))) (seq 0 n_actions).

  Definition hard_loss_decision (log_pred_prob : list (list T)) (ncol : nat)
      (loss_mat : list (list T)) (n_actions : nat) : res (list nat) :=
    if negb (ncol =? length loss_mat)%nat then Err ValueError else (* shapes not aligned *)
    mapM (fun row => argmin (expected_losses (map nexp row) loss_mat n_actions)) log_pred_prob.

  (** ** hard_loss, lines 85-121 *)
  Definition zero_one (n : nat) : list (list T) :=
    map (fun i => map (fun j => nsub n1 (if (i =? j)%nat then n1 else n0)) (seq 0 n)) (seq 0 n).

  (** [loss_mat] with its number of columns (actions) *)
  Definition hard_loss (kd : dkind) (y : list Z) (log_pred_prob : list (list T)) (ncol : nat)
      (loss_mat : option (list (list T) * nat)) : res (list T) :=
    do sh <- shape_and_validate kd y log_pred_prob ncol;
    let '(mat, n_actions) := match loss_mat with None => (zero_one ncol, ncol) | Some m => m end in
    assert! (length mat =? ncol)%nat;
    assert! (1 <=? n_actions)%nat;
    do action <- hard_loss_decision log_pred_prob ncol mat n_actions;
    Ok (map2 (fun v a => nth a (nth (Z.to_nat v) mat []) n0) y action).

  (** ** log_loss, lines 124-143 *)
  Definition log_loss (kd : dkind) (y : list Z) (log_pred_prob : list (list T)) (ncol : nat) : res (list T) :=
    do sh <- shape_and_validate kd y log_pred_prob ncol;
    Ok (map2 (fun v row => nopp (nth (Z.to_nat v) row n0)) y log_pred_prob).

  (** ** brier_loss, lines 146-175; [x ** 2] is [x * x] in numpy. *)
  Definition brier_loss (rescale : bool) (kd : dkind) (y : list Z) (log_pred_prob : list (list T)) (ncol : nat) : res (list T) :=
    do sh <- shape_and_validate kd y log_pred_prob ncol;
    do y_bin <- one_hot Ki y (Z.of_nat ncol);
    let sq d := nmul d d in
    let loss := map2 (fun row hot => nsum (map2 (fun lp (b : bool) => sq (nsub (nexp lp) (if b then n1 else n0))) row hot)) log_pred_prob y_bin in
    Ok (if rescale && (1 <? Z.of_nat ncol)
        then map (nmul (ndiv (nofZ (Z.of_nat ncol)) (nofZ (Z.of_nat ncol - 1)))) loss
        else loss).

  (** ** JustNoise, lines 633-653: [fit] gives the row that
      [predict_log_proba] repeats. *)
  Definition noise_fit (n_labels : nat) (pseudo_count : T) (kd : dkind) (y : list Z) : res (list T) :=
    do y_bin <- one_hot kd y (Z.of_nat n_labels);
    let count k := nsum (map (fun row => if nth k row false then n1 else n0) y_bin) in
    let counts := map (fun k => nadd pseudo_count (count k)) (seq 0 n_labels) in
    let n_total := nadd (nofZ (Z.of_nat (length y))) (nmul (nofZ (Z.of_nat n_labels)) pseudo_count) in
    Ok (map (fun c => nlog (ndiv c n_total)) counts).
  Definition noise_predict (pred : list T) (n_samples : nat) : list (list T) := repeat pred n_samples.
End Losses.

(** ** spherical_loss, lines 178-210 (exact arithmetic: it uses the exact
    [logsumexp] of Util.v) *)
Definition spherical_loss (rescale : bool) (kd : dkind) (y : list Z) (log_pred_prob : list (list xr)) (ncol : nat) : res (list xr) :=
  do sh <- shape_and_validate kd y log_pred_prob ncol;
  let one v row :=
    let log_normalizer := nmul (ndiv n1 (nofZ 2)) (logsumexp (map (nmul (nofZ 2)) row)) in
    nopp (xexp (nsub (nth (Z.to_nat v) row n0) log_normalizer)) in
  let loss := map2 one y log_pred_prob in
  let c := if (1 <? ncol)%nat then nsub n1 (ndiv n1 (xsqrt (nofZ (Z.of_nat ncol)))) else n1 in
  Ok (if rescale then map (fun l => ndiv (nadd n1 l) c) loss else loss).

(** ** loss_table, lines 218-269.
    A prediction table is a DataFrame with columns method x label: for every
    method of the first level its sub-frame, that is its column labels and its
    rows.  [normalize] is the function of util.py (Util.v), a parameter so that
    the table functions make sense for any arithmetic.  The order of the
    columns of the result is not modelled, they are found by label. *)
Section Tables.
  Context {T : Type} {NT : num T} {FT : fn T}.
  Context (normalize : nat -> list (list T) -> res (list (list T))).

  Record pred_table := {
    pt_len : nat;
    pt_labels : list Z;
    pt_methods : list (pystr * (list Z * list (list T)))
  }.
  Definition metric_fun := dkind -> list Z -> list (list T) -> nat -> res (list T).

  Definition range_Z (n : nat) : list Z := map Z.of_nat (seq 0 n).
  Fixpoint listZ_eqb (a b : list Z) : bool :=
    match a, b with
    | [], [] => true
    | x :: a', y :: b' => (x =? y) && listZ_eqb a' b'
    | _, _ => false
    end.

  (** Assigning an array of the wrong length to a column raises ValueError. *)
  Definition column_values (n : nat) (v : list T) : res (list T) :=
    if (length v =? n)%nat then Ok v else Err ValueError.

  Definition method_losses (tbl : pred_table) (kd : dkind) (y : list Z) (metrics_dict : dict metric_fun)
      (assume_normalized : bool) (m : pystr * (list Z * list (list T))) : res (list ((pystr * pystr) * list T)) :=
    let n_labels := length (pt_labels tbl) in
    let '(method, (cols, rows)) := m in
    assert! (listZ_eqb cols (range_Z n_labels));
    assert! ((length rows =? pt_len tbl)%nat && forallb (fun r => (length r =? n_labels)%nat) rows);
    assert! (negb (existsb (existsb nisnan) rows));
    do log_pred_prob <- (if assume_normalized then Ok rows else normalize n_labels rows);
    mapM (fun mf : pystr * metric_fun =>
      do loss <- (snd mf) kd y log_pred_prob n_labels;
      do v <- column_values (pt_len tbl) loss;
      Ok ((fst mf, method), v)) metrics_dict.

  Definition loss_table (tbl : pred_table) (kd : dkind) (y : list Z) (metrics_dict : dict metric_fun)
      (assume_normalized : bool) : res (loss_table_t T) :=
    assert! (length y =? pt_len tbl)%nat;
    assert! ((1 <=? pt_len tbl) && (1 <=? length (pt_labels tbl)) && (1 <=? length (pt_methods tbl)))%nat;
    do cols <- mapM (method_losses tbl kd y metrics_dict assume_normalized) (pt_methods tbl);
    Ok {| lt_metrics := map fst metrics_dict; lt_methods := map fst (pt_methods tbl);
          lt_len := pt_len tbl; lt_cols := concat cols |}.

  (** ** curve_summary_table, lines 424-524.  [draw method curve] is the
      bootstrap outcome drawn by [curve_boot] for that pair. *)
  Definition curve_method (draw : pystr -> pystr -> list (list Z)) (tbl : pred_table) (kd : dkind) (y : list Z)
      (curve_dict : dict (curve_fun T)) (ref_method : pystr) (ref : list (list T)) (x_grid : option (list T)) (n_boot : Z)
      (pairwise_CI : bool) (confidence : T) (m : pystr * (list Z * list (list T)))
    : res (list ((pystr * pystr) * (cell T * list grid_row))) :=
    let n_labels := length (pt_labels tbl) in
    let '(method, (cols, rows)) := m in
    assert! (listZ_eqb cols (range_Z n_labels));
    assert! ((length rows =? pt_len tbl)%nat && forallb (fun r => (length r =? n_labels)%nat) rows);
    mapM (fun cf : pystr * curve_fun T =>
      do r <- curve_boot (draw method (fst cf)) kd y rows n_labels (RefPred ref) (snd cf) x_grid n_boot pairwise_CI confidence;
      let '((auc, EB, pval), dump) := r in
      let self := pystr_eqb method ref_method in
      Ok ((method, fst cf),
          ({| cell_mean := auc;
              cell_error := if pairwise_CI && self then nnan else EB;
              cell_pval := if self then nnan else pval |}, dump))) curve_dict.

  Definition sub_frame (tbl : pred_table) (method : pystr) : res (list Z * list (list T)) :=
    match dict_get (pt_methods tbl) method with Some f => Ok f | None => Err AssertionError end.

  Definition curve_summary_table (draw : pystr -> pystr -> list (list Z)) (tbl : pred_table) (kd : dkind) (y : list Z)
      (curve_dict : dict (curve_fun T)) (ref_method : pystr) (x_grid : option (list T)) (n_boot : Z)
      (pairwise_CI : bool) (confidence : T) : res (list ((pystr * pystr) * (cell T * list grid_row))) :=
    let n_labels := length (pt_labels tbl) in
    assert! (length y =? pt_len tbl)%nat;
    do rf <- sub_frame tbl ref_method;
    assert! ((1 <=? pt_len tbl) && (1 <=? n_labels) && (1 <=? length curve_dict))%nat;
    let '(cols, ref) := rf in
    assert! (listZ_eqb cols (range_Z n_labels));
    assert! ((length ref =? pt_len tbl)%nat && forallb (fun r => (length r =? n_labels)%nat) ref);
    do rows <- mapM (curve_method draw tbl kd y curve_dict ref_method ref x_grid n_boot pairwise_CI confidence) (pt_methods tbl);
    Ok (concat rows).

  (** ** summary_table, lines 527-620: both summaries side by side. *)
  Definition summary_table (draw_curve : pystr -> pystr -> list (list Z)) (draw_loss : pystr -> pystr -> bool -> list (list Z))
      (tbl : pred_table) (kd : dkind) (y : list Z) (loss_dict : dict metric_fun) (curve_dict : dict (curve_fun T))
      (ref_method : pystr) (x_grid : option (list T)) (n_boot : Z) (pairwise_CI : bool) (confidence : T)
      (method_EB : eb_method) (limits : dict (T * T))
    : res (list ((pystr * pystr) * cell T) * list ((pystr * pystr) * (cell T * list grid_row))) :=
    do curves <- curve_summary_table draw_curve tbl kd y curve_dict ref_method x_grid n_boot pairwise_CI confidence;
    do loss_tbl <- loss_table tbl kd y loss_dict false;
    do losses <- loss_summary_table draw_loss loss_tbl ref_method pairwise_CI confidence method_EB limits;
    Ok (losses, curves).
End Tables.
Arguments pred_table T : clear implicits.
Arguments metric_fun T : clear implicits.
