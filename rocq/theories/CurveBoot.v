(** * mlpaper/classification.py, lines 21-51 and 277-421: validation of
    predictions, check_curve and curve_boot.

    Prediction matrices are lists of rows; [ncol] is their number of columns. *)
From Coq Require Import Reals.
From Verif Require Import PyBase F64 Num Util BootUtil PerfCurves.
Open Scope Z_scope.

(** ** shape_and_validate, lines 46-51.  [kd] is [y.dtype.kind]. *)
Definition shape_and_validate {A} (kd : dkind) (y : list Z) (log_pred_prob : list (list A)) (ncol : nat) : res (Z * Z) :=
  let n_samples := Z.of_nat (length log_pred_prob) in
  let n_labels := Z.of_nat ncol in
  assert! (1 <=? n_samples);
  assert! (1 <=? n_labels);
  assert! ((Z.of_nat (length y) =? n_samples) && (dkind_eqb kd Kb || dkind_eqb kd Ki));
  assert! (forallb (fun v => 0 <=? v) y && forallb (fun v => v <? n_labels) y);
  Ok (n_samples, n_labels).

Section CurveBoot.
  Context {T : Type} {NT : num T}.

  (** ** check_curve, lines 296-311 *)
  Definition check_curve (result : curve T * list T) (x_grid : option (list T)) : res (curve T) :=
    let '(curve, _) := result in
    let '(rows, kind) := curve in
    assert! (forallb (fun c => length (fst c) =? length (snd c))%nat rows);
    assert! (forallb (fun c => 2 <=? length (fst c))%nat rows);
    assert! (forallb (fun c => forallb nisfin (fst c)) rows);
    assert! (forallb (fun c => forallb (fun v => nltb v ninf) (snd c)) rows);
    assert! (forallb (fun c => forallb (nleb n0) (diff (fst c))) rows);
    match x_grid with
    | None => Ok curve
    | Some g =>
        do g0 <- py_index g 0;
        assert! (forallb (fun c => nleb (hd n0 (fst c)) g0) rows);
        do g1 <- py_index g (-1);
        assert! (forallb (fun c => nleb g1 (lastn (fst c))) rows);
        Ok curve
    end.

  (** [area( *curve)] *)
  Definition curve_area (c : curve T) : res (list T) :=
    area (match fst c with [] => 0%nat | r :: _ => length (fst r) end) (fst c) (snd c).

  (** [v, = l] *)
  Definition unpack1 {A} (l : list A) : res A :=
    match l with [a] => Ok a | _ => Err ValueError end.

  (** [np.linspace(0.0, 1.0, 100)], DEFAULT_NGRID of line 17 *)
  Definition DEFAULT_NGRID : nat := 100.
  Definition default_grid : list T :=
    map (fun i => if (i =? 99)%nat then n1 else nmul (nofZ (Z.of_nat i)) (ndiv n1 (nofZ 99))) (seq 0 DEFAULT_NGRID).

  (** a curve function such as [roc_curve] *)
  Definition curve_fun := list bool -> list T -> option (list (list T)) -> res (curve T * list T).

  (** [ref]: a scalar or a prediction matrix *)
  Inductive curve_ref := RefScalar (r : T) | RefPred (m : list (list T)).

  (** [m[:, 1]] of a matrix with two columns *)
  Definition col1 (m : list (list T)) : list T := map (fun r => nth 1 r n0) m.

  Definition columns (n : nat) (m : list (list T)) : list (list T) :=
    map (fun j => map (fun r => nth j r n0) m) (seq 0 n).

  (** one row of the curve frame: x, y, lower and upper bound *)
  Definition grid_row := (T * T * T * T)%type.

  (** ** curve_boot, lines 361-421.  [counts] is the multinomial outcome drawn
      by [bu.boot_weights]; [kd] and [ncol] the dtype of [y] and the number of
      columns of the predictions. *)
  Definition curve_boot (counts : list (list Z)) (kd : dkind) (y : list Z) (log_pred_prob : list (list T)) (ncol : nat)
      (ref : curve_ref) (curve_f : curve_fun) (x_grid : option (list T)) (n_boot : Z) (pairwise_CI : bool) (confidence : T)
    : res ((T * T * T) * list grid_row) :=
    do sh <- shape_and_validate kd y log_pred_prob ncol;
    let '(N, n_labels) := sh in
    assert! (n_labels =? 2);
    assert! (match ref with
             | RefScalar _ => true
             | RefPred m => (length m =? length log_pred_prob)%nat && forallb (fun r => (length r =? ncol)%nat) m
             end);
    assert! (negb (match ref with RefScalar r => nisnan r | RefPred m => existsb (existsb nisnan) m end));
    assert! (1 <=? n_boot);
    assert! (negb (existsb (existsb nisnan) log_pred_prob));
    let epsilon := ndiv n1 (nofZ (10 ^ 10)) in
    let x_grid := match x_grid with None => default_grid | Some g => g end in
    let y := map (fun v => negb (v =? 0)) y in
    let score := col1 log_pred_prob in
    do r <- curve_f y score None;
    do curve <- check_curve r (Some x_grid);
    do aucs <- curve_area curve;
    do auc <- unpack1 aucs;
    do yg <- interp1d x_grid (fst curve) (snd curve);
    do y_grid <- unpack1 yg;
    do weight <- boot_weights counts N n_boot epsilon;
    do rb <- curve_f y score (Some weight);
    do curveb <- check_curve rb (Some x_grid);
    do auc_boot <- curve_area curveb;
    assert! (Z.of_nat (length auc_boot) =? n_boot);
    do y_grid_boot <- interp1d x_grid (fst curveb) (snd curveb);
    do rf <- (match ref with
              | RefScalar v => Ok (v, Scalar v)
              | RefPred m =>
                  do rr <- curve_f y (col1 m) (Some weight);
                  do cr <- check_curve rr None;
                  do ref_boot <- curve_area cr;
                  assert! (Z.of_nat (length ref_boot) =? n_boot);
                  do r0 <- curve_f y (col1 m) None;
                  do c0 <- check_curve r0 None;
                  do refs <- curve_area c0;
                  do v <- unpack1 refs;
                  Ok (v, Paired ref_boot)
              end);
    let '(ref, ref_boot) := rf in
    do EB <- (if pairwise_CI
              then error_bar (map2 nsub auc_boot (ref_values auc_boot ref_boot)) (nsub auc ref) confidence
              else error_bar auc_boot auc confidence);
    do pval <- significance auc_boot ref_boot;
    do bounds <- mapM (fun b => percentile b confidence) (columns (length x_grid) y_grid_boot);
    Ok ((auc, EB, pval),
        map2 (fun xy b => (xy, fst b, snd b)) (combine x_grid y_grid) bounds).
End CurveBoot.
Arguments curve_ref T : clear implicits.
Arguments curve_fun T : clear implicits.
