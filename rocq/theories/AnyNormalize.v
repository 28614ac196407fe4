(** * util.py normalize and classification.py spherical_loss for any arithmetic.
    Util.v and Classification.v have them for exact arithmetic only.  The order
    in which [np.sum] adds up a row depends on how numpy stored the matrix, so
    it is a parameter [sum]; theorems are about every order of addition
    ([sums_to] of SumProofs.v).  For exact arithmetic the definitions are those
    of Util.v and Classification.v (lemmas below). *)
From Coq Require Import Reals.
From Verif Require Import PyBase F64 Num Util BootUtil PerfCurves CurveBoot MLPaper Classification.
Open Scope Z_scope.

Section Any.
  Context {T : Type} {NT : num T} {FT : fn T} (sum : list T -> T).

  (** scipy.special.logsumexp (scipy 1.1.0) of one row *)
  Definition any_logsumexp (row : list T) : T :=
    let m := amax row in
    let a_max := if nisfin m then m else n0 in
    nadd (nlog (sum (map (fun a => nexp (nsub a a_max)) row))) a_max.

  (** util.py lines 64-69 *)
  Definition any_normalize_row (row : list T) : list T :=
    let normalizer := any_logsumexp row in
    map (fun a => nsub a normalizer) row.
  Definition any_normalize (ncol : nat) (m : list (list T)) : res (list (list T)) :=
    assert! (1 <=? Z.of_nat ncol);
    Ok (map any_normalize_row m).

  (** classification.py lines 198-210 *)
  Definition any_spherical_loss (rescale : bool) (kd : dkind) (y : list Z) (log_pred_prob : list (list T)) (ncol : nat) : res (list T) :=
    do sh <- shape_and_validate kd y log_pred_prob ncol;
    let one v row :=
      let log_normalizer := nmul (ndiv n1 (nofZ 2)) (any_logsumexp (map (nmul (nofZ 2)) row)) in
      nopp (nexp (nsub (nth (Z.to_nat v) row n0) log_normalizer)) in
    let loss := map2 one y log_pred_prob in
    let c := if (1 <? ncol)%nat then nsub n1 (ndiv n1 (nsqrt (nofZ (Z.of_nat ncol)))) else n1 in
    Ok (if rescale then map (fun l => ndiv (nadd n1 l) c) loss else loss).
End Any.

Lemma any_normalize_exact sf ppf ncol m : @any_normalize _ _ (fn_xr sf ppf) nsum ncol m = normalize ncol m.
Proof. reflexivity. Qed.
Lemma any_spherical_exact sf ppf rescale kd y P ncol : @any_spherical_loss _ _ (fn_xr sf ppf) nsum rescale kd y P ncol = spherical_loss rescale kd y P ncol.
Proof. reflexivity. Qed.
