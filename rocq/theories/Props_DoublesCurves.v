(** Property theorem C98: curve_boot in double precision.  Model: PerfCurves.v,
    CurveBoot.v; the inputs are described in CurveProofs7.v. *)
From Coq Require Import Reals ZArith Lra Lia List Bool.
From Flocq Require Import Core BinarySingleNaN.
From Verif Require Import PyBase F64 F64Lemmas Num NumOk Util UtilProofs ListLemmas BootUtil BootProofs2 BootProofs4
  PerfCurves PerfProofs7 PerfProofs8 CurveBoot CurveProofs3 CurveProofs5 CurveProofs6 CurveProofs7 Props_Boot Props_Curves.
Import ListNotations.
Open Scope R_scope.
Open Scope list_scope.

(** ** The specification *)
(** a number between 0 and 1 + e *)
Definition unit_upto (e : R) (v : f64) : Prop := fisfin v = true /\ 0 <= B2R v <= 1 + e.
(** minus infinity or a number up to 1 + e *)
Definition gain_upto (e : R) (v : f64) : Prop := v = fninf \/ (fisfin v = true /\ B2R v <= 1 + e).

Definition x_column (g : option (list f64)) (xs : list f64) : Prop :=
  match g with Some g => xs = g | None => length xs = 100%nat /\ Forall (unit_upto 0) xs end.
Definition finite_ref (r : curve_ref f64) : Prop := match r with RefScalar v => fisfin v = true | RefPred _ => True end.

(** what curve_boot returns: the area is [QA], the p-value between 0 and 1, the
    error bar not negative, and at each grid point the curve and its bounds are
    [QG] with the lower bound at most the upper *)
Definition boot_result64 (QA QG : f64 -> Prop) (g : option (list f64)) (pw_finite : Prop)
    (r : res ((f64 * f64 * f64) * list (f64 * f64 * f64 * f64))) : Prop :=
  exists auc EB p rows, r = Ok ((auc, EB, p), rows) /\ QA auc /\ unit_upto 0 p /\
  fltb EB f0 = false /\ (pw_finite -> fleb f0 EB = true) /\
  x_column g (map (fun q => fst (fst (fst q))) rows) /\
  Forall (fun q => QG (snd (fst (fst q))) /\ QG (snd (fst q)) /\ QG (snd q) /\ fleb (snd (fst q)) (snd q) = true) rows.

Lemma leb_unit p : fleb f0 p = true -> fleb p (f_of_Z 1) = true -> unit_upto 0 p.
Proof.
  intros A B. assert (fisfin p = true) as F. { destruct p as [s|[|]| |s m e H]; try reflexivity; discriminate. }
  destruct f1_val as [V1 [F1 _]]. apply fleb_fin in A; [|reflexivity|exact F]. apply fleb_fin in B; [|exact F|exact F1].
  change (B2R64 f0) with 0 in A. rewrite V1 in B. split; [exact F|]. rewrite Rplus_0_r. lra.
Qed.

Lemma the_grid_x g : good_grid g -> x_column g (the_grid g).
Proof.
  destruct g as [g|]; [reflexivity|]. intros H. destruct (the_grid_ok None H) as [G _]. split; [reflexivity|].
  apply Forall_forall. intros x Hx. destruct (G x Hx). now apply leb_unit.
Qed.

Lemma result_of (QA QG QA' QG' : f64 -> Prop) f kd y preds counts n_boot ref g pairwise c (PF : Prop) :
  curve_kind QA QG f -> (forall v, QA v -> QA' v) -> (forall v, QG v -> QG' v) -> (forall v, QA v -> fisnan v = false) -> (forall v, QG v -> fisnan v = false) ->
  boot_input kd y preds counts n_boot -> good_ref ref (length y) -> good_grid g -> confidence c ->
  (pairwise = true -> forall a b, QA a -> of_ref QA ref b -> fisnan (fsub a b) = false) ->
  (PF -> if pairwise then forall a b, QA a -> of_ref QA ref b -> fisfin (fsub a b) = true else forall a, QA a -> fisfin a = true) ->
  boot_result64 QA' QG' g PF (curve_boot counts kd y preds 2 ref f g n_boot pairwise c).
Proof.
  intros K IA IG NA NG BI R G C P PFs. destruct (curve_boot_total64 QA QG f K NA NG kd y preds counts n_boot ref g pairwise c BI R G C P)
    as (auc & EB & p & rows & est & E & Qa & P0 & P1 & EB1 & EB2 & EB3 & X & F).
  exists auc, EB, p, rows. split; [exact E|]. split; [now apply IA|]. split; [now apply leb_unit|]. split; [exact EB1|]. split.
  { intros H. apply EB3. specialize (PFs H). destruct pairwise; [destruct EB2 as (b & Hb & ->); now apply PFs|subst est; now apply PFs]. }
  split; [rewrite X; now apply the_grid_x|]. eapply Forall_impl; [|exact F]. cbv beta. intros q (A & B & D & L). auto.
Qed.

Lemma near_sub a b : near_area a -> near_area b -> fisfin (fsub a b) = true.
Proof.
  intros [Fa Ba] [Fb Bb]. apply fsub_correct; auto. apply no_ovf. assert (P2 (-35) <= 1) by (change 1 with (P2 0); apply bpow_le; lia).
  assert (4 <= P2 1000) by (change 4 with (P2 2); apply bpow_le; lia). apply Rabs_le. lra.
Qed.
Lemma near_notnan v : near_area v -> fisnan v = false.
Proof. intros [F _]. now apply fisfin_notnan. Qed.

(** ** C98 *)
(** the error bar is a number at least 0 unless an infinite or gigantic
    reference is subtracted *)
Definition moderate (pairwise : bool) (ref : curve_ref f64) : Prop :=
  pairwise = false \/ match ref with RefScalar r => fisfin r = true /\ Rabs (B2R r) <= bpow radix2 1000 | RefPred _ => True end.

Lemma unit_curve (QG QG' : f64 -> Prop) f kd y preds counts n_boot ref g pairwise c : curve_kind near_area QG f -> (forall v, QG v -> QG' v) -> (forall v, QG v -> fisnan v = false) ->
  boot_input kd y preds counts n_boot -> good_ref ref (length y) -> good_grid g -> confidence c ->
  boot_result64 (unit_upto (bpow radix2 (-35))) QG' g (moderate pairwise ref) (curve_boot counts kd y preds 2 ref f g n_boot pairwise c).
Proof.
  intros K IG NG BI R G C. apply (result_of near_area QG); auto using near_notnan.
  - intros _ a b Ha Hb. destruct ref as [r|m]; cbn [of_ref good_ref] in *; [subst b; apply fsub_notnan_r; [apply Ha|exact R]|].
    apply fisfin_notnan. now apply near_sub.
  - intros [->|M]; [intros a [F _]; exact F|]. destruct pairwise; [|intros a [F _]; exact F]. intros a b Ha Hb.
    destruct ref as [r|m]; cbn [of_ref] in Hb; [|now apply near_sub]. subst b. destruct M as [Fr Mr]. destruct Ha as [Fa Ba]. apply fsub_correct; auto.
    apply Rle_lt_trans with (P2 1001); [|apply bpow_lt; reflexivity].
    assert (P2 (-35) <= 1) by (change 1 with (P2 0); apply bpow_le; lia). assert (4 <= P2 1000) by (change 4 with (P2 2); apply bpow_le; lia).
    assert (P2 1001 = 2 * P2 1000) as E1 by (change 2 with (P2 1); rewrite <- bpow_plus; reflexivity). apply Rabs_le_inv in Mr.
    apply Rabs_le. split; [apply rnd64_ge; [apply generic_format_opp, format64_pow; lia|lra]|apply rnd64_le; [apply format64_pow; lia|lra]].
Qed.

Theorem C98_curve_boot_roc :
  forall kd y preds counts n_boot ref g pairwise c,
  boot_input kd y preds counts n_boot -> good_ref ref (length y) -> good_grid g -> confidence c ->
  boot_result64 (unit_upto (bpow radix2 (-35))) (unit_upto (bpow radix2 (-49))) g (moderate pairwise ref)
    (curve_boot counts kd y preds 2 ref roc_curve g n_boot pairwise c).
Proof.
  intros kd y preds counts n_boot ref g pairwise c. apply (unit_curve near_unit); [apply kinds|auto|intros v [F _]; now apply fisfin_notnan].
Qed.
Print Assumptions C98_curve_boot_roc.

Theorem C98_curve_boot_rp :
  forall kd y preds counts n_boot ref g pairwise c,
  boot_input kd y preds counts n_boot -> good_ref ref (length y) -> good_grid g -> confidence c ->
  boot_result64 (unit_upto (bpow radix2 (-35))) (unit_upto 0) g (moderate pairwise ref)
    (curve_boot counts kd y preds 2 ref recall_precision_curve g n_boot pairwise c).
Proof.
  intros kd y preds counts n_boot ref g pairwise c. apply (unit_curve in01f); [apply kinds| |intros v [F _]; now apply fisfin_notnan].
  intros v [F B]. split; [exact F|]. rewrite Rplus_0_r. exact B.
Qed.
Print Assumptions C98_curve_boot_rp.

(** As in exact arithmetic (C54) the pairwise error bar of the
    precision-recall-gain curve needs a number as reference. *)
Theorem C98_curve_boot_prg :
  forall kd y preds counts n_boot ref g pairwise c,
  boot_input kd y preds counts n_boot -> good_ref ref (length y) -> good_grid g -> confidence c ->
  (pairwise = true -> exists r, ref = RefScalar r /\ fisfin r = true) ->
  boot_result64 (gain_upto (bpow radix2 (-35))) (gain_upto 0) g False
    (curve_boot counts kd y preds 2 ref prg_curve g n_boot pairwise c).
Proof.
  intros kd y preds counts n_boot ref g pairwise c BI R G C P. apply (result_of gain_area pgain); auto.
  - apply kinds.
  - intros v [->|[F B]]; [now left|right]. split; [exact F|]. rewrite Rplus_0_r. apply B.
  - intros v. apply low_notnan.
  - intros v [->|[F _]]; [reflexivity|now apply fisfin_notnan].
  - intros Hp a b Ha Hb. destruct (P Hp) as (r & -> & Fr). cbn [of_ref] in Hb. subst b. apply fsub_notnan_l; [exact Fr|]. eapply low_notnan. exact Ha.
  - intros [].
Qed.
Print Assumptions C98_curve_boot_prg.

Example C98_hyp :
  boot_input Ki [1; 0; 1]%Z [ints [0; 3]%Z; ints [0; 1]%Z; [fninf; f_of_Z 2]] [[2; 0; 1]; [0; 3; 0]]%Z 2 /\
  good_ref (RefPred [ints [0; 1]%Z; ints [0; 0]%Z; ints [1; 1]%Z]) 3 /\ good_ref (RefScalar (f_lit 1 2)) 3 /\
  good_grid None /\ good_grid (Some [f0; f_lit 1 2; f_of_Z 1]) /\ confidence (f_lit 95 100) /\ moderate true (RefScalar (f_lit 1 2)).
Proof.
  split; [|split; [|split; [|split; [|split; [|split]]]]].
  - constructor; [now right|reflexivity|discriminate|repeat (constructor; auto)| |lia| |cbn; lia|left; cbn; lia].
    + repeat (constructor; [split; [reflexivity|split; [|reflexivity]]|]); [..|constructor]; repeat (constructor; [reflexivity|]); constructor.
    + split; [reflexivity|]. repeat (constructor; [repeat split; auto; repeat (constructor; [lia|]); constructor|]). constructor.
  - split; [reflexivity|]. repeat (constructor; [split; [reflexivity|split; [|reflexivity]]|]); [..|constructor]; repeat (constructor; [reflexivity|]); constructor.
  - reflexivity.
  - exact I.
  - split; [discriminate|]. intros x [<-|[<-|[<-|[]]]]; vm_compute; auto.
  - vm_compute. auto.
  - right. split; [reflexivity|]. apply Rle_trans with 1; [|change 1 with (bpow radix2 0); apply bpow_le; lia].
    apply Rabs_le. destruct f1_val as [V1 [F1 _]].
    assert (fleb f0 (f_lit 1 2) = true /\ fleb (f_lit 1 2) (f_of_Z 1) = true) as [A B] by (vm_compute; auto).
    destruct (leb_unit _ A B) as [_ U]. lra.
Qed.
Example C98_example :
  boot_cells (curve_boot [[2; 1; 0; 1; 1]; [1; 1; 1; 1; 1]; [0; 1; 2; 2; 0]]%Z Ki [1; 0; 1; 0; 1]%Z
    (map (fun v => [fninf; v]) ex_s) 2 (RefPred (map (fun v => [f0; v]) (rev ex_s))) recall_precision_curve (Some [f0; f_lit 1 2; f_of_Z 1]) 3 true (f_lit 95 100)) =
  Some ((Some 888, Some 222, Some 1000), [(Some 1000, Some 1000); (Some 1000, Some 1000); (Some 400, Some 600)])%Z.
Proof. vm_compute. reflexivity. Qed.
