(** * The loss and curve tables: entries by label, rows of the curve dump *)
From Coq Require Import Reals.
From Verif Require Import PyBase ListLemmas F64 Num Util BootUtil PerfCurves CurveBoot MLPaper Checkpoint Classification Regression Benchmark.
From Verif Require Import CheckpointProofs ClassProofs5.
Open Scope list_scope.

Lemma Forall2_impl_ {A B} (P Q : A -> B -> Prop) l l' :
  (forall a b, P a b -> Q a b) -> Forall2 P l l' -> Forall2 Q l l'.
Proof. intros H F. induction F; constructor; auto. Qed.

(** ** Labels *)
Lemma pair_labels {A B E : Type} (la : list (pystr * A)) (lb : list (pystr * B)) (cols : list (list ((pystr * pystr) * E)))
    (lab : pystr -> pystr -> pystr * pystr) :
  Forall2 (fun a c => Forall2 (fun b e => fst e = lab (fst b) (fst a)) lb c) la cols ->
  map fst (concat cols) = flat_map (fun a => map (fun b => lab (fst b) (fst a)) lb) la.
Proof.
  induction 1 as [|a c la cols H _ IH]; [reflexivity|]. cbn [concat flat_map]. rewrite map_app, IH. f_equal. clear IH.
  induction H as [|b e lb c Hb _ IH']; [reflexivity|]. cbn [map]. now rewrite Hb, IH'.
Qed.

Lemma in_pair_labels {A B : Type} (la : list (pystr * A)) (lb : list (pystr * B)) (lab : pystr -> pystr -> pystr * pystr) l :
  In l (flat_map (fun a => map (fun b => lab (fst b) (fst a)) lb) la) <->
  exists p q, l = lab p q /\ In p (map fst lb) /\ In q (map fst la).
Proof.
  rewrite in_flat_map. split.
  - intros (a & Ha & Hl). apply in_map_iff in Hl. destruct Hl as (b & <- & Hb). exists (fst b), (fst a).
    split; [reflexivity|]. split; now apply in_map.
  - intros (p & q & -> & Hp & Hq). apply in_map_iff in Hp. apply in_map_iff in Hq. destruct Hp as (b & <- & Hb), Hq as (a & <- & Ha).
    exists a. split; [exact Ha|]. apply in_map_iff. now exists b.
Qed.

Lemma nodup_pair_labels {A B : Type} (la : list (pystr * A)) (lb : list (pystr * B)) (lab : pystr -> pystr -> pystr * pystr) :
  (forall p q p' q', lab p q = lab p' q' -> p = p' /\ q = q') ->
  NoDup (map fst la) -> NoDup (map fst lb) ->
  NoDup (flat_map (fun a => map (fun b => lab (fst b) (fst a)) lb) la).
Proof.
  intros I Na Nb. induction la as [|a la IH]; [constructor|]. cbn [flat_map]. inversion Na as [|? ? Hni Na']; subst.
  assert (NoDup (map (fun b => lab (fst b) (fst a)) lb)) as N1.
  { clear IH. induction lb as [|b lb IHb]; [constructor|]. inversion Nb as [|? ? Hb Nb']; subst. cbn. constructor; [|now apply IHb].
    intros H. apply in_map_iff in H. destruct H as (b' & E & Hb'). apply I in E. destruct E as [E _]. apply Hb. rewrite <- E. now apply in_map. }
  specialize (IH Na'). clear Na.
  assert (forall l, In l (map (fun b => lab (fst b) (fst a)) lb) -> ~ In l (flat_map (fun a => map (fun b => lab (fst b) (fst a)) lb) la)) as D.
  { intros l Hl Hl2. apply in_map_iff in Hl. destruct Hl as (b & <- & _). apply in_pair_labels in Hl2.
    destruct Hl2 as (p & q & E & _ & Hq). apply I in E. destruct E as [_ <-]. contradiction. }
  revert N1 D IH. generalize (map (fun b => lab (fst b) (fst a)) lb), (flat_map (fun a => map (fun b => lab (fst b) (fst a)) lb) la).
  intros l m N D Nm. induction l as [|x l IHl]; [exact Nm|]. inversion N; subst. cbn. constructor.
  - rewrite in_app_iff. intros [|Hm]; [contradiction|]. exact (D x (or_introl eq_refl) Hm).
  - apply IHl; [assumption|]. intros y Hy. apply D. now right.
Qed.

Lemma nodup_concat_fst {K V} (l : list (K * V)) k v : NoDup (map fst l) -> In (k, v) l -> forall w, In (k, w) l -> w = v.
Proof. intros N H w Hw. exact (NoDup_fst_inj _ _ _ _ N Hw H). Qed.

(** ** loss_table of regression.py *)
Section RLoss.
  Context {T : Type} {NT : num T}.
  Implicit Types (tbl : gauss_table T) (md : dict (r_metric_fun T)).

  Lemma r_loss_table_iff tbl y md lt : r_loss_table tbl y md = Ok lt <->
    length y = gt_len tbl /\ (1 <= gt_len tbl)%nat /\ gt_methods tbl <> [] /\
    lt_metrics lt = map fst md /\ lt_methods lt = map fst (gt_methods tbl) /\ lt_len lt = gt_len tbl /\
    exists cols, lt_cols lt = concat cols /\
      Forall2 (fun (m : pystr * (list T * list T)) c => Forall2 (fun (mf : pystr * r_metric_fun T) e =>
        exists l, snd mf y (fst (snd m)) (snd (snd m)) = Ok l /\ length l = gt_len tbl /\ e = ((fst mf, fst m), l)) md c)
        (gt_methods tbl) cols.
  Proof.
    unfold r_loss_table.
    assert (forall (m : pystr * (list T * list T)) c, mapM (fun mf : pystr * r_metric_fun T => do loss <- (snd mf) y (fst (snd m)) (snd (snd m));
        do v <- r_column_values (gt_len tbl) loss; Ok ((fst mf, fst m), v)) md = Ok c <->
      Forall2 (fun (mf : pystr * r_metric_fun T) e =>
        exists l, snd mf y (fst (snd m)) (snd (snd m)) = Ok l /\ length l = gt_len tbl /\ e = ((fst mf, fst m), l)) md c) as K.
    { intros m c. rewrite mapM_Forall2. split; intros H.
      - eapply Forall2_impl_; [|exact H]. intros mf e. cbn beta. destruct (snd mf y (fst (snd m)) (snd (snd m))) as [l|]; [|discriminate].
        cbn [bind]. unfold r_column_values. destruct (length l =? gt_len tbl)%nat eqn:L; [|discriminate]. cbn [bind]. intros E. apply Ok_inj in E. subst e.
        exists l. split; [reflexivity|]. split; [now apply Nat.eqb_eq|reflexivity].
      - eapply Forall2_impl_; [|exact H]. intros mf e (l & E & L & ->). cbn beta. rewrite E. cbn [bind]. unfold r_column_values.
        rewrite (proj2 (Nat.eqb_eq _ _) L). reflexivity. }
    split.
    - destruct (length y =? gt_len tbl)%nat eqn:E1; [|discriminate]. cbn [py_assert bind].
      destruct ((1 <=? gt_len tbl) && (1 <=? length (gt_methods tbl)))%nat eqn:E2; [|discriminate]. cbn [py_assert bind].
      destruct (mapM _ (gt_methods tbl)) as [cols|] eqn:E3; [|discriminate]. cbn [bind]. intros H. apply Ok_inj in H. subst lt. cbn.
      apply andb_true_iff in E2. destruct E2 as [E2 E4]. apply Nat.leb_le in E2, E4. apply Nat.eqb_eq in E1.
      split; [exact E1|]. split; [exact E2|]. split; [intros N; rewrite N in E4; cbn in E4; lia|]. split; [reflexivity|]. split; [reflexivity|]. split; [reflexivity|].
      exists cols. split; [reflexivity|]. apply mapM_Forall2 in E3. eapply Forall2_impl_; [|exact E3]. intros m c. cbn beta. apply K.
    - intros (L & G & M & Q1 & Q2 & Q3 & cols & Q4 & F). rewrite (proj2 (Nat.eqb_eq _ _) L). cbn [py_assert bind].
      rewrite (proj2 (Nat.leb_le _ _) G). destruct (gt_methods tbl) as [|m0 ms] eqn:EM; [congruence|].
      cbn [length Nat.leb andb py_assert bind]. rewrite (proj2 (mapM_Forall2 _ (m0 :: ms) cols)).
      + cbn [bind]. destruct lt; cbn in *. subst. reflexivity.
      + eapply Forall2_impl_; [|exact F]. intros m c Hc. now apply K.
  Qed.
End RLoss.

(** ** loss_table of classification.py *)
Section CLoss.
  Context {T : Type} {NT : num T} (normalize : nat -> list (list T) -> res (list (list T))).

  Lemma loss_table_iff (tbl : pred_table T) kd y md an :
    (exists lt, loss_table normalize tbl kd y md an = Ok lt) <->
    length y = pt_len tbl /\ (1 <= pt_len tbl)%nat /\ (1 <= length (pt_labels tbl))%nat /\ (1 <= length (pt_methods tbl))%nat /\
    Forall (fun m => exists c, method_losses normalize tbl kd y md an m = Ok c) (pt_methods tbl).
  Proof.
    split.
    - intros [lt H]. apply loss_table_inv in H. destruct H as (A & B & C & D & _ & _ & _ & cols & _ & F).
      do 4 (split; [assumption|]). clear -F. induction F; constructor; eauto.
    - intros (A & B & C & D & F). unfold loss_table. rewrite (proj2 (Nat.eqb_eq _ _) A). cbn [py_assert bind].
      rewrite (proj2 (Nat.leb_le _ _) B), (proj2 (Nat.leb_le _ _) C), (proj2 (Nat.leb_le _ _) D). cbn [andb py_assert bind].
      assert (exists cols, mapM (method_losses normalize tbl kd y md an) (pt_methods tbl) = Ok cols) as [cols ->].
      { clear -F. induction F as [|m l [c E] _ [cols IH]]; [exists []; reflexivity|]. cbn [mapM]. rewrite E. cbn [bind]. rewrite IH. eexists; reflexivity. }
      cbn [bind]. eexists; reflexivity.
  Qed.

  Lemma loss_table_labels (tbl : pred_table T) kd y md an lt : loss_table normalize tbl kd y md an = Ok lt ->
    map fst (lt_cols lt) = flat_map (fun m => map (fun mf => (fst mf, fst m)) md) (pt_methods tbl).
  Proof.
    intros H. apply loss_table_inv in H. destruct H as (_ & _ & _ & _ & _ & _ & _ & cols & -> & F).
    apply (pair_labels (pt_methods tbl) md cols (fun p q => (p, q))). eapply Forall2_impl_; [|exact F]. intros [name f] c E.
    apply method_losses_iff in E. destruct E as (_ & P & _ & E). eapply Forall2_impl_; [|exact E]. intros mf e (l & _ & _ & ->). reflexivity.
  Qed.
End CLoss.

(** ** curve_summary_table *)
Section Curves.
  Context {T : Type} {NT : num T}.
  Implicit Types (tbl : pred_table T) (cd : dict (curve_fun T)).

  Definition shaped tbl (f : list Z * list (list T)) : Prop :=
    fst f = range_Z (length (pt_labels tbl)) /\ length (snd f) = pt_len tbl /\
    Forall (fun r => length r = length (pt_labels tbl)) (snd f).
  Lemma shaped_iff tbl cols rows : shaped tbl (cols, rows) <->
    listZ_eqb cols (range_Z (length (pt_labels tbl))) = true /\
    ((length rows =? pt_len tbl)%nat && forallb (fun r => (length r =? length (pt_labels tbl))%nat) rows) = true.
  Proof. unfold shaped. cbn [fst snd]. rewrite listZ_eqb_spec, andb_true_iff, Nat.eqb_eq, len_rows. tauto. Qed.

  Lemma curve_method_iff draw tbl kd y cd refm ref g nb pw c name f out :
    curve_method draw tbl kd y cd refm ref g nb pw c (name, f) = Ok out <->
    shaped tbl f /\ Forall2 (fun (cf : pystr * curve_fun T) e => exists auc EB p dump,
      curve_boot (draw name (fst cf)) kd y (snd f) (length (pt_labels tbl)) (RefPred ref) (snd cf) g nb pw c = Ok ((auc, EB, p), dump) /\
      e = ((name, fst cf), ({| cell_mean := auc; cell_error := if pw && pystr_eqb name refm then nnan else EB;
                              cell_pval := if pystr_eqb name refm then nnan else p |}, dump))) cd out.
  Proof.
    destruct f as [cols rows]. rewrite shaped_iff. unfold curve_method. cbn [fst snd].
    destruct (listZ_eqb cols _); [|split; [discriminate|intros [[? ?] _]; discriminate]]. cbn [py_assert bind].
    destruct ((length rows =? pt_len tbl)%nat && _); [|split; [discriminate|intros [[? ?] _]; discriminate]]. cbn [py_assert bind].
    rewrite mapM_Forall2. split.
    - intros H. split; [auto|]. eapply Forall2_impl_; [|exact H]. intros cf e. cbn beta.
      destruct (curve_boot _ _ _ _ _ _ _ _ _ _ _) as [[[[auc EB] p] dump]|]; [|discriminate]. cbn [bind]. intros E. apply Ok_inj in E. subst e.
      exists auc, EB, p, dump. split; reflexivity.
    - intros [_ H]. eapply Forall2_impl_; [|exact H]. intros cf e (auc & EB & p & dump & E & ->). cbn beta. rewrite E. reflexivity.
  Qed.

  Lemma curve_table_iff draw tbl kd y cd refm g nb pw c out :
    curve_summary_table draw tbl kd y cd refm g nb pw c = Ok out <->
    length y = pt_len tbl /\ (1 <= pt_len tbl)%nat /\ (1 <= length (pt_labels tbl))%nat /\ (1 <= length cd)%nat /\
    exists rf, dict_get (pt_methods tbl) refm = Some rf /\ shaped tbl rf /\
    exists cols, out = concat cols /\
      Forall2 (fun m o => curve_method draw tbl kd y cd refm (snd rf) g nb pw c m = Ok o) (pt_methods tbl) cols.
  Proof.
    unfold curve_summary_table, sub_frame. split.
    - destruct (length y =? pt_len tbl)%nat eqn:E1; [|discriminate]. cbn [py_assert bind].
      destruct (dict_get (pt_methods tbl) refm) as [[cols ref]|] eqn:E2; [|discriminate]. cbn [bind].
      destruct ((1 <=? pt_len tbl) && (1 <=? length (pt_labels tbl)) && (1 <=? length cd))%nat eqn:E3; [|discriminate]. cbn [py_assert bind].
      destruct (listZ_eqb cols _) eqn:E4; [|discriminate]. cbn [py_assert bind].
      destruct ((length ref =? pt_len tbl)%nat && _) eqn:E5; [|discriminate]. cbn [py_assert bind].
      destruct (mapM _ (pt_methods tbl)) as [rows|] eqn:E6; [|discriminate]. cbn [bind]. intros H. apply Ok_inj in H. subst out.
      apply Nat.eqb_eq in E1. rewrite !andb_true_iff, !Nat.leb_le in E3. destruct E3 as [[A B] C].
      do 4 (split; [assumption|]). exists (cols, ref). split; [reflexivity|]. split; [now apply shaped_iff|]. exists rows. split; [reflexivity|].
      now apply mapM_Forall2.
    - intros (A & B & C & D & [cols ref] & E & S & rows & -> & F). rewrite (proj2 (Nat.eqb_eq _ _) A), E. cbn [py_assert bind].
      rewrite (proj2 (Nat.leb_le _ _) B), (proj2 (Nat.leb_le _ _) C), (proj2 (Nat.leb_le _ _) D). cbn [andb py_assert bind].
      apply shaped_iff in S. destruct S as [-> S]. cbn [py_assert bind]. rewrite S. cbn [py_assert bind]. apply mapM_Forall2 in F. cbn [snd] in F. rewrite F. reflexivity.
  Qed.

  Lemma curve_table_labels draw tbl kd y cd refm g nb pw c out : curve_summary_table draw tbl kd y cd refm g nb pw c = Ok out ->
    map fst out = flat_map (fun m => map (fun cf => (fst m, fst cf)) cd) (pt_methods tbl).
  Proof.
    intros H. apply curve_table_iff in H. destruct H as (_ & _ & _ & _ & rf & _ & _ & cols & -> & F).
    apply (pair_labels (pt_methods tbl) cd cols (fun p q => (q, p))). eapply Forall2_impl_; [|exact F]. intros [name f] o E.
    apply curve_method_iff in E. destruct E as (_ & E). eapply Forall2_impl_; [|exact E]. intros cf e (? & ? & ? & ? & _ & ->). reflexivity.
  Qed.

  (** Rows of the dump of curve_boot *)
  Lemma area_length n (rows : list (list T * list T)) kd out : area n rows kd = Ok out -> length out = length rows.
  Proof.
    unfold area. do 4 (match goal with |- context [py_assert ?b] => destruct b; [|discriminate]; cbn [py_assert bind] end).
    destruct kd; cbn [bind]; try discriminate;
    (match goal with |- context [py_assert ?b] => destruct b; [|discriminate]; cbn [py_assert bind] end); intros H; apply Ok_inj in H; subst out; now rewrite map_length.
  Qed.
  Lemma _interp1d_length g xp yp kd (out : list T) : _interp1d g xp yp kd = Ok out -> length out = length g.
  Proof.
    unfold _interp1d. do 3 (match goal with |- context [py_assert ?b] => destruct b; [|discriminate]; cbn [py_assert bind] end).
    destruct kd; [|discriminate|].
    - destruct (unique_take_last xp (Some yp)) as [[xp' [yp'|]]|]; cbn [bind]; try discriminate.
      unfold eval_step_func. do 2 (match goal with |- context [py_assert ?b] => destruct b; [|discriminate]; cbn [py_assert bind] end).
      destruct g as [|x0 g]; [cbn; intros H; apply Ok_inj in H; now subst|].
      destruct (py_index xp' 0); cbn [bind]; [|discriminate].
      match goal with |- context [py_assert ?b] => destruct b; [|discriminate]; cbn [py_assert bind] end.
      intros H. apply mapM_Forall2 in H. symmetry. exact (Forall2_len _ _ _ H).
    - intros H. apply mapM_Forall2 in H. symmetry. exact (Forall2_len _ _ _ H).
  Qed.

  Lemma curve_boot_dump counts kd y preds ncol ref f g nb pw c (auc EB p : T) dump :
    curve_boot counts kd y preds ncol ref f g nb pw c = Ok ((auc, EB, p), dump) ->
    let grid := match g with None => default_grid | Some g => g end in
    (1 <= nb)%Z /\ map (fun r => fst (fst (fst r))) dump = grid /\
    Forall (fun r => exists b, Z.of_nat (length b) = nb /\ percentile b c = Ok (snd (fst r), snd r)) dump.
  Proof.
    intros H grid. unfold curve_boot in H.
    destruct (shape_and_validate kd y preds ncol) as [[N L]|]; [|discriminate]. cbn [bind] in H.
    do 5 (match type of H with context [py_assert ?b] => destruct b eqn:?A; [|discriminate]; cbn [py_assert bind] in H end).
    fold grid in H. destruct (f _ _ None) as [r|]; [|discriminate]. cbn [bind] in H.
    destruct (check_curve r (Some grid)) as [cv|]; [|discriminate]. cbn [bind] in H.
    destruct (curve_area cv) as [aucs|]; [|discriminate]. cbn [bind] in H.
    destruct (unpack1 aucs); [|discriminate]. cbn [bind] in H.
    destruct (interp1d grid (fst cv) (snd cv)) as [yg|] eqn:EY; [|discriminate]. cbn [bind] in H.
    destruct (unpack1 yg) as [y_grid|] eqn:EU; [|discriminate]. cbn [bind] in H.
    destruct (boot_weights _ _ _ _) as [w|]; [|discriminate]. cbn [bind] in H.
    destruct (f _ _ (Some w)) as [rb|]; [|discriminate]. cbn [bind] in H.
    destruct (check_curve rb (Some grid)) as [cb|]; [|discriminate]. cbn [bind] in H.
    destruct (curve_area cb) as [ab|] eqn:EA; [|discriminate]. cbn [bind] in H.
    destruct (Z.of_nat (length ab) =? nb)%Z eqn:EN; [|discriminate]. cbn [py_assert bind] in H.
    destruct (interp1d grid (fst cb) (snd cb)) as [ygb|] eqn:EB2; [|discriminate]. cbn [bind] in H.
    destruct (match ref with RefScalar v => Ok (v, Scalar v) | RefPred m => _ end) as [[v rv]|]; [|discriminate]. cbn [bind] in H.
    destruct (if pw then _ else _) as [eb|]; [|discriminate]. cbn [bind] in H.
    destruct (significance ab rv) as [pv|]; [|discriminate]. cbn [bind] in H.
    destruct (mapM _ (columns (length grid) ygb)) as [bounds|] eqn:EP; [|discriminate]. cbn [bind] in H.
    apply Ok_inj in H. injection H as _ _ _ <-.
    assert (length y_grid = length grid) as LY.
    { destruct yg as [|y1 [|]]; cbn in EU; try discriminate. apply Ok_inj in EU. subst y1. unfold interp1d in EY. apply mapM_Forall2 in EY.
      inversion EY as [|[xp yp] ? ? ? E _]; subst. exact (_interp1d_length _ _ _ _ _ E). }
    assert (Z.of_nat (length ygb) = nb) as LB.
    { apply Z.eqb_eq in EN. rewrite <- EN. f_equal. unfold curve_area in EA. apply area_length in EA. unfold interp1d in EB2. apply mapM_Forall2 in EB2.
      apply Forall2_len in EB2. congruence. }
    apply mapM_Forall2 in EP.
    assert (length bounds = length grid) as LB2.
    { apply Forall2_len in EP. rewrite <- EP. unfold columns. now rewrite map_length, seq_length. }
    split; [now apply Z.leb_le|]. split.
    - clear -LY LB2. revert y_grid bounds LY LB2. generalize grid. induction grid0 as [|x l IH]; intros [|a y] [|b bs] Ha Hb; try discriminate; [reflexivity|].
      cbn in Ha, Hb. cbn [combine map2 map fst]. f_equal. apply IH; lia.
    - assert (Forall (fun q => exists b, Z.of_nat (length b) = nb /\ percentile b c = Ok q) bounds) as FB.
      { apply Forall_forall. intros q Hq. destruct (Forall2_in_r _ _ _ _ EP Hq) as (b & Hb & E). exists b. split; [|exact E].
        unfold columns in Hb. apply in_map_iff in Hb. destruct Hb as (j & <- & _). now rewrite map_length. }
      clear -FB. revert bounds FB. generalize (combine grid y_grid). induction l as [|x l IH]; intros [|q bs] FB; try constructor.
      + apply Forall_inv in FB. destruct FB as (b & Lb & Eb). exists b. split; [exact Lb|]. cbn [fst snd]. rewrite Eb. now destruct q.
      + apply IH. now inversion FB.
  Qed.

  (** The error bar of curve_boot is not NaN when there is a finite estimate. *)
  Lemma error_bar_not_nan b e c (EB : T) : error_bar b e c = Ok EB -> nltb EB n0 = false /\ (nisfin e = true -> nisnan EB = false).
  Proof.
    unfold error_bar. destruct (percentile b c); [|discriminate]. cbn [bind]. cbv zeta.
    destruct (negb (nltb _ n0)) eqn:A; [|discriminate]. cbn [py_assert bind].
    destruct (implb (nisfin e) _) eqn:B; [|discriminate]. cbn [py_assert bind]. intros H. apply Ok_inj in H. subst EB.
    split; [now apply negb_true_iff|]. intros F. rewrite F in B. now apply negb_true_iff.
  Qed.
  Lemma curve_boot_error counts kd y preds ncol ref f g nb c (auc EB p : T) dump :
    curve_boot counts kd y preds ncol ref f g nb false c = Ok ((auc, EB, p), dump) ->
    nltb EB n0 = false /\ (nisfin auc = true -> nisnan EB = false).
  Proof.
    intros H. unfold curve_boot in H.
    destruct (shape_and_validate kd y preds ncol) as [[N L]|]; [|discriminate]. cbn [bind] in H.
    do 5 (match type of H with context [py_assert ?b] => destruct b eqn:?A; [|discriminate]; cbn [py_assert bind] in H end).
    destruct (f _ _ None) as [r|]; [|discriminate]. cbn [bind] in H.
    destruct (check_curve r _) as [cv|]; [|discriminate]. cbn [bind] in H.
    destruct (curve_area cv) as [aucs|]; [|discriminate]. cbn [bind] in H.
    destruct (unpack1 aucs) as [a0|]; [|discriminate]. cbn [bind] in H.
    destruct (interp1d _ (fst cv) (snd cv)) as [yg|]; [|discriminate]. cbn [bind] in H.
    destruct (unpack1 yg) as [y_grid|]; [|discriminate]. cbn [bind] in H.
    destruct (boot_weights _ _ _ _) as [w|]; [|discriminate]. cbn [bind] in H.
    destruct (f _ _ (Some w)) as [rb|]; [|discriminate]. cbn [bind] in H.
    destruct (check_curve rb _) as [cb|]; [|discriminate]. cbn [bind] in H.
    destruct (curve_area cb) as [ab|]; [|discriminate]. cbn [bind] in H.
    destruct (Z.of_nat (length ab) =? nb)%Z; [|discriminate]. cbn [py_assert bind] in H.
    destruct (interp1d _ (fst cb) (snd cb)) as [ygb|]; [|discriminate]. cbn [bind] in H.
    destruct (match ref with RefScalar v => Ok (v, Scalar v) | RefPred m => _ end) as [[v rv]|]; [|discriminate]. cbn [bind] in H.
    destruct (error_bar ab a0 c) as [eb|] eqn:E; [|discriminate]. cbn [bind] in H.
    destruct (significance ab rv) as [pv|]; [|discriminate]. cbn [bind] in H.
    destruct (mapM _ _) as [bounds|]; [|discriminate]. cbn [bind] in H.
    apply Ok_inj in H. injection H as <- <- _ _. exact (error_bar_not_nan _ _ _ _ E).
  Qed.
End Curves.
