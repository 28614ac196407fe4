(** Property theorems C106-C108: what the functions refuse.  Every statement
    says which inputs make a function raise, and which exception it raises.
    Model: BootUtil.v, MLPaper.v, PerfCurves.v, CurveBoot.v, Classification.v,
    Util.v, DataSplitter.v, Sciprint.v. *)
From Coq Require Import Reals Lia Lra.
From Verif Require Import PyBase ListLemmas F64 Dec Num Util BootUtil PerfCurves CurveBoot MLPaper Classification DataSplitter Sciprint MLProofs MLProofs4 CompareProofs PerfProofs F64Lemmas SplitProofs2.
Open Scope Z_scope.

(** ** The vocabulary *)
Definition refused {A} (r : res A) : Prop := r = Err AssertionError.
Definition no_result {A} (r : res A) : Prop := forall a, r <> Ok a.

Ltac step :=
  match goal with
  | |- refused ?t => change (t = Err AssertionError)
  | |- bind (py_assert ?b) _ = Err AssertionError => let E := fresh "E" in destruct b eqn:E; [cbn [py_assert bind]|reflexivity]
  end.
Lemma any_true {A} (f : A -> bool) l : Exists (fun v => f v = true) l -> existsb f l = true.
Proof. intros H. apply existsb_exists. apply Exists_exists in H. exact H. Qed.
Lemma any_false {A} (f : A -> bool) l : Exists (fun v => f v = false) l -> forallb f l = false.
Proof. intros H. apply Exists_exists in H as (v & I & E). apply not_true_iff_false. intros Q. rewrite forallb_forall in Q. specialize (Q v I). congruence. Qed.
Lemma neg_flip b : negb b = true -> b = true -> False.
Proof. now destruct b. Qed.
Lemma mapM_no {A B} (f : A -> res B) l a : In a l -> no_result (f a) -> no_result (mapM f l).
Proof.
  intros I N. induction l as [|b l IH]; [contradiction|]. intros out H. cbn [mapM] in H. apply bind_ok in H as (v & E & H). apply bind_ok in H as (vs & Es & _).
  destruct I as [->|I]; [exact (N v E)|exact (IH I vs Es)].
Qed.
Lemma refused_no {A} (r : res A) : refused r -> no_result r.
Proof. intros -> a. discriminate. Qed.

Section C106.
  Context {T : Type} {NT : num T} {FT : fn T}.
  Definition has_nan (x : list T) : Prop := Exists (fun v => nisnan v = true) x.
  Definition outside (lower upper : T) (x : list T) : Prop := Exists (fun v => nleb lower v = false \/ nleb v upper = false) x.
  Definition no_confidence (c : T) : Prop := nltb n0 c = false \/ nltb c n1 = false.

  Lemma outside_within lo up x : outside lo up x -> within lo up x = false.
  Proof.
    intros H. unfold within. apply Exists_exists in H as (v & I & [E|E]).
    - rewrite any_false; [reflexivity|]. apply Exists_exists. eauto.
    - apply andb_false_iff. right. apply any_false. apply Exists_exists. eauto.
  Qed.
  Lemma conf_bad c : no_confidence c -> nltb n0 c && nltb c n1 = false.
  Proof. intros [-> | ->]; [reflexivity|apply andb_false_r]. Qed.

  (** ** C106: samples *)
  Theorem C106_nan :
    forall x, has_nan x ->
    refused (t_test x) /\ (forall c, refused (t_EB x c)) /\
    (forall lower upper, refused (bernstein_test x lower upper)) /\ (forall lower upper c, refused (bernstein_EB x lower upper c)) /\
    (forall counts n_boot, refused (boot_test counts x n_boot)) /\ (forall counts c n_boot, refused (boot_EB counts x c n_boot)).
  Proof.
    intros x H. pose proof (any_true _ _ H) as E. unfold refused, t_test, t_EB, bernstein_test, bernstein_EB, boot_test, boot_EB, _boot_EB_and_test. rewrite E. cbn [negb py_assert bind]. auto 10.
  Qed.

  Theorem C106_limits :
    forall (x : list T) lower upper,
    (nleb n0 (nsub upper lower) = false \/ outside lower upper x ->
       refused (bernstein_test x lower upper) /\ forall c, refused (bernstein_EB x lower upper c)) /\
    (outside lower upper x -> forall counts c min_EB method,
       refused (get_mean_and_EB counts x c min_EB lower upper method) /\ refused (get_mean_EB_test counts x c min_EB lower upper method)).
  Proof.
    intros x lo up. split.
    - intros H. assert (nleb n0 (nsub up lo) = true -> within lo up x = true -> False) as K by (intros A B; destruct H as [H|H]; [congruence|apply outside_within in H; congruence]).
      split; [|intros c]; unfold bernstein_test, bernstein_EB; repeat step; exfalso; auto.
    - intros H counts c mE m. pose proof (outside_within _ _ _ H) as W. unfold refused, get_mean_and_EB, get_mean_EB_test. rewrite W. auto.
  Qed.

  (** The confidence level is checked by the t and Bernstein intervals, and by
      the bootstrap unless the sample is degenerate. *)
  Theorem C106_confidence :
    forall (x : list T) c, no_confidence c ->
    refused (t_EB x c) /\ (forall lower upper, refused (bernstein_EB x lower upper c)) /\ refused (confidence_to_percentiles c) /\
    (forall b, refused (percentile b c)) /\ (forall b m, refused (error_bar b m c)) /\
    (forall counts n_boot, (2 <= length x)%nat -> Forall (fun v => nisfin v = true) x -> refused (boot_EB counts x c n_boot)).
  Proof.
    intros x c H. pose proof (conf_bad _ H) as E. assert (forall b, refused (percentile b c)) as P.
    { intros b. unfold refused, percentile, confidence_to_percentiles. rewrite E. destruct (negb _); reflexivity. }
    split; [unfold t_EB; repeat step; congruence|]. split; [intros lo up; unfold bernstein_EB; repeat step; congruence|].
    split; [unfold refused, confidence_to_percentiles; now rewrite E|]. split; [exact P|].
    split; [intros b m; unfold refused, error_bar; now rewrite P|].
    intros counts n N F. unfold refused, boot_EB, _boot_EB_and_test. destruct (negb (existsb nisnan x)); [|reflexivity]. cbn [py_assert bind].
    unfold degenerate. replace (Z.of_nat (length x) <=? 1) with false by (symmetry; apply Z.leb_gt; lia). replace (forallb nisfin x) with true by (symmetry; now apply forallb_forall, Forall_forall). cbn [orb negb].
    destruct (boot_weights counts (Z.of_nat (length x)) n n0) as [W|e] eqn:B; cbn [bind].
    - unfold error_bar. rewrite P. reflexivity.
    - unfold boot_weights in B. destruct (1 <=? _); cbn [py_assert bind] in B; [|now inversion B]. destruct (1 <=? _); cbn [py_assert bind] in B; now inversion B.
  Qed.

  Theorem C106_unknown_method :
    forall counts (x : list T) c min_EB lower upper,
    refused (get_mean_and_EB counts x c min_EB lower upper Mother) /\ refused (get_mean_EB_test counts x c min_EB lower upper Mother) /\ refused (get_test counts x lower upper Mother).
  Proof. intros. unfold refused, get_mean_and_EB, get_mean_EB_test, get_test. destruct (within lower upper x); auto. Qed.

  (** exactly these: replicates and reference of equal length without NaN *)
  Theorem C106_significance :
    forall (b : list T) r,
    let usable := match r with Scalar v => nisnan v = false | Paired l => length l = length b /\ Forall (fun v => nisnan v = false) l end /\ Forall (fun v => nisnan v = false) b in
    (usable -> exists p, significance b r = Ok p) /\ (~ usable -> refused (significance b r)).
  Proof.
    intros b r usable. assert (forall l : list T, Forall (fun v => nisnan v = false) l <-> existsb nisnan l = false) as FN.
    { intros l. split; intros H; [apply not_true_iff_false; intros E; apply existsb_exists in E as (v & I & E); rewrite Forall_forall in H; specialize (H v I); congruence|].
      apply Forall_forall. intros v I. apply not_true_iff_false. intros E. assert (existsb nisnan l = true) by (apply existsb_exists; eauto). congruence. }
    unfold usable, significance. destruct r as [v|l]; rewrite ?FN; split.
    - intros [-> ->]. cbn [negb py_assert bind]. eauto.
    - intros N. repeat step. exfalso. apply N. apply negb_true_iff in E0, E1. auto.
    - intros [[L ->] ->]. rewrite L, Nat.eqb_refl. cbn [negb py_assert bind]. eauto.
    - intros N. repeat step. exfalso. apply N. apply Nat.eqb_eq in E. apply negb_true_iff in E0, E1. auto.
  Qed.

  Theorem C106_boot_weights :
    forall counts N n_boot (eps : T),
    (1 <= N -> 1 <= n_boot -> exists w, boot_weights counts N n_boot eps = Ok w /\ length w = length counts) /\ (N < 1 \/ n_boot < 1 -> refused (boot_weights counts N n_boot eps)).
  Proof.
    intros counts N n eps. unfold boot_weights. split.
    - intros A B. replace (1 <=? N) with true by (symmetry; now apply Z.leb_le). replace (1 <=? n) with true by (symmetry; now apply Z.leb_le). cbn [py_assert bind]. eexists. split; [reflexivity|apply map_length].
    - intros H. repeat step. apply Z.leb_le in E, E0. lia.
  Qed.

  (** loss tables: no such reference, no rows or no metrics; then any metric
      with crossed limits, or any column that is missing, has NaN or leaves the
      limits *)
  Theorem C106_table :
    forall draw (t : loss_table_t T) ref pairwise c m limits,
    let table := loss_summary_table draw t ref pairwise c m limits in
    (~ In ref (lt_methods t) \/ lt_len t = 0%nat \/ lt_metrics t = [] -> refused table) /\
    (forall metric, In metric (lt_metrics t) ->
       let (lower, upper) := dict_get_def limits metric (nninf, ninf) in
       nleb lower upper = false \/
       (exists method, In method (lt_methods t) /\ forall x, In (metric, method, x) (lt_cols t) -> has_nan x \/ outside lower upper x) ->
       no_result table).
  Proof.
    intros draw t ref pw c m limits table. unfold table, loss_summary_table. split.
    - intros H. repeat step. exfalso. destruct H as [H|[H|H]].
      + apply H. apply existsb_exists in E as (r & I & Q). apply pystr_eqb_spec in Q. now subst r.
      + rewrite H in E0. discriminate.
      + rewrite H, andb_false_r in E0. discriminate.
    - intros metric I. destruct (dict_get_def limits metric (nninf, ninf)) as [lo up] eqn:D. intros H out Q. apply assert_ok in Q as [_ Q]. apply assert_ok in Q as [_ Q]. apply bind_ok in Q as (rows & Q & _). revert rows Q. apply (mapM_no _ _ metric I).
      intros rows Q. cbv zeta in Q. rewrite D in Q. cbn [fst snd] in Q. apply assert_ok in Q as [L Q]. destruct H as [H|(method & Im & H)]; [congruence|].
      apply bind_ok in Q as (loss_ref & _ & Q). apply assert_ok in Q as [_ Q]. apply assert_ok in Q as [_ Q]. revert rows Q. apply (mapM_no _ _ method Im). intros cl Q. apply bind_ok in Q as (cc & Q & _).
      unfold summary_cell in Q. apply bind_ok in Q as (x & S & Q). apply assert_ok in Q as [N Q]. apply assert_ok in Q as [W _].
      assert (In (metric, method, x) (lt_cols t)) as IC.
      { unfold MLPaper.select in S. destruct (filter _ (lt_cols t)) as [|[k v] [|]] eqn:F; try discriminate. apply Ok_inj in S. cbn [snd] in S. subst v.
        assert (In (k, x) (filter (fun c => label_eqb (metric, method) (fst c)) (lt_cols t))) as J by (rewrite F; now left). apply filter_In in J as [J E]. destruct k as [a b]. unfold label_eqb in E. cbn [fst snd] in E.
        apply andb_true_iff in E as [E1 E2]. apply pystr_eqb_spec in E1, E2. now subst a b. }
      destruct (H x IC) as [B|B]; [apply any_true in B; rewrite B in N; discriminate|apply outside_within in B; congruence].
  Qed.
End C106.
Print Assumptions C106_nan.
Print Assumptions C106_limits.
Print Assumptions C106_confidence.
Print Assumptions C106_unknown_method.
Print Assumptions C106_significance.
Print Assumptions C106_boot_weights.
Print Assumptions C106_table.

(** ** C107: curves *)
Section C107.
  Context {T : Type} {NT : num T}.

  (** unusable weights, one row for each replicate *)
  Definition bad_weights (n : nat) (w : list (list T)) : Prop :=
    w = [] \/ Exists (fun r => length r <> n) w \/ Exists (Exists (fun v => nisfin v = false)) w \/ Exists (Exists (fun v => nltb n0 v = false)) w.

  Lemma ex_ex_false (f : T -> bool) w : Exists (Exists (fun v => f v = false)) w -> forallb (forallb f) w = false.
  Proof. intros H. apply any_false. eapply Exists_impl; [|exact H]. intros r. apply any_false. Qed.
  Lemma ex_ex_true (f : T -> bool) w : Exists (Exists (fun v => f v = true)) w -> existsb (existsb f) w = true.
  Proof. intros H. apply any_true. eapply Exists_impl; [|exact H]. intros r. apply any_true. Qed.
  Lemma ex_len {A} n (w : list (list A)) : Exists (fun r => length r <> n) w -> forallb (fun r => (length r =? n)%nat) w = false.
  Proof. intros H. apply any_false. eapply Exists_impl; [|exact H]. intros r L. cbn beta. now apply Nat.eqb_neq. Qed.

  Theorem C107_curves :
    forall (y : list bool) (score : list T) weights,
    length score <> length y \/ y = [] \/ Exists (fun v => nisfin v = false) score \/ (exists w, weights = Some w /\ bad_weights (length y) w) ->
    refused (roc_curve y score weights) /\ refused (recall_precision_curve y score weights) /\ refused (prg_curve y score weights).
  Proof.
    intros y s w H. assert (refused (_binary_clf_curve y s w)) as R.
    { unfold _binary_clf_curve. repeat step. apply Nat.eqb_eq in E. apply Nat.leb_le in E1.
      destruct H as [H|[->|[H|(W & -> & H)]]]; [congruence|cbn in E1; lia|apply any_false in H; congruence|]. cbv zeta.
      match goal with |- bind ?t _ = _ => assert (t = Err AssertionError) as -> end; [|reflexivity].
      assert (length (take y (rev (argsort_stable s))) = length y -> forall d ti, counts_weighted (take y (rev (argsort_stable s))) d ti W = Err AssertionError) as K.
      { intros L d ti. unfold counts_weighted. rewrite L. repeat step. exfalso. apply Nat.leb_le in E3.
        destruct H as [->|[H|[H|H]]]; [cbn in E3; lia|apply ex_len in H; congruence|apply ex_ex_false in H; congruence|apply ex_ex_false in H; congruence]. }
      apply K. apply take_length. rewrite <- E. apply desc_perm. }
    unfold refused, roc_curve, recall_precision_curve, prg_curve. rewrite R. auto.
  Qed.

  (** two neighbours in the wrong order *)
  Definition steps_back (x : list T) : Prop := exists l a b r, x = l ++ a :: b :: r /\ nleb n0 (nsub b a) = false.
  Lemma steps_back_diff x : steps_back x -> forallb (nleb n0) (diff x) = false.
  Proof.
    intros (l & a & b & r & -> & H). apply any_false. apply Exists_exists. exists (nsub b a). split; [|exact H].
    induction l as [|c l IH]; [now left|]. destruct l as [|d l]; right; exact IH.
  Qed.

  Theorem C107_area :
    forall ncol (curves : list (list T * list T)),
    let bad := (ncol < 2)%nat \/ Exists (fun c => length (fst c) <> length (snd c) \/ has_nan (fst c) \/ has_nan (snd c)) curves in
    (forall kd, bad -> refused (area ncol curves kd)) /\ (~ bad -> area ncol curves Next = Err NotImplementedError).
  Proof.
    intros ncol curves bad. unfold area. split.
    - intros kd H. repeat step. exfalso. apply Nat.leb_le in E. destruct H as [H|H]; [lia|]. apply Exists_exists in H as (c & I & H).
      rewrite forallb_forall in E1. specialize (E1 c I). apply Nat.eqb_eq in E1. destruct H as [H|[H|H]]; [congruence| |]; apply any_true in H.
      + apply (neg_flip _ E0). apply existsb_exists. eauto.
      + apply (neg_flip _ E2). apply existsb_exists. eauto.
    - intros N. assert (forall c, In c curves -> length (fst c) = length (snd c) /\ existsb nisnan (fst c) = false /\ existsb nisnan (snd c) = false) as G.
      { intros c I. assert (forall l : list T, (has_nan l -> False) -> existsb nisnan l = false) as K.
        { intros l Q. apply not_true_iff_false. intros E. apply Q. unfold has_nan. apply Exists_exists. now apply existsb_exists in E. }
        assert (forall P, P -> (P -> length (fst c) <> length (snd c) \/ has_nan (fst c) \/ has_nan (snd c)) -> False) as B.
        { intros P p Q. apply N. right. apply Exists_exists. exists c. auto. }
        split; [|split]; [|apply K; intros Q; eapply B; [exact Q|tauto]..].
        destruct (Nat.eq_dec (length (fst c)) (length (snd c))) as [|Q]; [assumption|]. exfalso. eapply B; [exact Q|tauto]. }
      replace (2 <=? ncol)%nat with true by (symmetry; apply Nat.leb_le; destruct (le_lt_dec 2 ncol) as [|Q]; [assumption|exfalso; apply N; now left]). cbn [py_assert bind].
      replace (existsb (fun c => existsb nisnan (fst c)) curves) with false by (symmetry; apply not_true_iff_false; intros E; apply existsb_exists in E as (c & I & E); destruct (G c I) as (_ & Q & _); congruence). cbn [negb py_assert bind].
      replace (forallb (fun c => (length (fst c) =? length (snd c))%nat) curves) with true by (symmetry; apply forallb_forall; intros c I; apply Nat.eqb_eq; now apply G). cbn [negb py_assert bind].
      replace (existsb (fun c => existsb nisnan (snd c)) curves) with false by (symmetry; apply not_true_iff_false; intros E; apply existsb_exists in E as (c & I & E); destruct (G c I) as (_ & _ & Q); congruence). reflexivity.
  Qed.

  Theorem C107_interp :
    forall (grid xp yp : list T) kd,
    (length xp <> length yp \/ (length xp < 2)%nat \/ steps_back xp -> refused (_interp1d grid xp yp kd)) /\ no_result (_interp1d grid xp yp Next).
  Proof.
    intros grid xp yp kd. split.
    - intros H. unfold _interp1d. repeat step. exfalso. apply Nat.eqb_eq in E. apply Nat.leb_le in E0. destruct H as [H|[H|H]]; [congruence|lia|apply steps_back_diff in H; congruence].
    - intros out H. unfold _interp1d in H. do 3 apply assert_ok in H as [_ H]. discriminate.
  Qed.

  (** a curve whose rows are unusable, or that does not span the grid *)
  Theorem C107_check :
    forall rows kd (th : list T) grid,
    (Exists (fun c => length (fst c) <> length (snd c) \/ (length (fst c) < 2)%nat \/ Exists (fun v => nisfin v = false) (fst c) \/
                      Exists (fun v => nltb v ninf = false) (snd c) \/ steps_back (fst c)) rows -> refused (check_curve ((rows, kd), th) grid)) /\
    (forall c x r g mid g', In c rows -> fst c = x :: r -> grid = Some (g :: mid ++ [g']) -> nleb x g = false \/ nleb g' (lastn (fst c)) = false ->
       refused (check_curve ((rows, kd), th) grid)) /\
    no_result (check_curve ((rows, kd), th) (Some [])).
  Proof.
    intros rows kd th grid. split; [|split].
    - intros H. cbn [check_curve]. repeat step. exfalso. apply Exists_exists in H as (c & I & H). rewrite forallb_forall in E, E0, E1, E2, E3.
      specialize (E c I). specialize (E0 c I). specialize (E1 c I). specialize (E2 c I). specialize (E3 c I). apply Nat.eqb_eq in E. apply Nat.leb_le in E0.
      destruct H as [H|[H|[H|[H|H]]]]; [congruence|lia|apply any_false in H; congruence|apply any_false in H; congruence|apply steps_back_diff in H; congruence].
    - intros c x r g mid g' I X -> H. cbn [check_curve]. repeat step.
      assert (py_index (g :: mid ++ [g']) 0 = Ok g) as -> by reflexivity.
      assert (py_index (g :: mid ++ [g']) (-1) = Ok g') as P.
      { unfold py_index. cbn [length]. rewrite app_length. cbn [length Z.ltb Z.compare]. replace (-1 + Z.of_nat (S (length mid + 1))) with (Z.of_nat (S (length mid))) by lia. destruct (Z.ltb_spec (Z.of_nat (S (length mid))) 0) as [Q|_]; [lia|]. rewrite Nat2Z.id. cbn [nth_error]. rewrite nth_error_app2 by lia. now rewrite Nat.sub_diag. }
      cbn [bind]. step. rewrite P. cbn [bind]. step. exfalso. rewrite forallb_forall in E4, E5. specialize (E4 c I). specialize (E5 c I). rewrite X in E4. cbn [hd] in E4. destruct H; congruence.
    - intros out H. cbn [check_curve] in H. do 5 apply assert_ok in H as [_ H]. discriminate.
  Qed.

  Lemma shape_err kd y (lp : list (list T)) ncol e : shape_and_validate kd y lp ncol = Err e -> e = AssertionError.
  Proof.
    unfold shape_and_validate. do 4 (match goal with |- bind (py_assert ?b) _ = _ -> _ => destruct b; cbn [py_assert bind]; [|intros H; now inversion H] end). intros H. inversion H.
  Qed.

  Theorem C107_boot :
    forall counts kd y (lp : list (list T)) ncol ref f grid n_boot pw c,
    lp = [] \/ ncol <> 2%nat \/ length y <> length lp \/ (kd <> Kb /\ kd <> Ki) \/ Exists (fun v => v <> 0 /\ v <> 1) y \/ Exists has_nan lp \/ n_boot < 1 \/
    (match ref with RefScalar r => nisnan r = true | RefPred m => length m <> length lp \/ Exists (fun r => length r <> ncol) m \/ Exists has_nan m end) ->
    refused (curve_boot counts kd y lp ncol ref f grid n_boot pw c).
  Proof.
    intros counts kd y lp ncol ref f grid n pw c H. unfold refused, curve_boot. destruct (shape_and_validate kd y lp ncol) as [[N L]|e] eqn:S; cbn [bind].
    - unfold shape_and_validate in S. apply assert_ok in S as [S1 S]. apply assert_ok in S as [S2 S]. apply assert_ok in S as [S3 S]. apply assert_ok in S as [S4 S]. apply Ok_inj, pair_equal_spec in S as [SN SL]. subst N L.
      apply Z.leb_le in S1. apply andb_true_iff in S3 as [S3 S5], S4 as [S4 S6]. apply Z.eqb_eq in S3.
      repeat step. exfalso. apply Z.eqb_eq in E. apply Z.leb_le in E2.
      destruct H as [->|[H|[H|[[H1 H2]|[H|[H|[H|H]]]]]]]; [cbn in S1; lia|lia|lia|destruct kd; cbn in S5; try discriminate; congruence| | |lia|].
      + apply Exists_exists in H as (v & I & H). rewrite forallb_forall in S4, S6. specialize (S4 v I). specialize (S6 v I). apply Z.leb_le in S4. apply Z.ltb_lt in S6. lia.
      + apply (neg_flip _ E3). apply ex_ex_true. exact H.
      + destruct ref as [r|m]; [apply (neg_flip _ E1 H)|]. apply andb_true_iff in E0 as [E0 E4]. apply Nat.eqb_eq in E0. destruct H as [H|[H|H]]; [congruence|apply ex_len in H; congruence|apply (neg_flip _ E1); apply ex_ex_true; exact H].
    - rewrite (shape_err kd y lp ncol e S). reflexivity.
  Qed.
End C107.

Theorem C107_loss_table :
  forall (T : Type) (NT : num T) normalize (tbl : pred_table T) kd y (metrics : dict (metric_fun T)) normalized,
  let n := length (pt_labels tbl) in
  (length y <> pt_len tbl \/ pt_len tbl = 0%nat \/ pt_labels tbl = [] \/ pt_methods tbl = [] -> refused (loss_table normalize tbl kd y metrics normalized)) /\
  (forall method cols rows, In (method, (cols, rows)) (pt_methods tbl) ->
     cols <> map Z.of_nat (seq 0 n) \/ length rows <> pt_len tbl \/ Exists (fun r => length r <> n) rows \/ Exists has_nan rows ->
     no_result (loss_table normalize tbl kd y metrics normalized)).
Proof.
  intros T NT normalize tbl kd y metrics nz n. split.
  - intros H. unfold loss_table. repeat step. exfalso. apply Nat.eqb_eq in E. apply andb_true_iff in E0 as [E0 E1]. apply andb_true_iff in E0 as [E0 E2]. apply Nat.leb_le in E0, E1, E2.
    destruct H as [H|[H|[H|H]]]; [congruence|lia|rewrite H in E2; cbn in E2; lia|rewrite H in E1; cbn in E1; lia].
  - intros method cols rows I H out Q. unfold loss_table in Q. apply assert_ok in Q as [_ Q]. apply assert_ok in Q as [_ Q]. apply bind_ok in Q as (c & Q & _). revert c Q. apply (mapM_no _ _ _ I).
    intros c Q. cbn [method_losses] in Q. apply assert_ok in Q as [A Q]. apply assert_ok in Q as [B Q]. apply assert_ok in Q as [C _]. apply andb_true_iff in B as [B D]. apply Nat.eqb_eq in B.
    destruct H as [H|[H|[H|H]]]; [|congruence|apply ex_len in H; unfold n in H; congruence|apply (neg_flip _ C); apply ex_ex_true; exact H].
    apply H. revert A. unfold range_Z. fold n. generalize (map Z.of_nat (seq 0 n)). clear. induction cols as [|a l IH]; intros [|b m]; cbn [listZ_eqb]; try discriminate; [reflexivity|]. intros A. apply andb_true_iff in A as [A B]. apply Z.eqb_eq in A. f_equal; auto.
Qed.

(** Not refused: finite positive weights whose sum overflows.  The check of the
    totals passes ([np.allclose] finds infinities close), the rates have NaN
    and only [area] and [check_curve] refuse the curve. *)
Theorem C107_overflow_refuted :
  exists (y : list bool) (score : list f64) w rows kd th,
  In true y /\ In false y /\ length score = length y /\ length w = length y /\ Forall (fun v => fisfin v = true /\ fltb f0 v = true) w /\ Forall (fun v => fisfin v = true) score /\
  roc_curve y score (Some [w]) = Ok ((rows, kd), th) /\ Exists (fun c => has_nan (fst c)) rows /\
  refused (area 2 rows kd) /\ refused (check_curve ((rows, kd), th) None).
Proof.
  set (w := [f_of_Z 1; f_of_Z (2 ^ 1023); f_of_Z (2 ^ 1023)]). set (s := [f_of_Z 1; f_of_Z 1; f_of_Z 1]).
  assert (match roc_curve [true; false; false] s (Some [w]) with Ok (c, _) => existsb (fun c => existsb fisnan (fst c)) (fst c) | Err _ => false end = true) as N by (vm_compute; reflexivity).
  destruct (roc_curve [true; false; false] s (Some [w])) as [[[rows kd] th]|e] eqn:R; [|discriminate N].
  exists [true; false; false], s, w, rows, kd, th.
  cbn [fst] in N.
  assert (Exists (fun c : list f64 * list f64 => has_nan (fst c)) rows) as H.
  { apply existsb_exists in N as (c & I & N). apply Exists_exists. exists c. split; [exact I|]. apply Exists_exists. now apply existsb_exists in N. }
  split; [now left|]. split; [right; now left|]. split; [reflexivity|]. split; [reflexivity|].
  split; [|split; [|split; [exact R|]]].
  { assert (forallb (fun v => fisfin v && fltb f0 v) w = true) as W by (vm_compute; reflexivity). apply Forall_forall. intros v I. rewrite forallb_forall in W. apply andb_true_iff. exact (W v I). }
  { assert (forallb fisfin s = true) as W by (vm_compute; reflexivity). apply Forall_forall. intros v I. rewrite forallb_forall in W. exact (W v I). }
  split; [exact H|]. split.
  - apply (C107_area 2 rows). right. eapply Exists_impl; [|exact H]. intros c. tauto.
  - apply C107_check. eapply Exists_impl; [|exact H]. intros c Q. right; right; left. eapply Exists_impl; [|exact Q]. intros v V. clear - V. destruct v; first [discriminate V|reflexivity].
Qed.
Print Assumptions C107_overflow_refuted.
Print Assumptions C107_curves.
Print Assumptions C107_area.
Print Assumptions C107_interp.
Print Assumptions C107_check.
Print Assumptions C107_boot.
Print Assumptions C107_loss_table.

(** ** C108: splitting, formatting and small helpers *)
Definition no_fraction (frac : f64) : Prop := fleb f0 frac = false \/ fleb frac f1 = false.
Lemma frac_bad frac : no_fraction frac -> frac_ok frac = false.
Proof. unfold frac_ok. intros [-> | ->]; [reflexivity|apply andb_false_r]. Qed.
Lemma frac_good frac : ~ no_fraction frac -> frac_ok frac = true.
Proof. unfold no_fraction, frac_ok. destruct (fleb f0 frac), (fleb frac f1); tauto. Qed.

Lemma lin_inf (S : list f64) v : existsb fisnan S = false -> In v S -> fisfin v = false ->
  forall s e, np_min S = Ok s -> np_max S = Ok e -> fisfin s && fisfin e = false.
Proof.
  intros N I F s e Hs He. destruct S as [|a l]; [contradiction|]. assert (forall w, In w (a :: l) -> fisnan w = false) as G.
  { intros w Iw. apply not_true_iff_false. intros E. assert (existsb fisnan (a :: l) = true) by (apply existsb_exists; eauto). congruence. }
  cbn [np_min np_max] in Hs, He. apply Ok_inj in Hs, He. subst s e.
  destruct (fold_fmin l a) as (Nm & _ & Mm); [apply G; now left|intros w Iw; apply G; now right|]. destruct (fold_fmax l a) as (NM & _ & MM); [apply G; now left|intros w Iw; apply G; now right|].
  specialize (Mm v I). specialize (MM v I). pose proof (G v I) as Nv. apply fleb_key in Mm; [|assumption..]. apply fleb_key in MM; [|assumption..].
  set (m := fold_left fmin l a) in *. set (M := fold_left fmax l a) in *. clearbody m M. clear - Mm MM F Nv Nm NM.
  destruct v as [sv|sv| |]; try discriminate. destruct sv.
  - destruct m as [| | |]; try discriminate; reflexivity.
  - destruct M as [| | |]; try discriminate; apply andb_false_r.
Qed.

Lemma last_any {A} (l : list A) a b : l <> [] -> last l a = last l b.
Proof. induction l as [|c [|d l] IH]; intros N; [congruence|reflexivity|]. apply IH. discriminate. Qed.

Theorem C108_linear :
  forall S frac srt uniq,
  (Exists (fun v => fisnan v = true) S \/ no_fraction frac -> refused (linear_split_series S frac srt uniq)) /\
  (~ no_fraction frac -> linear_split_series [] frac srt uniq = Err (if srt then IndexError else ValueError)) /\
  (Exists (fun v => fisfin v = false) S -> srt = false -> refused (linear_split_series S frac srt uniq)) /\
  (forall a, S <> [] -> fisfin (hd a S) = false \/ fisfin (last S a) = false -> refused (linear_split_series S frac true uniq)).
Proof.
  intros S frac srt uniq. unfold linear_split_series. split; [|split; [|split]].
  - intros H. repeat step. destruct H as [H|H]; [apply any_true in H; destruct (neg_flip _ E H)|apply frac_bad in H; congruence].
  - intros H. rewrite (frac_good _ H). cbn [existsb negb py_assert bind]. destruct srt; reflexivity.
  - intros H ->. repeat step. apply negb_true_iff in E. apply Exists_exists in H as (v & I & F). destruct S as [|a l]; [contradiction|].
    pose proof (lin_inf (a :: l) v E I F _ _ eq_refl eq_refl) as Q. cbn [np_min np_max bind]. rewrite Q. reflexivity.
  - intros a N H. repeat step. destruct S as [|b l]; [congruence|]. cbn [bind]. cbn [hd] in H. assert (last (b :: l) b = last (b :: l) a) as -> by (apply last_any; discriminate).
    assert (fisfin b && fisfin (last (b :: l) a) = false) as -> by (destruct H as [-> | ->]; [reflexivity|apply andb_false_r]). reflexivity.
Qed.

Lemma feature_eqb_spec a b : feature_eqb a b = true <-> a = b.
Proof. destruct a, b; cbn; rewrite ?pystr_eqb_spec; split; intros H; try congruence; now inversion H. Qed.
Lemma col_get_in {A} (cols : list (feature * list (option A))) f c : col_get cols f = Some c -> In (f, c) cols.
Proof.
  induction cols as [|[g d] cols IH]; cbn [col_get]; [discriminate|]. destruct (feature_eqb f g) eqn:E; [|right; auto]. apply feature_eqb_spec in E. intros H. injection H as ->. subst. now left.
Qed.

(** the splits of a frame: one that names no column or no known kind of split,
    that has nulls, or whose fraction is not between 0 and 1 *)
Theorem C108_split_df :
  forall A (eqb leb : A -> A -> bool) to_f (df : frame A) splits uniq srt rngs,
  let out := split_df eqb leb to_f df splits uniq srt rngs in
  (splits = [] \/ d_index df = [] \/ In None (map fst (d_cols df)) -> refused out) /\
  (forall f kind frac, In (f, (kind, frac)) splits ->
     (f <> None /\ ~ In f (map fst (d_cols df))) \/ ~ In kind [str "random"; str "ordered"; str "linear"] \/ no_fraction frac \/
     (f = None /\ In None (d_index df)) \/ (f <> None /\ forall col, In (f, col) (d_cols df) -> In None col) ->
     no_result out).
Proof.
  intros A eqb leb to_f df splits uniq srt rngs out. unfold out, split_df. split.
  - intros H. repeat step. exfalso. apply Z.ltb_lt in E, E0. destruct H as [->|[H|H]]; [unfold zlen in E; cbn in E; lia|unfold frame_len, zlen in E0; rewrite H in E0; cbn in E0; lia|].
    apply (neg_flip _ E1). apply existsb_exists. exists None. auto.
  - intros f kind frac I H out' Q. apply assert_ok in Q as [_ Q]. apply assert_ok in Q as [_ Q]. apply assert_ok in Q as [_ Q]. apply bind_ok in Q as (tt' & Q & _).
    revert Q. generalize (map (fun _ : option A => true) (d_index df)) at 1. generalize (map (fun _ : option A => true) (d_index df)). generalize O. revert tt'.
    induction splits as [|[g [k' fr]] rest IH]; [contradiction|]. intros out2 n te tr Q. cbn [split_loop] in Q. apply bind_ok in Q as (S & GS & Q). apply bind_ok in Q as (tc & RS & Q).
    destruct I as [I|I]; [|exact (IH I _ _ _ _ Q)]. apply pair_equal_spec in I as [-> I]. apply pair_equal_spec in I as [-> ->]. clear IH Q.
    assert (forall (z : list (option A)), In None z -> ~ (exists r, run_splitter eqb leb to_f kind z frac (existsb (feature_eqb f) srt) (existsb (feature_eqb f) uniq) (rngs n) = Ok r)) as NU.
    { intros z Iz (r & R). assert (existsb isnull z = true) as EN by (apply existsb_exists; exists None; auto). unfold run_splitter in R.
      destruct (pystr_eqb kind (str "random")); [unfold random_split_series in R; rewrite EN in R; discriminate|]. destruct (pystr_eqb kind (str "ordered")); [unfold ordered_split_series in R; rewrite EN in R; discriminate|].
      destruct (pystr_eqb kind (str "linear")); [|discriminate]. unfold linear_split_series in R. apply assert_ok in R as [R _]. apply (neg_flip _ R). apply existsb_exists. exists fnan. split; [|reflexivity]. apply in_map_iff. exists None. auto. }
    assert (forall c, col_get (d_cols df) f = Some c -> S = c -> In (f, c) (d_cols df)) as CG by (intros c Q _; now apply col_get_in).
    destruct H as [[H1 H2]|[H|[H|[[-> H]|[H1 H2]]]]].
    + destruct f as [f|]; [|congruence]. cbn [get_series] in GS. destruct (col_get (d_cols df) (Some f)) as [c|] eqn:G; [|discriminate]. apply H2. apply in_map_iff. exists (Some f, c). split; [reflexivity|now apply col_get_in].
    + unfold run_splitter in RS. assert (forall s, In s [str "random"; str "ordered"; str "linear"] -> pystr_eqb kind s = false) as K by (intros s Is; apply not_true_iff_false; intros E; apply pystr_eqb_spec in E; subst; contradiction).
      rewrite !K in RS by (cbn [In]; tauto). discriminate.
    + apply frac_bad in H. unfold run_splitter in RS. destruct (pystr_eqb kind (str "random")).
      { unfold random_split_series in RS. apply assert_ok in RS as [_ RS]. destruct (existsb (feature_eqb f) uniq).
        - unfold rand_mask, rand_subset in RS. rewrite H in RS. discriminate.
        - unfold rand_subset in RS. rewrite H in RS. discriminate. }
      destruct (pystr_eqb kind (str "ordered")); [unfold ordered_split_series in RS; apply assert_ok in RS as [_ RS]; rewrite H in RS; discriminate|].
      destruct (pystr_eqb kind (str "linear")); [|discriminate]. unfold linear_split_series in RS. apply assert_ok in RS as [_ RS]. rewrite H in RS. discriminate.
    + cbn [get_series] in GS. apply Ok_inj in GS. subst S. apply (NU _ H). eauto.
    + destruct f as [f|]; [|congruence]. cbn [get_series] in GS. destruct (col_get (d_cols df) (Some f)) as [c|] eqn:G; [|discriminate]. apply Ok_inj in GS. subst c. apply (NU S); [|eauto]. now apply H2, col_get_in.
Qed.

Theorem C108_formatting :
  (forall x dgs m, dgs < 1 -> refused (create_decimal x dgs m)) /\
  (forall ed pd dd lim t, pd < 1 -> refused (decimalize ed pd dd lim t)) /\
  (forall ed pd dd lim t metric rows, In (metric, rows) t -> rows <> [] -> ed < 1 -> no_result (decimalize ed pd dd lim t)) /\
  (forall xs md, xs = [] \/ md < 1 \/ Exists (fun x => d_is_finite x = false) xs -> refused (get_shift_range xs md)) /\
  (forall argsort ms es md, length ms <> length es \/ md < 1 \/ Exists (fun x => d_is_finite x = false) ms -> refused (find_shift argsort ms es md)) /\
  (forall argsort md pad cmax cmin nf t, t = [] \/ Exists (fun r => snd r = []) t -> refused (format_table argsort md pad cmax cmin nf t)).
Proof.
  split; [|split; [|split; [|split; [|split]]]].
  - intros x dgs m H. unfold create_decimal. step. step. apply Z.leb_le in E. lia.
  - intros ed pd dd lim t H. unfold decimalize. step. step. apply Z.leb_le in E. lia.
  - intros ed pd dd lim t metric rows I NE H out Q. unfold decimalize in Q. apply assert_ok in Q as [_ Q]. revert out Q. apply (mapM_no _ _ _ I). intros out Q. cbv zeta in Q. apply bind_ok in Q as (r & Q & _). destruct rows as [|[method cell] rows]; [congruence|].
    revert r Q. apply (mapM_no _ _ (method, cell)); [now left|]. intros r Q. apply bind_ok in Q as (c & Q & _). destruct cell as [[mf ef] pf]. cbn [decimalize_cell] in Q. unfold create_decimal in Q at 1. apply bind_ok in Q as (EB & Q & _). apply assert_ok in Q as [Q _]. apply Z.leb_le in Q. lia.
  - intros xs md H. unfold get_shift_range. repeat step. exfalso. apply Z.leb_le in E, E0. destruct H as [->|[H|H]]; [cbn in E; lia|lia|apply any_false in H; congruence].
  - intros argsort ms es md H. unfold find_shift. repeat step. exfalso. apply Nat.eqb_eq in E. apply Z.leb_le in E1. destruct H as [H|[H|H]]; [congruence|lia|apply any_false in H; congruence].
  - intros argsort md pad cmax cmin nf t H. unfold format_table. repeat step. exfalso. destruct H as [->|H]; [discriminate|]. apply Exists_exists in H as ([m r] & I & H). cbn [snd] in H. subst r. rewrite forallb_forall in E. specialize (E _ I). discriminate.
Qed.

Theorem C108_helpers :
  (forall m, refused (normalize 0 m)) /\
  (forall T (NT : num T) u x de me, Exists (fun v => nisfin v = false) x -> refused (@epsilon_noise T NT u x de me)) /\
  (forall T (NT : num T) A (xp : list T) (yp : option (list A)),
     has_nan xp \/ steps_back xp \/ (exists y, yp = Some y /\ length xp <> length y) -> refused (unique_take_last xp yp)).
Proof.
  split; [reflexivity|]. split.
  - intros T NT u x de me H. unfold epsilon_noise. step. step. apply any_false in H. congruence.
  - intros T NT A xp yp H. unfold unique_take_last. repeat step. exfalso. destruct H as [H|[H|(y & -> & H)]]; [apply any_true in H; exact (neg_flip _ E H)|apply steps_back_diff in H; congruence|apply Nat.eqb_eq in E0; congruence].
Qed.
Print Assumptions C108_linear.
Print Assumptions C108_split_df.
Print Assumptions C108_formatting.
Print Assumptions C108_helpers.

(** ** Two checks of computed values *)
Theorem C107_area_notnan :
  forall (T : Type) (NT : num T) ncol curves kd aucs, area ncol curves kd = Ok aucs -> Forall (fun v => nisnan v = false) aucs /\ length aucs = length curves.
Proof.
  intros T NT ncol curves kd aucs H. unfold area in H. do 4 apply assert_ok in H as [_ H]. apply bind_ok in H as (a & E & H). apply assert_ok in H as [N H]. apply Ok_inj in H. subst a. split.
  - apply Forall_forall. intros v I. apply not_true_iff_false. intros Q. rewrite (proj2 (existsb_exists nisnan aucs)) in N; [discriminate|eauto].
  - destruct kd; try discriminate; apply Ok_inj in E; subst aucs; apply map_length.
Qed.
(** the noise needs a positive width: [max_epsilon], and for a constant vector
    [default_epsilon] *)
Theorem C108_noise_width :
  forall (u x : list f64) de me, fleb me f0 = true \/ fisnan me = true \/ (length x <= 1)%nat /\ fleb de f0 = true -> epsilon_noise u x de me = Err AssertionError.
Proof.
  intros u x de me H. unfold epsilon_noise. destruct (forallb nisfin x); [|reflexivity]. cbn [py_assert bind].
  match goal with |- bind (py_assert (nltb n0 (nmin me ?d) && _)) _ = _ => set (dl := d) end.
  assert (fleb me f0 = true \/ fisnan me = true \/ fleb dl f0 = true) as K.
  { destruct H as [H|[H|(L & H)]]; [now left|right; now left|right; right]. unfold dl. destruct x as [|a [|b x]]; [exact H|exact H|cbn [length] in L; lia]. }
  clearbody dl. assert (nltb n0 (nmin me dl) = false) as ->; [|reflexivity].
  apply not_true_iff_false. unfold nmin. change (fltb f0 (if fleb me dl || fisnan me then me else dl) = true -> False). intros P. destruct (fltb_notnan _ _ P) as [_ N].
  assert (forall v, fltb f0 v = true -> fleb v f0 = true -> False) as X.
  { intros v A B. destruct (fltb_notnan _ _ A) as [Z V]. apply fltb_key in A; [|assumption..]. apply fleb_key in B; [|assumption..]. lra. }
  destruct (fisnan me) eqn:M; [rewrite orb_true_r in N; congruence|]. rewrite orb_false_r in P, N. destruct (fleb me dl) eqn:D.
  - destruct K as [K|[K|K]]; [exact (X _ P K)|discriminate|]. destruct (fleb_notnan _ _ D) as [_ ND], (fleb_notnan _ _ K) as [_ NZ]. apply (X _ P). apply fleb_key in D; [|assumption..]. apply fleb_key in K; [|assumption..]. apply fleb_key; [assumption..|]. lra.
  - destruct K as [K|[K|K]]; [|discriminate|exact (X _ P K)]. destruct (fleb_notnan _ _ K) as [_ NZ]. apply fltb_key in P; [|assumption..]. apply fleb_key in K; [|assumption..]. assert (fleb me dl = true); [|congruence]. apply fleb_key; [assumption..|]. lra.
Qed.
Print Assumptions C107_area_notnan.
Print Assumptions C108_noise_width.

(** Whatever the mathematical library computes (even nonsense), what is
    returned is a probability and an error bar that is not negative. *)
Theorem C106_returned :
  forall (FX : fn f64) (x : list f64),
  let prob p := fleb f0 p = true /\ fleb p (f_of_Z 1) = true in
  let bar e := fleb f0 e = true in
  (forall p, t_test x = Ok p -> prob p) /\ (forall lower upper p, bernstein_test x lower upper = Ok p -> prob p) /\
  (forall counts n p, boot_test counts x n = Ok p -> prob p) /\
  (forall c e, t_EB x c = Ok e -> bar e) /\ (forall lower upper c e, bernstein_EB x lower upper c = Ok e -> bar e) /\
  (forall counts c n e, boot_EB counts x c n = Ok e -> bar e).
Proof.
  intros FX x prob bar.
  assert (forall p, n1 = p -> prob p) as P1 by (intros p <-; split; vm_compute; reflexivity).
  assert (forall p, nleb n0 p && nleb p n1 = true -> prob p) as PA by (intros p H; apply andb_true_iff in H; exact H).
  split; [|split; [|split; [|split; [|split]]]].
  - intros p H. unfold t_test in H. apply assert_ok in H as [_ H]. destruct (degenerate x); [apply Ok_inj in H; auto|]. apply bind_ok in H as (q & _ & H). apply assert_ok in H as [A H]. apply Ok_inj in H. subst q. auto.
  - intros lo up p H. unfold bernstein_test in H. do 3 apply assert_ok in H as [_ H]. destruct (degenerate x); [apply Ok_inj in H; auto|]. destruct (_ || _) in H; [apply Ok_inj in H; auto|]. apply assert_ok in H as [_ H]. destruct (np_roots _ _ _) as [r|]; [|discriminate]. do 3 apply assert_ok in H as [_ H]. apply assert_ok in H as [A H]. apply Ok_inj in H. rewrite H in A. auto.
  - intros counts n p H. unfold boot_test in H. apply bind_ok in H as (q & _ & H). apply assert_ok in H as [A H]. apply Ok_inj in H. subst p. auto.
  - intros c e H. unfold t_EB in H. do 2 apply assert_ok in H as [_ H]. destruct (degenerate x); [apply Ok_inj in H; subst e; reflexivity|]. apply assert_ok in H as [_ H]. apply assert_ok in H as [A H]. apply Ok_inj in H. rewrite H in A. exact A.
  - intros lo up c e H. unfold bernstein_EB in H. apply assert_ok in H as [_ H]. apply assert_ok in H as [R H]. do 2 apply assert_ok in H as [_ H]. destruct (degenerate x); [apply Ok_inj in H; subst e; exact R|]. apply assert_ok in H as [A H]. apply Ok_inj in H. rewrite H in A. exact A.
  - intros counts c n e H. unfold boot_EB in H. apply bind_ok in H as (q & _ & H). apply assert_ok in H as [A H]. apply Ok_inj in H. subst e. exact A.
Qed.
Print Assumptions C106_returned.

(** ** C78: [np.isclose] beyond the finite numbers *)
Theorem C78_isclose_infinite :
  forall a : f64,
  isclose finf finf = true /\ isclose fninf fninf = true /\ isclose finf fninf = false /\ isclose fninf finf = false /\
  isclose fnan a = false /\ isclose a fnan = false /\
  (fisfin a = true -> isclose a finf = false /\ isclose a fninf = false /\ isclose finf a = false /\ isclose fninf a = false).
Proof.
  intros a. do 4 (split; [reflexivity|]). split; [reflexivity|]. split; [destruct a as [s|[]| |s m e p]; reflexivity|].
  destruct a as [s|s| |s m e p]; try discriminate; intros _; repeat split; try reflexivity; now destruct s.
Qed.
Print Assumptions C78_isclose_infinite.

(** ** Examples: inputs that meet the hypotheses *)
Definition seven : f64 := f_of_Z 7.
Example C106_example : forall FX : fn f64,
  @has_nan f64 _ [seven; fnan] /\ @outside f64 _ f0 f1 [seven] /\ @no_confidence f64 _ f1 /\
  (forall c, @refused f64 (@t_EB f64 _ FX [seven; fnan] c)) /\
  @refused f64 (significance [seven; fnan] (Scalar f0)) /\ @refused (list (list f64)) (boot_weights [] 0 5 f0).
Proof.
  intros FX. split; [right; left; reflexivity|]. split; [left; right; vm_compute; reflexivity|]. split; [right; vm_compute; reflexivity|].
  split; [intros c; reflexivity|]. split; vm_compute; reflexivity.
Qed.
Example C107_example :
  refused (@roc_curve f64 _ [true; false] [seven] None) /\ @bad_weights f64 _ 2 [[f1; f0]] /\ @steps_back f64 _ [f1; f0] /\
  area 2 [([f0; f1], [f0; f1])] Next = Err NotImplementedError /\ no_result (@check_curve f64 _ ([], Linear, []) (Some [])).
Proof.
  split; [vm_compute; reflexivity|]. split; [right; right; right; left; right; left; vm_compute; reflexivity|].
  split; [exists [], f1, f0, []; split; [reflexivity|vm_compute; reflexivity]|]. split; [vm_compute; reflexivity|]. intros a. vm_compute. discriminate.
Qed.
Example C108_example :
  no_fraction seven /\ refused (linear_split_series [f0; finf] f1 false false) /\ linear_split_series [] f1 true false = Err IndexError /\
  refused (split_df Z.eqb Z.leb f_of_Z (Frame [Some 1] [(None, [Some 2])]) [(None, (str "linear", f1))] [] [] (fun _ _ => [])) /\
  split_df Z.eqb Z.leb f_of_Z (Frame [Some 1] []) [(None, (str "Linear", f1))] [] [] (fun _ _ => []) = Err KeyError.
Proof. split; [right; vm_compute; reflexivity|]. repeat split; vm_compute; reflexivity. Qed.

