(** split_df and build_lag_df. *)
From Coq Require Import Reals Lra Permutation Sorted.
From Verif Require Import PyBase F64 F64Lemmas DataSplitter SplitProofs SplitProofs2.
Open Scope Z_scope.
Open Scope list_scope.

(** Positions of a mask, in increasing order. *)
Definition where_ (p : nat -> bool) (n : nat) : list nat := filter p (seq 0 n).

Lemma where_S p n : where_ p (S n) = (if p O then [O] else []) ++ map S (where_ (fun i => p (S i)) n).
Proof.
  unfold where_. cbn [seq filter]. rewrite <- seq_shift.
  assert (forall l, filter p (map S l) = map S (filter (fun i => p (S i)) l)) as H.
  { induction l as [|a l IH]; [reflexivity|]. cbn. destruct (p (S a)); cbn; now rewrite IH. }
  rewrite H. destruct (p O); reflexivity.
Qed.

Lemma pick_S {T} (a : T) l is : pick (a :: l) (map S is) = pick l is.
Proof. induction is as [|i is IH]; [reflexivity|]. unfold pick in *. cbn [map flat_map nth_error]. now rewrite IH. Qed.

Lemma select_pick {T} mask : forall (l : list T), List.length mask = List.length l ->
  select mask l = pick l (where_ (fun i => nth i mask false) (List.length l)).
Proof.
  induction mask as [|b mask IH]; intros [|a l] H; try discriminate; [reflexivity|].
  cbn [List.length]. rewrite where_S. cbn [nth]. unfold pick. rewrite flat_map_app.
  change (flat_map ?f (map S ?w)) with (pick (a :: l) (map S w)).
  injection H as H. destruct b; cbn [select]; rewrite IH by auto; rewrite <- (pick_S a l); reflexivity.
Qed.

Lemma nth_map_lt {X Y} (f : X -> Y) l : forall i d d', (i < List.length l)%nat ->
  nth i (map f l) d' = f (nth i l d).
Proof. intros. rewrite (nth_indep _ d' (f d)) by (now rewrite map_length). apply map_nth. Qed.

Lemma band_length a b : List.length a = List.length b -> List.length (band a b) = List.length a.
Proof. intros. unfold band. rewrite map_length, combine_length. lia. Qed.
Lemma bor_length a b : List.length a = List.length b -> List.length (bor a b) = List.length a.
Proof. intros. unfold bor. rewrite map_length, combine_length. lia. Qed.
Lemma bnot_length a : List.length (bnot a) = List.length a.
Proof. apply map_length. Qed.

Lemma band_nth a : forall b i, List.length a = List.length b -> nth i (band a b) false = nth i a false && nth i b false.
Proof.
  induction a as [|x a IH]; intros [|y b] i H; try discriminate; [destruct i; reflexivity|].
  destruct i; [reflexivity|]. injection H as H. apply (IH b i H).
Qed.
Lemma bor_nth a : forall b i, List.length a = List.length b -> nth i (bor a b) false = nth i a false || nth i b false.
Proof.
  induction a as [|x a IH]; intros [|y b] i H; try discriminate; [destruct i; reflexivity|].
  destruct i; [reflexivity|]. injection H as H. apply (IH b i H).
Qed.
Lemma bnot_nth a i : (i < List.length a)%nat -> nth i (bnot a) false = negb (nth i a false).
Proof. apply nth_map_lt. Qed.

Section SplitDf.
  Context {A : Type} (eqb leb : A -> A -> bool) (to_f : A -> f64).

  Lemma random_split_length S frac srt uniq rng m :
    random_split_series eqb S frac srt uniq rng = Ok m -> List.length m = List.length S.
  Proof.
    unfold random_split_series. destruct (existsb isnull S) eqn:HN; [discriminate|].
    cbn [negb py_assert bind]. destruct uniq.
    - unfold rand_mask. destruct (rand_subset _ _ _); [|discriminate]. cbn [bind].
      destruct (py_assert _); [|discriminate]. cbn [bind]. destruct (py_assert _); [|discriminate]. cbn [bind].
      intros H. apply Ok_inj in H. subst. rewrite map_length, seq_length. reflexivity.
    - destruct (rand_subset _ _ _); [|discriminate]. cbn [bind]. intros H. apply Ok_inj in H. subst.
      rewrite map_length. now apply values_length.
  Qed.

  Lemma ordered_split_length S frac srt uniq m :
    ordered_split_series eqb leb S frac srt uniq = Ok m -> List.length m = List.length S.
  Proof.
    unfold ordered_split_series. destruct (existsb isnull S) eqn:HN; [discriminate|].
    cbn [negb py_assert bind]. destruct (frac_ok frac); [|discriminate]. cbn [py_assert bind].
    destruct (0 <=? _); [|discriminate]. cbn [py_assert bind].
    destruct (nth_error _ _); [|discriminate].
    destruct (py_assert _); [|discriminate]. cbn [bind]. destruct (py_assert _); [|discriminate]. cbn [bind].
    intros H. apply Ok_inj in H. subst. rewrite map_length. now apply values_length.
  Qed.

  Lemma linear_split_length S frac srt uniq m :
    linear_split_series S frac srt uniq = Ok m -> List.length m = List.length S.
  Proof.
    unfold linear_split_series. destruct (py_assert _); [|discriminate]. cbn [bind].
    destruct (py_assert _); [|discriminate]. cbn [bind].
    match goal with |- bind ?x _ = _ -> _ => destruct x as [[s e]|] end; [|discriminate]. cbn [bind].
    destruct (py_assert _); [|discriminate]. cbn [bind].
    destruct (py_assert _); [|discriminate]. cbn [bind].
    intros H. apply Ok_inj in H. subst. apply map_length.
  Qed.

  Lemma run_splitter_length name S frac srt uniq rng m :
    run_splitter eqb leb to_f name S frac srt uniq rng = Ok m -> List.length m = List.length S.
  Proof.
    unfold run_splitter.
    destruct (pystr_eqb name (str "random")); [apply random_split_length|].
    destruct (pystr_eqb name (str "ordered")); [apply ordered_split_length|].
    destruct (pystr_eqb name (str "linear")); [|discriminate].
    intros H. apply linear_split_length in H. now rewrite map_length in H.
  Qed.

  Definition wf (df : frame A) : Prop :=
    Forall (fun c => List.length (snd c) = List.length (d_index df)) (d_cols df).

  Lemma get_series_length df f S : wf df -> get_series df f = Ok S -> List.length S = List.length (d_index df).
  Proof.
    intros W. unfold get_series. destruct f.
    - unfold wf in W. induction (d_cols df) as [|[g c] cols IH]; cbn [col_get]; [discriminate|].
      inversion W; subst. destruct (feature_eqb (Some p) g).
      + intros H. apply Ok_inj in H. now subst.
      + now apply IH.
    - intros H. apply Ok_inj in H. now subst.
  Qed.

  (** [split_mask df au asrt rngs k sp m]: splitting [sp] at iteration [k] gives mask [m]. *)
  Definition split_mask df au asrt (rngs : nat -> nat -> list nat) (k : nat)
      (sp : feature * split_how) (m : list bool) : Prop :=
    exists S, get_series df (fst sp) = Ok S /\
      run_splitter eqb leb to_f (fst (snd sp)) S (snd (snd sp))
        (existsb (feature_eqb (fst sp)) asrt) (existsb (feature_eqb (fst sp)) au) (rngs k) = Ok m.

  Fixpoint split_masks df au asrt rngs (k : nat) (splits : list (feature * split_how))
      (ms : list (list bool)) : Prop :=
    match splits, ms with
    | [], [] => True
    | sp :: splits', m :: ms' => split_mask df au asrt rngs k sp m /\ split_masks df au asrt rngs (S k) splits' ms'
    | _, _ => False
    end.

  Lemma split_masks_length df au asrt rngs : wf df -> forall splits k ms,
    split_masks df au asrt rngs k splits ms -> Forall (fun m => List.length m = List.length (d_index df)) ms.
  Proof.
    intros W. induction splits as [|sp splits IH]; intros k [|m ms] H; cbn in H; try contradiction; constructor.
    - destruct H as [(S & G & R) _]. apply run_splitter_length in R. rewrite R. eapply get_series_length; eauto.
    - eapply IH. apply H.
  Qed.

  Definition loop_train (ms : list (list bool)) t0 := fold_left band ms t0.
  Definition loop_test (ms : list (list bool)) t0 := fold_left (fun t m => band t (bnot m)) ms t0.

  Lemma split_loop_ok df au asrt rngs splits : forall k ms t u,
    split_masks df au asrt rngs k splits ms ->
    split_loop eqb leb to_f df splits au asrt rngs k t u = Ok (loop_train ms t, loop_test ms u).
  Proof.
    induction splits as [|[f [ty fr]] splits IH]; intros k [|m ms] t u H; cbn in H; try contradiction; [reflexivity|].
    destruct H as [(S & G & R) H]. cbn [fst snd] in G, R. cbn [split_loop]. rewrite G. cbn [bind]. rewrite R. cbn [bind].
    rewrite (IH (Datatypes.S k) ms) by auto. reflexivity.
  Qed.

  Lemma split_loop_inv df au asrt rngs splits : forall k t u r,
    split_loop eqb leb to_f df splits au asrt rngs k t u = Ok r ->
    exists ms, split_masks df au asrt rngs k splits ms.
  Proof.
    induction splits as [|[f [ty fr]] splits IH]; intros k t u r H.
    - exists []. exact I.
    - cbn [split_loop] in H. destruct (get_series df f) as [S|] eqn:G; [|discriminate]. cbn [bind] in H.
      match type of H with bind ?x _ = _ => destruct x as [m|] eqn:R end; [|discriminate]. cbn [bind] in H.
      apply IH in H as [ms H]. exists (m :: ms). split; auto. exists S. auto.
  Qed.

  Lemma loop_train_spec n ms : forall t, Forall (fun m => List.length m = n) ms -> List.length t = n ->
    List.length (loop_train ms t) = n /\
    forall i, nth i (loop_train ms t) false = nth i t false && forallb (fun m => nth i m false) ms.
  Proof.
    induction ms as [|m ms IH]; intros t F L; cbn.
    - split; auto. intros. now rewrite andb_true_r.
    - inversion F as [|? ? Hm F']; subst. destruct (IH (band t m)) as [H1 H2]; auto.
      { rewrite band_length; congruence. }
      split; auto. intros i. rewrite H2, band_nth by congruence. now rewrite andb_assoc.
  Qed.

  Lemma loop_test_spec n ms : forall t, Forall (fun m => List.length m = n) ms -> List.length t = n ->
    List.length (loop_test ms t) = n /\
    forall i, (i < n)%nat -> nth i (loop_test ms t) false = nth i t false && forallb (fun m => negb (nth i m false)) ms.
  Proof.
    induction ms as [|m ms IH]; intros t F L; cbn.
    - split; auto. intros. now rewrite andb_true_r.
    - inversion F as [|? ? Hm F']; subst. destruct (IH (band t (bnot m))) as [H1 H2]; auto.
      { rewrite band_length; rewrite ?bnot_length; congruence. }
      split; auto. intros i Hi. rewrite H2 by auto. rewrite band_nth by (rewrite bnot_length; congruence).
      rewrite bnot_nth by congruence. now rewrite andb_assoc.
  Qed.

  Definition sub_frame (df : frame A) (is : list nat) : frame A :=
    Frame (pick (d_index df) is) (map (fun c => (fst c, pick (snd c) is)) (d_cols df)).

  Lemma frame_select_sub df mask p : wf df -> List.length mask = List.length (d_index df) ->
    (forall i, (i < List.length (d_index df))%nat -> nth i mask false = p i) ->
    frame_select mask df = sub_frame df (where_ p (List.length (d_index df))).
  Proof.
    intros W L H.
    assert (where_ (fun i => nth i mask false) (List.length (d_index df)) = where_ p (List.length (d_index df))) as EW.
    { unfold where_. apply filter_ext_in. intros i I. apply in_seq in I. apply H. lia. }
    unfold frame_select, sub_frame. f_equal.
    - rewrite select_pick by auto. now rewrite EW.
    - apply map_ext_in. intros c I. f_equal. unfold wf in W. rewrite Forall_forall in W. specialize (W c I).
      rewrite select_pick by congruence. now rewrite W, EW.
  Qed.

  Lemma pick_where_len {T} (l : list T) p : zlen (pick l (where_ p (List.length l))) = zlen (where_ p (List.length l)).
  Proof.
    unfold zlen. rewrite pick_length; auto. intros i I. apply filter_In in I as [I _]. apply in_seq in I. lia.
  Qed.

  Lemma where_partition p q n : (forall i, (i < n)%nat -> p i && q i = false) ->
    zlen (where_ p n) + zlen (where_ q n) + zlen (where_ (fun i => negb (p i || q i)) n) = Z.of_nat n.
  Proof.
    intros H. assert (forall l, (forall i, In i l -> p i && q i = false) ->
      zlen (filter p l) + zlen (filter q l) + zlen (filter (fun i => negb (p i || q i)) l) = zlen l) as G.
    { induction l as [|a l IH]; intros Hl; [reflexivity|].
      specialize (IH (fun i I => Hl i (or_intror I))). specialize (Hl a (or_introl eq_refl)).
      cbn [filter]. destruct (p a), (q a); try discriminate; cbn [orb negb]; unfold zlen in *; cbn [List.length]; lia. }
    unfold where_. rewrite G.
    - unfold zlen. now rewrite seq_length.
    - intros i I. apply in_seq in I. apply H. lia.
  Qed.

  Definition all_in (ms : list (list bool)) (i : nat) : bool := forallb (fun m => nth i m false) ms.
  Definition all_out (ms : list (list bool)) (i : nat) : bool := forallb (fun m => negb (nth i m false)) ms.

  Lemma split_df_spec df splits au asrt rngs ms :
    wf df -> d_index df <> [] -> splits <> [] -> ~ In None (map fst (d_cols df)) ->
    split_masks df au asrt rngs 0 splits ms ->
    let n := List.length (d_index df) in
    split_df eqb leb to_f df splits au asrt rngs =
      Ok (sub_frame df (where_ (all_in ms) n), sub_frame df (where_ (all_out ms) n),
          sub_frame df (where_ (fun i => negb (all_in ms i || all_out ms i)) n)).
  Proof.
    intros W HD HS HC HM n.
    assert (ms <> []) as HMs by (destruct splits, ms; cbn in HM; try contradiction; discriminate).
    pose proof (split_masks_length df au asrt rngs W _ _ _ HM) as FL. fold n in FL.
    set (ones := map (fun _ : option A => true) (d_index df)).
    assert (List.length ones = n) as LO by apply map_length.
    assert (forall i, (i < n)%nat -> nth i ones false = true) as NO.
    { intros i Hi. unfold ones. rewrite (nth_map_lt _ _ i None); auto. }
    destruct (loop_train_spec n ms ones FL LO) as [LT NT].
    destruct (loop_test_spec n ms ones FL LO) as [LU NU].
    assert (forall i, (i < n)%nat -> nth i (loop_train ms ones) false = all_in ms i) as NT'.
    { intros i Hi. rewrite NT, NO by auto. reflexivity. }
    assert (forall i, (i < n)%nat -> nth i (loop_test ms ones) false = all_out ms i) as NU'.
    { intros i Hi. rewrite NU, NO by auto. reflexivity. }
    assert (forall i, all_in ms i && all_out ms i = false) as DJ.
    { intros i. destruct ms as [|m ms']; [contradiction|]. unfold all_in, all_out. cbn.
      destruct (nth i m false); cbn; auto. apply andb_false_r. }
    unfold split_df.
    replace (0 <? zlen splits) with true by (destruct splits; [contradiction|reflexivity]).
    replace (0 <? frame_len df) with true by (unfold frame_len; destruct (d_index df); [contradiction|reflexivity]).
    replace (existsb (feature_eqb None) (map fst (d_cols df))) with false.
    2: { symmetry. destruct (existsb (feature_eqb None) (map fst (d_cols df))) eqn:E; auto. exfalso.
         apply HC. apply existsb_exists in E as (x & I & E). destruct x; [discriminate|auto]. }
    cbn [negb py_assert bind]. fold ones. rewrite (split_loop_ok _ _ _ _ _ _ ms) by auto. cbn [bind].
    replace (existsb (fun b : bool => b) (band (loop_train ms ones) (loop_test ms ones))) with false.
    2: { symmetry. destruct (existsb _ _) eqn:E; auto. apply existsb_exists in E as (b & I & ->).
         apply (In_nth _ _ false) in I as (i & Hi & E). rewrite band_length in Hi by congruence.
         rewrite band_nth in E by congruence. rewrite NT', NU', DJ in E by congruence. discriminate. }
    cbn [negb py_assert bind].
    rewrite (frame_select_sub df _ (all_in ms)) by auto. rewrite (frame_select_sub df _ (all_out ms)) by auto.
    rewrite (frame_select_sub df _ (fun i => negb (all_in ms i || all_out ms i))); auto.
    2: { fold n. rewrite bnot_length, bor_length; congruence. }
    2: { intros i Hi. fold n in Hi. rewrite bnot_nth by (rewrite bor_length; congruence). rewrite bor_nth by congruence.
         now rewrite NT', NU'. }
    fold n. unfold frame_len. cbn [d_index sub_frame]. fold n. unfold n. rewrite !pick_where_len.
    rewrite where_partition by auto. unfold zlen. rewrite Z.eqb_refl. reflexivity.
  Qed.

  Lemma split_df_inv df splits au asrt rngs r :
    split_df eqb leb to_f df splits au asrt rngs = Ok r ->
    d_index df <> [] /\ splits <> [] /\ ~ In None (map fst (d_cols df)) /\
    exists ms, split_masks df au asrt rngs 0 splits ms.
  Proof.
    unfold split_df. destruct splits as [|sp splits]; [discriminate|].
    destruct (0 <? zlen (sp :: splits)); [|discriminate]. cbn [py_assert bind].
    unfold frame_len. destruct (d_index df) as [|a idx] eqn:EI; [discriminate|].
    destruct (0 <? zlen (a :: idx)); [|discriminate]. cbn [py_assert bind].
    destruct (existsb (feature_eqb None) (map fst (d_cols df))) eqn:EC; [discriminate|]. cbn [negb py_assert bind].
    match goal with |- bind ?x _ = _ -> _ => destruct x as [[tr te]|] eqn:EL end; [|discriminate].
    intros _. split; [discriminate|]. split; [discriminate|]. split.
    - intros I. assert (existsb (feature_eqb None) (map fst (d_cols df)) = true); [|congruence].
      apply existsb_exists. exists None. auto.
    - eapply split_loop_inv; eauto.
  Qed.
End SplitDf.

(** ** shift *)

Lemma nth_error_repeat_None {A} k i : nth_error (repeat (@None A) k) i = if (i <? k)%nat then Some None else None.
Proof.
  revert i. induction k; intros [|i]; try reflexivity. cbn. rewrite IHk. reflexivity.
Qed.

Lemma shift_length {A} k (c : list (option A)) : List.length (shift k c) = List.length c.
Proof.
  unfold shift, zlen. destruct (0 <=? k) eqn:E.
  - apply Z.leb_le in E. rewrite app_length, repeat_length, firstn_length. lia.
  - apply Z.leb_gt in E. rewrite app_length, repeat_length, skipn_length. lia.
Qed.

Lemma nth_error_skipn_ {T} (l : list T) : forall k i, nth_error (skipn k l) i = nth_error l (k + i).
Proof. induction l as [|a l IH]; intros [|k] i; cbn; auto. destruct i; reflexivity. Qed.
Lemma nth_error_firstn_ {T} (l : list T) : forall k i, (i < k)%nat -> nth_error (firstn k l) i = nth_error l i.
Proof. induction l as [|a l IH]; intros [|k] [|i] H; cbn; auto; try lia. apply IH. lia. Qed.

Lemma shift_nth {A} k (c : list (option A)) i : (i < List.length c)%nat ->
  nth_error (shift k c) i =
  if (0 <=? Z.of_nat i - k) && (Z.of_nat i - k <? zlen c)
  then nth_error c (Z.to_nat (Z.of_nat i - k)) else Some None.
Proof.
  intros Hi. unfold shift, zlen. destruct (0 <=? k) eqn:E.
  - apply Z.leb_le in E. set (n := List.length c) in *.
    destruct (Z.ltb_spec (Z.of_nat i) k).
    + replace (0 <=? Z.of_nat i - k) with false by (symmetry; apply Z.leb_gt; lia). cbn [andb].
      rewrite nth_error_app1 by (rewrite repeat_length; lia). rewrite nth_error_repeat_None.
      replace (i <? Z.to_nat (Z.min k (Z.of_nat n)))%nat with true; auto. symmetry. apply Nat.ltb_lt. lia.
    + replace (0 <=? Z.of_nat i - k) with true by (symmetry; apply Z.leb_le; lia).
      replace (Z.of_nat i - k <? Z.of_nat n) with true by (symmetry; apply Z.ltb_lt; lia). cbn [andb].
      rewrite nth_error_app2 by (rewrite repeat_length; lia). rewrite repeat_length.
      rewrite nth_error_firstn_ by lia. f_equal. lia.
  - apply Z.leb_gt in E. set (n := List.length c) in *.
    replace (0 <=? Z.of_nat i - k) with true by (symmetry; apply Z.leb_le; lia). cbn [andb].
    destruct (Z.ltb_spec (Z.of_nat i - k) (Z.of_nat n)).
    + rewrite nth_error_app1 by (rewrite skipn_length; fold n; lia). rewrite nth_error_skipn_. f_equal. lia.
    + rewrite nth_error_app2 by (rewrite skipn_length; fold n; lia). rewrite nth_error_repeat_None.
      rewrite skipn_length. fold n.
      match goal with |- (if ?b then _ else _) = _ => replace b with true end; auto.
      symmetry. apply Nat.ltb_lt. lia.
Qed.
