(** Property theorems C36-C44 about boot_util.py.  Model: BootUtil.v.
    Theorems about [f64] hold for IEEE doubles with every rounding; theorems
    about [xr] are about exact arithmetic with infinities and NaN. *)
From Coq Require Import Reals Lra Permutation Sorted.
From Flocq Require Import Core BinarySingleNaN.
From Verif Require Import PyBase F64 F64Lemmas Num NumOk Util UtilProofs ListLemmas UtilProofs2 BootUtil
  BootProofs BootProofs2 BootProofs3 BootProofs4 BootProofs5.
Open Scope Z_scope.
Open Scope list_scope.

(** ** Vocabulary *)
Definition notnan (l : list f64) : Prop := Forall (fun x => fisnan x = false) l.
Definition finite (l : list f64) : Prop := Forall (fun x => fisfin x = true) l.
(** 0 < c < 1 *)
Definition confidence (c : f64) : Prop := fltb f0 c = true /\ fltb c (f_of_Z 1) = true.
(** at least one replicate and fewer than 2^53 (numpy cannot hold more) *)
Definition sized {A} (b : list A) : Prop := b <> [] /\ Z.of_nat (length b) <= 2 ^ 53.

Lemma sized_len {A} (b : list A) : sized b -> 1 <= Z.of_nat (length b) <= 2 ^ 53.
Proof. intros [N L]. destruct b; [congruence|]. cbn [length] in *. lia. Qed.
Lemma conf_in01 c : confidence c -> in01 c = true.
Proof. intros [A B]. unfold in01. apply andb_true_iff. split; [exact A|exact B]. Qed.

(** ** C36 *)

(** For any multinomial outcome the weighted mean is the mean of the resampled
    data set, which has the size of the original one. *)
Theorem C36_weights_resample :
  forall N n_boot counts W (x : list R),
  multinomial_outcome N n_boot counts ->
  boot_weights counts N n_boot (Fin 0) = Ok W ->
  Z.of_nat (length x) = N ->
  length W = length counts /\
  forall i w k, nth_error W i = Some w -> nth_error counts i = Some k ->
    Z.of_nat (length (resampled x k)) = N /\
    weighted_mean (map Fin x) w = nmean (map Fin (resampled x k)) /\
    nsum w = Fin (IZR N).
Proof.
  intros N n_boot counts W x (Hl & Hm) H Lx. unfold boot_weights in H.
  destruct (1 <=? N) eqn:E1; [|discriminate]. destruct (1 <=? n_boot) eqn:E2; [|discriminate].
  cbn [py_assert bind] in H. apply Ok_inj in H. subst W. apply Z.leb_le in E1.
  split; [apply map_length|]. intros i w k Hw Hk. rewrite nth_error_map, Hk in Hw. cbn [option_map] in Hw. injection Hw as <-.
  rewrite Forall_forall in Hm. destruct (Hm k (nth_error_In _ _ Hk)) as (L & P & S).
  assert (map (fun z => nmax (Fin 0) (nofZ z)) k = map Fin (map IZR k)) as E.
  { rewrite map_map. apply map_ext_in. intros z Hz. rewrite Forall_forall in P. specialize (P z Hz).
    unfold nmax. cbn [nleb nofZ nisnan xr_num xleb xisnan]. rewrite orb_false_r. destruct (Rleb (IZR z) 0) eqn:Q; auto.
    apply Rleb_spec in Q. apply le_IZR in Q. assert (z = 0) as -> by lia. reflexivity. }
  assert (length x = length k) as Lk by lia.
  pose proof (resampled_length x k Lk P) as RL. rewrite S in RL.
  split; [exact RL|]. split; cbn [nofZ xr_num] in E; rewrite E.
  - unfold weighted_mean. rewrite map2_fin. rewrite !nmean_fin.
    + rewrite resampled_sum by auto. do 3 f_equal. rewrite map2_length, map_length. lia.
    + intros Q. rewrite Q in RL. cbn in RL. lia.
    + intros Q. apply (f_equal (@length R)) in Q. rewrite map2_length, map_length in Q. cbn in Q. lia.
  - rewrite nsum_fin. f_equal. rewrite <- S. clear. induction k as [|z k IH]; [reflexivity|].
    cbn [map fold_right]. rewrite Rsum_cons, IH, plus_IZR. reflexivity.
Qed.
Print Assumptions C36_weights_resample.

(** With a positive epsilon no weight is below it, and nothing else changes. *)
Theorem C36_epsilon_is_floor :
  forall N n_boot counts W (epsilon : f64),
  multinomial_outcome N n_boot counts -> N <= 2 ^ 53 ->
  fisnan epsilon = false ->
  boot_weights counts N n_boot epsilon = Ok W ->
  Forall2 (Forall2 (fun k w => fleb epsilon w = true /\
    (w = epsilon \/ w = f_of_Z k) /\ (fleb epsilon (f_of_Z k) = true -> feqb w (f_of_Z k) = true))) counts W.
Proof.
  intros N n_boot counts W eps (Hl & Hm) HN Ne H. unfold boot_weights in H.
  destruct (1 <=? N) eqn:E1; [|discriminate]. destruct (1 <=? n_boot) eqn:E2; [|discriminate].
  cbn [py_assert bind] in H. apply Ok_inj in H. subst W. clear Hl.
  induction Hm as [|row counts (L & P & S) Hm IH]; cbn [map]; constructor; auto.
  assert (forall k, In k row -> 0 <= k <= 2 ^ 53) as B.
  { intros k Hk. clear IH Hm L E1 E2. rewrite <- S in HN. clear S N. revert HN. induction P as [|a row Pa P IH]; [contradiction|].
    cbn [fold_right]. intros HN. assert (0 <= fold_right Z.add 0 row) as F0.
    { clear -P. induction P; cbn; lia. }
    destruct Hk as [->|Hk]; [lia|apply IH; auto; lia]. }
  clear L P S. induction row as [|k row IHr]; cbn [map]; constructor; [|apply IHr; intros; apply B; now right].
  assert (fisnan (f_of_Z k) = false) as Nk by (apply fisfin_notnan, f_of_Z_fin, B; now left).
  unfold nmax. cbn [nleb nofZ nisnan f64_num]. rewrite Ne, orb_false_r.
  destruct (fleb (f_of_Z k) eps) eqn:Q.
  - split; [now apply fleb_refl|]. split; [now left|]. intros Q'. apply feqb_key; auto.
    apply fleb_key in Q; auto. apply fleb_key in Q'; auto. lra.
  - split; [|split; [now right|]].
    + destruct (fleb_total eps (f_of_Z k) Ne Nk); congruence.
    + intros _. apply feqb_key; auto.
Qed.
Print Assumptions C36_epsilon_is_floor.

Example C36_example :
  multinomial_outcome 3 1 [[2; 0; 1]] /\ resampled [10; 20; 30] [2; 0; 1] = [10; 10; 30] /\
  boot_weights [[2; 0; 1]] 3 1 (Fin 0) = Ok [map Fin [2; 0; 1]%R].
Proof.
  repeat split; repeat constructor; try lia. unfold boot_weights. cbn.
  assert (Rleb 2 0 = false /\ Rleb 0 0 = true /\ Rleb 1 0 = false) as (E1 & E2 & E3).
  { rewrite !Rleb_false, Rleb_spec. lra. }
  unfold nmax. cbn. now rewrite E1, E2, E3.
Qed.

(** ** C37 *)
Theorem C37_percentile :
  forall b c, notnan b -> sized b -> confidence c ->
  exists lb ub, percentile b c = Ok (lb, ub) /\ In lb b /\ In ub b /\ fleb lb ub = true.
Proof.
  intros b c O S C. pose proof (conf_in01 _ C) as I.
  destruct (percentile_total (NT := f64_num) b c O I (idx_ok_f64 c _ I (sized_len _ S))) as (i & j & lb & ub & P & L & _ & _ & _ & Ei & Ej).
  exists lb, ub. split; auto. split; [|split]; [eapply sort_nth_in; eauto..|].
  eapply (sort_nth_mono (NT := f64_num)); eauto.
Qed.
Print Assumptions C37_percentile.

Theorem C37_order_irrelevant :
  forall b b' c lb ub lb' ub', Permutation b b' -> sized b ->
  percentile b c = Ok (lb, ub) -> percentile b' c = Ok (lb', ub') ->
  feqb lb lb' = true /\ feqb ub ub' = true.
Proof.
  intros b b' c lb ub lb' ub' P S H H'. pose proof (Permutation_length P) as L.
  destruct (percentile_unfold _ _ _ _ H) as (O & C & _).
  pose proof (idx_ok_f64 c _ C (sized_len _ S)) as K. pose proof K as K'. rewrite L in K'.
  destruct (percentile_inv _ _ _ _ H K) as (_ & _ & i & j & _ & _ & Zi & Zj & Ei & Ej).
  destruct (percentile_inv _ _ _ _ H' K') as (_ & _ & i' & j' & _ & _ & Zi' & Zj' & Ei' & Ej').
  rewrite <- L in Zi', Zj'. assert (i' = i) as -> by lia. assert (j' = j) as -> by lia.
  split; [exact (os_perm (NT := f64_num) b b' i lb lb' O P Ei Ei')|exact (os_perm (NT := f64_num) b b' j ub ub' O P Ej Ej')].
Qed.
Print Assumptions C37_order_irrelevant.

Theorem C37_raises_iff :
  forall b c, Z.of_nat (length b) <= 2 ^ 53 ->
  (is_ok (percentile b c) = true <-> notnan b /\ b <> [] /\ confidence c).
Proof.
  intros b c L. split.
  - intros H. destruct (percentile b c) as [[lb ub]|] eqn:E; [|discriminate].
    pose proof (percentile_nonempty _ _ _ _ E). destruct (percentile_unfold _ _ _ _ E) as (O & C & _).
    split; [exact O|]. split; [destruct b; cbn in *; [lia|discriminate]|].
    unfold in01 in C. apply andb_true_iff in C. exact C.
  - intros (O & NE & C). destruct (C37_percentile b c O (conj NE L) C) as (lb & ub & -> & _). reflexivity.
Qed.
Print Assumptions C37_raises_iff.

Definition fl := f_lit.
Definition ints (l : list Z) : list f64 := map f_of_Z l.
Definition shown (r : res (f64 * f64)) : option (Z * Z) :=
  match r with Ok (a, b) => Some (ftruncZ a, ftruncZ b) | Err _ => None end.
Example C37_example :
  shown (percentile (ints [5; 1; 4; 2; 3]) (fl 1 2)) = Some (2, 4) /\
  shown (percentile (ints [5; 1; 4; 2; 3]) (fl 95 100)) = Some (1, 5) /\
  shown (percentile (ints [7]) (fl 95 100)) = Some (7, 7) /\
  percentile (fnan :: ints [1]) (fl 1 2) = Err AssertionError.
Proof. vm_compute. repeat split. Qed.
Example C37_hyp : notnan (ints [5; 1; 4]) /\ sized (ints [5; 1; 4]) /\ confidence (fl 1 2).
Proof.
  split; [|split; split].
  - unfold notnan, ints. cbn [map]. repeat (apply Forall_cons; [vm_compute; reflexivity|]). apply Forall_nil.
  - discriminate.
  - cbn [ints map length]. lia.
  - vm_compute; reflexivity.
  - vm_compute; reflexivity.
Qed.

(** ** C38 *)
Theorem C38_interval_grows :
  forall b c c' lb ub lb' ub', sized b -> fleb c c' = true ->
  percentile b c = Ok (lb, ub) -> percentile b c' = Ok (lb', ub') ->
  fleb lb' lb = true /\ fleb ub ub' = true.
Proof.
  intros b c c' lb ub lb' ub' S L H H'.
  destruct (percentile_unfold _ _ _ _ H) as (O & C & _). destruct (percentile_unfold _ _ _ _ H') as (_ & C' & _).
  pose proof (sized_len _ S) as N.
  destruct (percentile_inv _ _ _ _ H (idx_ok_f64 c _ C N)) as (_ & _ & i & j & _ & _ & Zi & Zj & Ei & Ej).
  destruct (percentile_inv _ _ _ _ H' (idx_ok_f64 c' _ C' N)) as (_ & _ & i' & j' & _ & _ & Zi' & Zj' & Ei' & Ej').
  destruct (idx_mono_f64 c c' _ C C' L N) as [M1 M2].
  split.
  - apply (sort_nth_mono (NT := f64_num) b i' i); auto. lia.
  - apply (sort_nth_mono (NT := f64_num) b j j'); auto. lia.
Qed.
Print Assumptions C38_interval_grows.

Lemma percentile_ordered b c lb ub : sized b -> percentile b c = Ok (lb, ub) -> fleb lb ub = true.
Proof.
  intros S H. destruct (percentile_unfold _ _ _ _ H) as (O & C & _).
  destruct (percentile_inv _ _ _ _ H (idx_ok_f64 c _ C (sized_len _ S))) as (_ & _ & i & j & L & _ & _ & _ & Ei & Ej).
  eapply (sort_nth_mono (NT := f64_num)); eauto.
Qed.

Lemma error_bar_inv b e c EB : sized b -> error_bar b e c = Ok EB ->
  exists lb ub, percentile b c = Ok (lb, ub) /\ fleb lb ub = true /\ EB = ebar lb ub e.
Proof.
  intros S H. destruct (percentile b c) as [[lb ub]|] eqn:P; [|unfold error_bar in H; rewrite P in H; discriminate].
  pose proof (percentile_ordered _ _ _ _ S P) as L. rewrite (error_bar_eq _ _ _ _ _ P L) in H. injection H as <-. eauto.
Qed.

Theorem C38_error_bar_grows :
  forall b e c c' EB EB', sized b -> fleb c c' = true ->
  error_bar b e c = Ok EB -> error_bar b e c' = Ok EB' ->
  fisnan EB = true \/ fleb EB EB' = true.
Proof.
  intros b e c c' EB EB' S L H H'.
  destruct (error_bar_inv _ _ _ _ S H) as (lb & ub & P & Lu & ->).
  destruct (error_bar_inv _ _ _ _ S H') as (lb' & ub' & P' & Lu' & ->).
  destruct (C38_interval_grows _ _ _ _ _ _ _ S L P P'). now apply ebar_mono.
Qed.
Print Assumptions C38_error_bar_grows.

Definition shown1 (r : res f64) : option Z := match r with Ok a => Some (ftruncZ a) | Err _ => None end.
Example C38_example :
  shown1 (error_bar (ints [5; 1; 4; 2; 3]) (f_of_Z 3) (fl 1 2)) = Some 1 /\
  shown1 (error_bar (ints [5; 1; 4; 2; 3]) (f_of_Z 3) (fl 9 10)) = Some 2.
Proof. vm_compute. repeat split. Qed.

(** ** C39 *)
Theorem C39_error_bar_total :
  forall b e c, notnan b -> sized b -> confidence c ->
  exists EB, error_bar b e c = Ok EB /\ fltb EB f0 = false /\
  (fisfin e = true -> fleb f0 EB = true).
Proof.
  intros b e c O S C. destruct (C37_percentile b c O S C) as (lb & ub & P & _ & _ & L).
  exists (ebar lb ub e). split; [now apply error_bar_eq|]. split; [now apply ebar_nonneg|].
  intros F. pose proof (ebar_nonneg lb ub e L) as N. destruct (fleb_notnan _ _ L).
  apply fltb_false_le in N; auto using ebar_notnan. apply fleb_key; auto using ebar_notnan.
Qed.
Print Assumptions C39_error_bar_total.

(** Exact arithmetic: the half width of the smallest symmetric interval around
    the estimate that contains the percentile interval; the basic interval is
    inside too. *)
Definition subset (a b a' b' : R) : Prop := (a' <= a /\ b <= b')%R.
Theorem C39_smallest_symmetric :
  forall (b : list R) (e c : R), b <> [] -> (0 < c < 1)%R ->
  exists lb ub EB, percentile (map Fin b) (Fin c) = Ok (Fin lb, Fin ub) /\
    error_bar (map Fin b) (Fin e) (Fin c) = Ok (Fin EB) /\
    basic (map Fin b) (Fin e) (Fin c) = Ok (Fin (2 * e - ub), Fin (2 * e - lb)) /\
    (0 <= EB)%R /\ subset lb ub (e - EB) (e + EB) /\
    subset (2 * e - ub) (2 * e - lb) (e - EB) (e + EB) /\
    (forall w, subset lb ub (e - w) (e + w) -> (EB <= w)%R) /\
    (forall w, subset (2 * e - ub) (2 * e - lb) (e - w) (e + w) -> (EB <= w)%R).
Proof.
  intros b e c NE C.
  assert (okl (map Fin b)) as O by (apply Forall_forall; intros x Hx; apply in_map_iff in Hx as (r & <- & _); reflexivity).
  pose proof (in01_xr_intro c C) as I.
  assert (1 <= Z.of_nat (length (map Fin b))) as N by (rewrite map_length; destruct b; cbn; [congruence|lia]).
  destruct (percentile_total (map Fin b) (Fin c) O I (idx_ok_xr _ _ I N)) as (i & j & lb & ub & P & L & _ & _ & _ & Ei & Ej).
  pose proof (sort_nth_mono _ _ _ _ _ O L Ei Ej) as Lu.
  apply sort_nth_in in Ei. apply sort_nth_in in Ej.
  apply in_map_iff in Ei as (l & <- & _). apply in_map_iff in Ej as (u & <- & _).
  cbn in Lu. apply Rleb_spec in Lu.
  exists l, u, (Rmax (u - e) (e - l)). split; [exact P|].
  assert (nfmax (nsub (Fin u) (Fin e)) (nsub (Fin e) (Fin l)) = Fin (Rmax (u - e) (e - l))) as EM.
  { unfold nfmax. cbn [nsub nleb nisnan xr_num xsub xopp xadd xleb xisnan]. rewrite orb_false_r.
    destruct (Rleb (e + - l) (u + - e)) eqn:Q; [apply Rleb_spec in Q; rewrite Rmax_left by lra|
      apply Rleb_false in Q; rewrite Rmax_right by lra]; reflexivity. }
  assert (0 <= Rmax (u - e) (e - l))%R as Pos by (apply Rmax_case_strong; intros; lra).
  assert (u - e <= Rmax (u - e) (e - l))%R by apply Rmax_l. assert (e - l <= Rmax (u - e) (e - l))%R by apply Rmax_r.
  split.
  { unfold error_bar. rewrite P. cbn [bind fst snd]. rewrite EM. cbn [nltb n0 nisfin nisnan xr_num xltb xisfin xisnan].
    assert (Rltb (Rmax (u - e) (e - l)) 0 = false) as -> by (now apply Rltb_false). reflexivity. }
  split.
  { unfold basic. rewrite P. cbn [bind fst snd nofZ nmul nsub xr_num xmul xsub xopp xadd]. reflexivity. }
  split; [exact Pos|]. unfold subset. repeat split; try lra.
  - intros w [H1 H2]. apply Rmax_lub; lra.
  - intros w [H1 H2]. apply Rmax_lub; lra.
Qed.
Print Assumptions C39_smallest_symmetric.

(** A NaN error bar is possible, exactly when the estimate is not finite. *)
Example C39_example :
  shown1 (error_bar (ints [5; 1; 4; 2; 3]) (f_of_Z 10) (fl 9 10)) = Some 9 /\
  (match error_bar (finf :: ints [1]) (f_of_Z 1) (fl 1 2) with Ok EB => feqb EB finf | Err _ => false end) = true /\
  (match error_bar [finf; finf] finf (fl 1 2) with Ok EB => fisnan EB | Err _ => false end) = true.
Proof. vm_compute. repeat split. Qed.

(** ** C40 *)

(** a valid reference: one number, or one number per replicate; never NaN *)
Definition valid_ref (b : list f64) (r : reference f64) : Prop :=
  match r with Scalar v => fisnan v = false | Paired l => notnan l /\ length l = length b end.

Lemma valid_ref_ok b r : valid_ref b r -> ref_ok b r.
Proof.
  destruct r as [v|l]; cbn; intros H; split; cbn; auto; try apply H.
  - apply Forall_forall. intros x Hx. apply repeat_spec in Hx. now subst.
  - apply repeat_length.
Qed.
Lemma combine_len b r : valid_ref b r -> length (combine b (ref_values b r)) = length b.
Proof. intros H. apply valid_ref_ok in H as [_ H]. rewrite combine_length, H. apply Nat.min_id. Qed.

Theorem C40_p_value :
  forall b r, notnan b -> sized b -> valid_ref b r ->
  exists p, significance b r = Ok p /\ fleb f0 p = true /\ fleb p (f_of_Z 1) = true.
Proof.
  intros b r O S V. pose proof (combine_len _ _ V) as L. eexists. split; [apply significance_counts; auto using valid_ref_ok; apply S|].
  apply pvalue_range; [rewrite <- L; apply n_le_bound|rewrite <- L; apply n_ge_bound|now apply sized_len].
Qed.
Print Assumptions C40_p_value.

(** It is twice the smaller of the two tail fractions, capped at 1. *)
Theorem C40_tail_fractions :
  forall b r p, sized b -> valid_ref b r -> significance b r = Ok p ->
  let pairs := combine b (ref_values b r) in
  let below := length (filter (fun q => fleb (fst q) (snd q)) pairs) in
  let above := length (filter (fun q => fleb (snd q) (fst q)) pairs) in
  B2R p = Rmin 1 (2 * rnd64 (INR (Nat.min below above) / INR (length b))).
Proof.
  intros b r p S V H. destruct (significance_inv _ _ _ H (proj1 S)) as [O R].
  rewrite significance_counts in H by (auto; apply S). injection H as <-.
  pose proof (combine_len _ _ V) as L. pose proof (sized_len _ S) as N.
  cbv zeta. set (pairs := combine b (ref_values b r)) in *.
  change (filter (fun q => fleb (fst q) (snd q)) pairs) with (filter (fun q : f64 * f64 => nleb (fst q) (snd q)) pairs).
  change (filter (fun q => fleb (snd q) (fst q)) pairs) with (filter (fun q : f64 * f64 => nleb (snd q) (fst q)) pairs).
  fold (n_le pairs). fold (n_ge pairs).
  destruct (pval_val (length b) (n_le pairs) (n_ge pairs) N) as [E _];
    [rewrite <- L; apply n_le_bound|rewrite <- L; apply n_ge_bound|].
  unfold pvalue. rewrite E. do 2 f_equal. apply Rmin_rnd. apply lt_0_INR. lia.
Qed.
Print Assumptions C40_tail_fractions.

Theorem C40_equal_to_reference :
  forall b r p, sized b -> valid_ref b r -> significance b r = Ok p ->
  Forall (fun q => feqb (fst q) (snd q) = true) (combine b (ref_values b r)) ->
  feqb p (f_of_Z 1) = true.
Proof.
  intros b r p S V H F. destruct (significance_inv _ _ _ H (proj1 S)) as [O R].
  rewrite significance_counts in H by (auto; apply S). injection H as <-.
  pose proof (combine_len _ _ V) as L. set (pairs := combine b (ref_values b r)) in *.
  assert (n_le pairs = length pairs /\ n_ge pairs = length pairs) as [E1 E2].
  { clear -F. induction F as [|q l E F [I1 I2]]; [split; reflexivity|].
    pose proof (eqb_leb_ (num_ok := f64_ok) (fst q) (snd q)) as Q. cbn [neqb nleb f64_num] in Q. rewrite E in Q.
    symmetry in Q. apply andb_true_iff in Q as [Q1 Q2].
    unfold n_le, n_ge in *. cbn [filter nleb f64_num]. rewrite Q1, Q2. cbn [length]. split; f_equal; auto. }
  rewrite E1, E2, L. apply pvalue_full. now apply sized_len.
Qed.
Print Assumptions C40_equal_to_reference.

Theorem C40_order_irrelevant :
  forall b r b' r', sized b -> notnan b -> valid_ref b r -> length b' = length b -> valid_ref b' r' ->
  Permutation (combine b (ref_values b r)) (combine b' (ref_values b' r')) ->
  significance b r = significance b' r'.
Proof.
  intros b r b' r' S O V L V' P.
  assert (notnan b') as O'.
  { apply Forall_forall. intros x Hx. destruct (valid_ref_ok _ _ V') as [_ Lr]. destruct (valid_ref_ok _ _ V) as [_ Lr0].
    assert (map fst (combine b' (ref_values b' r')) = b') as E' by (apply map_fst_combine; lia).
    assert (map fst (combine b (ref_values b r)) = b) as E by (apply map_fst_combine; lia).
    rewrite <- E' in Hx. apply (Permutation_map fst) in P. eapply Permutation_in in Hx; [|apply Permutation_sym, P].
    rewrite E in Hx. unfold notnan in O. rewrite Forall_forall in O. auto. }
  rewrite !significance_counts; auto using valid_ref_ok; try apply S.
  2:{ destruct S as [NE _]. destruct b; [congruence|]. destruct b'; [discriminate|discriminate]. }
  destruct (n_perm _ _ P) as [-> ->]. now rewrite L.
Qed.
Print Assumptions C40_order_irrelevant.

Definition neg_ref (r : reference f64) : reference f64 :=
  match r with Scalar v => Scalar (fopp v) | Paired l => Paired (map fopp l) end.
Theorem C40_negation :
  forall b r, sized b -> notnan b -> valid_ref b r ->
  significance (map fopp b) (neg_ref r) = significance b r.
Proof.
  intros b r S O V. assert (forall x, fisnan (fopp x) = fisnan x) as No by (intros []; reflexivity).
  assert (notnan (map fopp b)) as O'.
  { apply Forall_forall. intros x Hx. apply in_map_iff in Hx as (y & <- & Hy). rewrite No.
    unfold notnan in O. rewrite Forall_forall in O. auto. }
  assert (valid_ref (map fopp b) (neg_ref r)) as V'.
  { destruct r as [v|l]; cbn in *; [now rewrite No|]. destruct V as [V1 V2]. split; [|rewrite !map_length; auto].
    apply Forall_forall. intros x Hx. apply in_map_iff in Hx as (y & <- & Hy). rewrite No.
    unfold notnan in V1. rewrite Forall_forall in V1. auto. }
  assert (map fopp b <> []) as NE by (destruct S as [NE _]; destruct b; [congruence|discriminate]).
  pose proof (combine_len _ _ V) as L.
  rewrite !significance_counts; auto using valid_ref_ok; try apply S. rewrite map_length.
  assert (combine (map fopp b) (ref_values (map fopp b) (neg_ref r))
          = map (fun q => (fopp (fst q), fopp (snd q))) (combine b (ref_values b r))) as ->.
  { assert (ref_values (map fopp b) (neg_ref r) = map fopp (ref_values b r)) as ->.
    { destruct r; cbn; [|reflexivity]. rewrite map_length. clear. induction (length b); cbn; congruence. }
    clear. revert r. intros r. generalize (ref_values b r). clear r. induction b as [|a b IH]; intros [|z l]; cbn; f_equal; auto. }
  set (pairs := combine b (ref_values b r)) in *.
  assert (Forall (fun q => fisnan (fst q) = false /\ fisnan (snd q) = false) pairs) as Fn.
  { apply Forall_forall. intros [x y] Hq. unfold notnan in O. rewrite Forall_forall in O.
    destruct (valid_ref_ok _ _ V) as [Or _]. unfold okl in Or. rewrite Forall_forall in Or.
    split; [apply O; eapply in_combine_l; eauto|apply (Or y); eapply in_combine_r; eauto]. }
  assert (n_le (map (fun q => (fopp (fst q), fopp (snd q))) pairs) = n_ge pairs /\
          n_ge (map (fun q => (fopp (fst q), fopp (snd q))) pairs) = n_le pairs) as [-> ->].
  { clear -Fn. induction Fn as [|[x y] l [Nx Ny] F [I1 I2]]; [split; reflexivity|]. cbn [fst snd] in *.
    unfold n_le, n_ge in *. cbn [map filter fst snd nleb f64_num].
    rewrite !fleb_opp by auto. destruct (fleb x y), (fleb y x); cbn [length]; split; auto. }
  f_equal. apply pvalue_comm; [rewrite <- L; apply n_ge_bound|rewrite <- L; apply n_le_bound|now apply sized_len].
Qed.
Print Assumptions C40_negation.

Definition percent (r : res f64) : option Z := match r with Ok a => Some (ftruncZ (fmul (f_of_Z 100) a)) | Err _ => None end.
Example C40_example :
  percent (significance (ints [5; 1; 4; 2; 3; 9; 8; 7]) (Scalar (fl 3 2))) = Some 25 /\
  percent (significance (ints [5; 5]) (Scalar (f_of_Z 5))) = Some 100 /\
  percent (significance (ints [5; 1]) (Paired (ints [6; 2]))) = Some 0 /\
  significance (ints [5; 1]) (Paired (ints [6])) = Err AssertionError /\
  significance (ints [5; 1]) (Scalar fnan) = Err AssertionError.
Proof. vm_compute. repeat split. Qed.

(** ** C41 *)
Theorem C41_outside_is_significant :
  forall b c lb ub ref p, Z.of_nat (length b) <= 2 ^ 24 ->
  percentile b c = Ok (lb, ub) -> significance b (Scalar ref) = Ok p ->
  fltb ref lb = true \/ fltb ub ref = true ->
  fltb p (fsub (f_of_Z 1) c) = true.
Proof. intros b c lb ub r p N P S H. eapply out_f64; eauto. now apply orb_true_iff. Qed.
Print Assumptions C41_outside_is_significant.

(** Without rounding there is no limit on the number of replicates. *)
Theorem C41_outside_is_significant_exact :
  forall (b : list xr) c lb ub ref p,
  percentile b (Fin c) = Ok (lb, ub) -> significance b (Scalar ref) = Ok (Fin p) ->
  xltb ref lb = true \/ xltb ub ref = true ->
  (p < 1 - c)%R.
Proof.
  intros b c lb ub r p P S H. assert (nltb (Fin p) (nsub n1 (Fin c)) = true) as G.
  { eapply out_xr; eauto. now apply orb_true_iff. }
  cbn in G. apply Rltb_spec in G. lra.
Qed.
Print Assumptions C41_outside_is_significant_exact.

Example C41_example :
  shown (percentile (ints [5; 1; 4; 2; 3]) (fl 1 2)) = Some (2, 4) /\
  percent (significance (ints [5; 1; 4; 2; 3]) (Scalar (fl 9 2))) = Some 40.
Proof. vm_compute. repeat split. Qed.

(** ** C42 *)
Theorem C42_significant_is_outside_refuted :
  exists b c lb ub ref p,
    percentile b c = Ok (lb, ub) /\ significance b (Scalar ref) = Ok p /\
    fltb p (fsub (f_of_Z 1) c) = true /\ fleb lb ref = true /\ fleb ref ub = true.
Proof.
  assert ((match percentile (ints [1; 2; 3; 4]) (fl 4 10), significance (ints [1; 2; 3; 4]) (Scalar (f_of_Z 1)) with
           | Ok (lb, ub), Ok p =>
               fltb p (fsub (f_of_Z 1) (fl 4 10)) && (fleb lb (f_of_Z 1) && fleb (f_of_Z 1) ub)
           | _, _ => false
           end) = true) as H by (vm_compute; reflexivity).
  destruct (percentile (ints [1; 2; 3; 4]) (fl 4 10)) as [[lb ub]|] eqn:E1; [|discriminate].
  destruct (significance (ints [1; 2; 3; 4]) (Scalar (f_of_Z 1))) as [p|] eqn:E2; [|discriminate].
  apply andb_true_iff in H as [H1 H]. apply andb_true_iff in H as [H2 H3].
  exists (ints [1; 2; 3; 4]), (fl 4 10), lb, ub, (f_of_Z 1), p. auto.
Qed.
Print Assumptions C42_significant_is_outside_refuted.

(** What holds: a significant reference is outside or in the outermost step of
    the interval, i.e. all replicates up to ref are at most LB, or all
    replicates from ref on are at least UB. *)
Theorem C42_significant_is_at_the_edge :
  forall b c lb ub ref p, Z.of_nat (length b) <= 2 ^ 48 ->
  percentile b c = Ok (lb, ub) -> significance b (Scalar ref) = Ok p ->
  fltb p (fsub (f_of_Z 1) c) = true ->
  (forall v, In v b -> fleb v ref = true -> fleb v lb = true) \/
  (forall v, In v b -> fleb ref v = true -> fleb ub v = true).
Proof. intros b c lb ub r p N P S H. eapply in_f64; eauto. Qed.
Print Assumptions C42_significant_is_at_the_edge.

Theorem C42_significant_is_at_the_edge_exact :
  forall (b : list xr) c lb ub ref p,
  percentile b (Fin c) = Ok (lb, ub) -> significance b (Scalar ref) = Ok (Fin p) -> (p < 1 - c)%R ->
  (forall v, In v b -> xleb v ref = true -> xleb v lb = true) \/
  (forall v, In v b -> xleb ref v = true -> xleb ub v = true).
Proof.
  intros b c lb ub r p P S H. eapply in_xr; eauto. cbn. apply Rltb_spec. lra.
Qed.
Print Assumptions C42_significant_is_at_the_edge_exact.

(** ** C43 *)
Theorem C43_inverted_p_value :
  forall b ref p, b <> [] -> Z.of_nat (length b) <= 2 ^ 24 ->
  significance b (Scalar ref) = Ok p -> fltb f0 p = true -> fltb p (f_of_Z 1) = true ->
  exists lb ub, percentile b (fsub (f_of_Z 1) p) = Ok (lb, ub) /\ fleb lb ref = true /\ fleb ref ub = true.
Proof. intros b r p NE N S P0 P1. eapply inv_f64; eauto. Qed.
Print Assumptions C43_inverted_p_value.

Theorem C43_inverted_p_value_exact :
  forall (b : list xr) ref p, b <> [] ->
  significance b (Scalar ref) = Ok (Fin p) -> (0 < p < 1)%R ->
  exists lb ub, percentile b (Fin (1 - p)) = Ok (lb, ub) /\ xleb lb ref = true /\ xleb ref ub = true.
Proof.
  intros b r p NE S P. apply (inv_xr b r (Fin p)); auto; cbn; apply Rltb_spec; lra.
Qed.
Print Assumptions C43_inverted_p_value_exact.

Example C43_example :
  percent (significance (ints [5; 1; 4; 2; 3; 9; 8; 7]) (Scalar (fl 3 2))) = Some 25 /\
  shown (percentile (ints [5; 1; 4; 2; 3; 9; 8; 7]) (fl 75 100)) = Some (1, 9).
Proof. vm_compute. repeat split. Qed.

(** ** C44 *)
Theorem C44_paired_is_difference :
  forall x y, finite x -> finite y -> length y = length x -> sized x ->
  significance x (Paired y) = significance (map2 fsub x y) (Scalar f0).
Proof.
  intros x y Fx Fy L S. assert (notnan x /\ notnan y) as [Ox Oy].
  { split; eapply Forall_impl; try eassumption; intros a; apply fisfin_notnan. }
  assert (Forall (fun q => fisfin (fst q) = true /\ fisfin (snd q) = true) (combine x y)) as F.
  { unfold finite in *. rewrite Forall_forall in *. intros [a b] H.
    split; [apply Fx; eapply in_combine_l; eauto|apply Fy; eapply in_combine_r; eauto]. }
  assert (length (map2 fsub x y) = length x) as Lm by (rewrite map2_length, L; apply Nat.min_id).
  assert (okl (map2 fsub x y)) as Od.
  { rewrite map2_combine. unfold okl. rewrite Forall_forall in *. intros z Hz. apply in_map_iff in Hz as (q & <- & Hq).
    destruct (F q Hq). now apply fsub_key. }
  assert (map2 fsub x y <> []) as NE by (destruct S as [NE _]; destruct x, y; try congruence; discriminate).
  rewrite !significance_counts; auto; try (apply valid_ref_ok; cbn; auto); try apply S; try reflexivity.
  cbn [ref_values]. rewrite Lm.
  assert (n_le (combine (map2 fsub x y) (repeat f0 (length x))) = n_le (combine x y) /\
          n_ge (combine (map2 fsub x y) (repeat f0 (length x))) = n_ge (combine x y)) as [-> ->]; [|reflexivity].
  clear -F. unfold n_le, n_ge. cbn [nleb f64_num]. revert y F.
  induction x as [|a x IH]; intros [|b y] F; try (split; reflexivity).
  cbn [combine] in F. inversion F as [|? ? [Fa Fb] F']; subst. cbn [fst snd] in *. destruct (IH y F') as [I1 I2].
  destruct (sub_le0 a b Fa Fb) as [E1 E2]. cbn [map2 length repeat combine filter fst snd]. rewrite E1, E2.
  destruct (fleb a b), (fleb b a); cbn [length]; split; auto.
Qed.
Print Assumptions C44_paired_is_difference.

(** Finiteness is needed: inf - inf is NaN and the one-sample test rejects it. *)
Example C44_example :
  percent (significance (ints [5; 1; 4]) (Paired (ints [6; 0; 3]))) = Some 66 /\
  percent (significance (map2 fsub (ints [5; 1; 4]) (ints [6; 0; 3])) (Scalar f0)) = Some 66 /\
  percent (significance [finf] (Paired [finf])) = Some 100 /\
  significance (map2 fsub [finf] [finf]) (Scalar f0) = Err AssertionError.
Proof. vm_compute. repeat split. Qed.
