(** Integer weights in IEEE doubles act as repetition of the samples. *)
From Coq Require Import Reals Lra Lia List Sorted Bool Permutation.
From Flocq Require Import Core BinarySingleNaN.
From Verif Require Import PyBase F64 F64Lemmas Num NumOk Util UtilProofs ListLemmas UtilProofs2 BootProofs2 BootProofs4
  PerfCurves PerfProofs PerfProofs2 PerfProofs5 PerfProofs6 PerfProofs7 PerfProofs8 PerfProofs9.
Open Scope R_scope.
Open Scope list_scope.

Notation zpt := (f64 * (bool * Z))%type.
Definition zw (p : zpt) : Z := snd (snd p).
Definition zp (p : zpt) : Z := (b2z (fst (snd p)) * zw p)%Z.
Definition flt (p : zpt) : f64 * (bool * f64) := (fst p, (fst (snd p), f_of_Z (zw p))).

Lemma Zsum_nonneg l : Forall (fun k => 0 <= k)%Z l -> (0 <= Zsum l)%Z.
Proof. induction 1; cbn; [lia|]. unfold Zsum in *. lia. Qed.
Lemma Zsum_perm l m : Permutation l m -> Zsum l = Zsum m.
Proof. unfold Zsum. induction 1; cbn; lia. Qed.
Lemma Zsum_filter_le {A} (f : A -> Z) (p : A -> bool) l : Forall (fun a => 0 <= f a)%Z l ->
  (Zsum (map f (filter p l)) <= Zsum (map f l))%Z.
Proof.
  induction 1 as [|a l H F IH]; cbn; [lia|]. unfold Zsum in *. destruct (p a); cbn; lia.
Qed.
Lemma Zsum_le {A} (f g : A -> Z) l : Forall (fun a => f a <= g a)%Z l -> (Zsum (map f l) <= Zsum (map g l))%Z.
Proof. induction 1; cbn; [lia|]. unfold Zsum in *. lia. Qed.

Lemma Zsum_in l k : Forall (fun k => 0 <= k)%Z l -> In k l -> (k <= Zsum l)%Z.
Proof.
  induction 1 as [|a l H F IH]; intros I; [contradiction|]. pose proof (Zsum_nonneg _ F).
  destruct I as [->|I]; unfold Zsum in *; cbn [fold_right]; [lia|]. specialize (IH I). lia.
Qed.

Lemma Permutation_filter {A} (p : A -> bool) l m : Permutation l m -> Permutation (filter p l) (filter p m).
Proof.
  induction 1; cbn; auto.
  - destruct (p x); auto.
  - destruct (p x), (p y); auto. apply perm_swap.
  - eauto using perm_trans.
Qed.

(** the weight at or above [t] of the samples with [p label] *)
Definition zc (P : list zpt) (p : bool -> bool) (t : f64) : Z :=
  Zsum (map zw (filter (fun q => fleb t (fst q) && p (fst (snd q))) P)).

Lemma zc_split P t : zc P (fun b => b) t = Zsum (map zp (filter (fun q => fleb t (fst q)) P)) /\
  (zc P negb t = Zsum (map zw (filter (fun q => fleb t (fst q)) P)) - Zsum (map zp (filter (fun q => fleb t (fst q)) P)))%Z.
Proof.
  unfold zc, zp. induction P as [|[a [b k]] P [I1 I2]]; [split; reflexivity|].
  cbn [filter map fst snd zw]. destruct (fleb t a), b; cbn [andb negb filter map fst snd]; unfold Zsum in *; cbn [fold_right map fst snd b2z];
    unfold zw in *; cbn [fst snd]; split; try lia.
Qed.

Section IntWeights.
  Context (s : list f64) (y : list bool) (ks : list Z).
  Hypothesis (Fs : Forall (fun x => fisfin x = true) s) (Ls : length s = length y) (Ne : s <> [])
    (Lk : length ks = length y) (Pk : Forall (fun k => 1 <= k)%Z ks) (Sk : (Zsum ks <= 2 ^ 53)%Z).
  Let P : list zpt := combine s (combine y ks).
  Let Q : list zpt := take P (rev (argsort_stable s)).
  Let r := map f_of_Z ks.

  Lemma QP : Permutation Q P.
  Proof.
    unfold Q. apply take_perm. unfold P. rewrite !combine_length, Lk, <- Ls, !Nat.min_id. apply desc_perm.
  Qed.
  Lemma Lr : length r = length y.
  Proof. unfold r. now rewrite map_length. Qed.

  Lemma PFlt : combine s (combine y r) = map flt P.
  Proof.
    unfold P, r. clear -Lk Ls. revert y ks Ls Lk. induction s as [|a l IH]; intros [|b y] [|k ks] L1 L2; try discriminate; [reflexivity|].
    cbn [combine map]. f_equal. apply IH; auto; cbn in *; lia.
  Qed.
  Lemma QFlt : sorted_samples s y r = map flt Q.
  Proof. unfold sorted_samples, samples. rewrite PFlt. unfold Q. now rewrite take_map. Qed.

  Lemma zw_P : map zw P = ks.
  Proof.
    unfold P. clear -Lk Ls. revert y ks Ls Lk. induction s as [|a l IH]; intros [|b y] [|k ks] L1 L2; try discriminate; [reflexivity|].
    cbn [combine map]. unfold zw at 1. cbn [snd]. f_equal. apply IH; cbn in *; lia.
  Qed.
  Lemma zw_pos : Forall (fun q => 1 <= zw q)%Z P.
  Proof. apply Forall_forall. intros q Hq. rewrite Forall_forall in Pk. apply Pk. rewrite <- zw_P. now apply in_map. Qed.
  Lemma Q_pos : Forall (fun q => 1 <= zw q)%Z Q.
  Proof. apply Forall_forall. intros q Hq. pose proof zw_pos as H. rewrite Forall_forall in H. apply H. now rewrite <- QP. Qed.
  Lemma Q_sum : Zsum (map zw Q) = Zsum ks.
  Proof. rewrite <- zw_P. apply Zsum_perm, Permutation_map, QP. Qed.

  Lemma sub_all (p : zpt -> bool) : Forall (fun k => 0 <= k)%Z (map zw (filter p Q)) /\ (0 <= Zsum (map zw (filter p Q)) <= 2 ^ 53)%Z.
  Proof.
    assert (Forall (fun k => 0 <= k)%Z (map zw (filter p Q))) as F.
    { apply Forall_forall. intros k Hk. apply in_map_iff in Hk as (q & <- & Hq). apply filter_In in Hq as [Hq _].
      pose proof Q_pos as H. rewrite Forall_forall in H. specialize (H q Hq). lia. }
    split; auto. split; [now apply Zsum_nonneg|]. eapply Z.le_trans; [apply Zsum_filter_le|rewrite Q_sum; auto].
    eapply Forall_impl; [|apply Q_pos]. cbn. intros; lia.
  Qed.
  Lemma sub_pos (p : zpt -> bool) : Forall (fun k => 0 <= k)%Z (map zp (filter p Q)) /\
    (0 <= Zsum (map zp (filter p Q)) <= Zsum (map zw (filter p Q)))%Z.
  Proof.
    assert (forall q, In q (filter p Q) -> 1 <= zw q)%Z as W.
    { intros q Hq. apply filter_In in Hq as [Hq _]. pose proof Q_pos as H. rewrite Forall_forall in H. auto. }
    assert (Forall (fun k => 0 <= k)%Z (map zp (filter p Q))) as F.
    { apply Forall_forall. intros k Hk. apply in_map_iff in Hk as (q & <- & Hq). specialize (W q Hq). unfold zp.
      destruct (fst (snd q)); cbn [b2z]; lia. }
    split; auto. split; [now apply Zsum_nonneg|]. apply Zsum_le. apply Forall_forall. intros q Hq. specialize (W q Hq). unfold zp.
    destruct (fst (snd q)); cbn [b2z]; lia.
  Qed.

  Lemma filter_map_ {A B} (f : A -> B) (p : B -> bool) l : filter p (map f l) = map f (filter (fun a => p (f a)) l).
  Proof. induction l as [|a l IH]; cbn; auto. destruct (p (f a)); cbn; now rewrite IH. Qed.

  Lemma above_flt t : at_or_above t (sorted_samples s y r) = map flt (filter (fun q => fleb t (fst q)) Q).
  Proof. rewrite QFlt. unfold at_or_above. now rewrite filter_map_. Qed.

  Lemma all_sum t : sum1 (map wall (at_or_above t (sorted_samples s y r))) = f_of_Z (Zsum (map zw (filter (fun q => fleb t (fst q)) Q))).
  Proof.
    rewrite above_flt, map_map, <- sum1_Z, map_map; [reflexivity|apply sub_all|apply sub_all].
  Qed.
  Lemma pos_part_sum t : sum1 (map wpart (at_or_above t (sorted_samples s y r))) = f_of_Z (Zsum (map zp (filter (fun q => fleb t (fst q)) Q))).
  Proof.
    destruct (sub_pos (fun q => fleb t (fst q))) as [F B]. destruct (sub_all (fun q => fleb t (fst q))) as [_ B'].
    rewrite above_flt, map_map, <- sum1_Z; [|exact F|lia]. rewrite map_map. f_equal. apply map_ext_in.
    intros q Hq. unfold wpart, flt. cbn [fst snd]. change (fmul (f_of_Z (b2z (fst (snd q)))) (f_of_Z (zw q)) = f_of_Z (zp q)).
    apply fmul_b. apply filter_In in Hq as [Hq _]. pose proof Q_pos as H. rewrite Forall_forall in H. specialize (H q Hq).
    assert (zw q <= Zsum (map zw Q))%Z as U.
    { apply Zsum_in; [|now apply in_map]. apply Forall_map. eapply Forall_impl; [|apply Q_pos]. cbn. intros; lia. }
    rewrite Q_sum in U. lia.
  Qed.

  Lemma zc_QP p t : zc Q p t = zc P p t.
  Proof. unfold zc. apply Zsum_perm, Permutation_map. apply Permutation_filter. apply QP. Qed.

  Lemma tps_int : tps_row s y r = map (fun t => f_of_Z (zc P (fun b => b) t)) (thr s).
  Proof.
    unfold tps_row. apply map_ext. intros t. rewrite pos_part_sum. f_equal. rewrite <- zc_QP. symmetry. apply zc_split.
  Qed.
  Lemma fps_int : fps_row s y r = map (fun t => f_of_Z (zc P negb t)) (thr s).
  Proof.
    unfold fps_row. apply map_ext. intros t. rewrite pos_part_sum, all_sum.
    destruct (sub_pos (fun q => fleb t (fst q))) as [_ B]. destruct (sub_all (fun q => fleb t (fst q))) as [_ B'].
    etransitivity; [apply fsub_Z; lia|]. f_equal. rewrite <- zc_QP. symmetry. apply zc_split.
  Qed.

  Lemma mask_int n (c : bool -> bool) : row_sum n (mask (map c (take y (rev (argsort_stable s)))) (take r (rev (argsort_stable s)))) =
    f_of_Z (Zsum (map zw (filter (fun q => c (fst (snd q))) Q))).
  Proof.
    rewrite <- (row_sum_Z n); [|apply sub_all|apply sub_all]. f_equal.
    assert (take y (rev (argsort_stable s)) = map (fun q => fst (snd q)) Q /\ take ks (rev (argsort_stable s)) = map zw Q) as [E1 E2].
    { unfold Q. rewrite <- !take_map, zw_P. split; auto. f_equal. unfold P. clear -Lk Ls. revert y ks Ls Lk.
      induction s as [|a l IH]; intros [|b y] [|k ks] L1 L2; try discriminate; [reflexivity|]. cbn [combine map fst snd]. f_equal. apply IH; cbn in *; lia. }
    unfold r. rewrite take_map, E1, E2. generalize Q. induction Q0 as [|q l IH]; cbn [map mask filter]; auto.
    destruct (c (fst (snd q))); cbn [map]; now rewrite IH.
  Qed.

  Lemma at_last_P p t0 : zc P p (last (thr s) t0) = Zsum (map zw (filter (fun q => p (fst (snd q))) P)).
  Proof.
    unfold zc. do 2 f_equal. apply filter_ext_in. intros q Hq.
    assert (nleb (last (thr s) t0) (fst q) = true) as E.
    { apply (last_thr_min (NT := f64_num) s y Fs Ls Ne). unfold P in Hq. destruct q. now apply in_combine_l in Hq. }
    cbn [nleb f64_num] in E. now rewrite E.
  Qed.
  Lemma neg_int n t0 : neg_sum s y n r = f_of_Z (zc P negb (last (thr s) t0)).
  Proof.
    unfold neg_sum. rewrite (mask_int n negb), at_last_P. f_equal. apply Zsum_perm, Permutation_map, Permutation_filter, QP.
  Qed.
  Lemma pos_int n t0 : pos_sum s y n r = f_of_Z (zc P (fun b => b) (last (thr s) t0)).
  Proof.
    unfold pos_sum. rewrite <- (map_id (take y _)). rewrite (mask_int n (fun b => b)), at_last_P. f_equal.
    apply Zsum_perm, Permutation_map, Permutation_filter, QP.
  Qed.

  Lemma zc_bound p t : (0 <= zc P p t <= 2 ^ 53)%Z.
  Proof.
    rewrite <- zc_QP. unfold zc. apply sub_all.
  Qed.

  Lemma const_nn k : (1 <= k <= 2 ^ 53)%Z -> nn (fdiv (f_of_Z 1) (f_of_Z k)) /\ B2R (fdiv (f_of_Z 1) (f_of_Z k)) <= 1.
  Proof.
    intros H. destruct f1_val as [V1 N1]. destruct (f_of_Z_nn k) as [Nk Vk]; [lia|].
    destruct (ratio _ _ N1 Nk) as (N & V & B); [rewrite Vk; apply (IZR_lt 0); lia|rewrite V1, Vk; apply (IZR_le 1); lia|].
    split; auto. apply B.
  Qed.

  Lemma isclose_int k : (0 <= k <= 2 ^ 53)%Z -> isclose (f_of_Z k) (f_of_Z k) = true.
  Proof.
    intros H. destruct (f_of_Z_nn k H) as [N V]. pose proof (nn_ge0 _ N) as G. unfold isclose. cbn [nisfin f64_num].
    rewrite (proj1 N). cbn [andb].
    assert (fsub (f_of_Z k) (f_of_Z k) = f0) as E.
    { rewrite fsub_Z by lia. rewrite Z.sub_diag. apply f_of_Z_0. }
    change (nsub (f_of_Z k) (f_of_Z k)) with (fsub (f_of_Z k) (f_of_Z k)). rewrite E.
    assert (nabs (f_of_Z k) = f_of_Z k) as A.
    { unfold nabs. change (nleb (f_of_Z k) n0) with (fleb (f_of_Z k) f0). destruct (fleb (f_of_Z k) f0) eqn:El; [|reflexivity].
      apply fleb_fin in El; [|apply N|reflexivity]. change (B2R64 f0) with 0 in El. assert (k = 0)%Z as -> by (apply eq_IZR; lra). reflexivity. }
    rewrite A. change (nabs f0) with f0.
    change (fleb f0 (fadd (fdiv (f_of_Z 1) (f_of_Z (10 ^ 8))) (fmul (fdiv (f_of_Z 1) (f_of_Z (10 ^ 5))) (f_of_Z k))) = true).
    destruct (const_nn (10 ^ 8)) as [Na Ba]; [cbn; lia|]. destruct (const_nn (10 ^ 5)) as [Nb Bb]; [cbn; lia|].
    pose proof (nn_ge0 _ Na). pose proof (nn_ge0 _ Nb).
    assert (B2R (f_of_Z k) <= P2 160) as U by (rewrite V; apply Rle_trans with (IZR (2 ^ 53)); [apply IZR_le; lia|apply P2_53_160]).
    destruct (fmul_nn _ _ Nb N) as [Nm Vm].
    { apply Rle_trans with (1 * P2 160); [apply Rmult_le_compat; auto|]. rewrite Rmult_1_l. apply bpow_le. lia. }
    assert (B2R (fmul (fdiv (f_of_Z 1) (f_of_Z (10 ^ 5))) (f_of_Z k)) <= P2 160) as Um.
    { rewrite Vm. apply rnd64_le; [apply format64_pow; lia|]. rewrite <- (Rmult_1_l (P2 160)). apply Rmult_le_compat; auto. }
    destruct (fadd_nn _ _ Na Nm) as [Ns _].
    { apply Rle_trans with (P2 0 + P2 160); [change (P2 0) with 1; lra|].
      apply Rle_trans with (P2 160 + P2 160); [apply Rplus_le_compat_r, bpow_le; lia|].
      replace (P2 160 + P2 160) with (P2 161) by (change 161%Z with (1 + 160)%Z; rewrite bpow_plus; change (P2 1) with 2; lra). apply bpow_le; lia. }
    apply fleb_fin; [reflexivity|apply Ns|]. change (B2R64 f0) with 0. now apply nn_ge0.
  Qed.

  Theorem clf_int : exists f t, _binary_clf_curve y s (Some [r]) = Ok ([f0 :: f], [f0 :: t], finf :: thr s) /\
    finish [(map (fun t => f_of_Z (zc P negb t)) (thr s), map (fun t => f_of_Z (zc P (fun b => b) t)) (thr s))] (thr s) = Ok ([f0 :: f], [f0 :: t], finf :: thr s) /\
    good_rows [f0 :: f] [f0 :: t] (length (finf :: thr s)).
  Proof.
    assert (raw_row (map (fun t => f_of_Z (zc P negb t)) (thr s)) (map (fun t => f_of_Z (zc P (fun b => b) t)) (thr s))) as RR.
    { apply (int_row _ _ _ (2 ^ 53)); [lia|now apply thr_nonempty|intros; apply zc_bound|intros; apply zc_bound| | |exact (thr_sorted (NT := f64_num) s Fs)].
      - intros t t' _ _ L. assert (forall p, zc P p t <= zc P p t')%Z as K; [|split; apply K]. intros p. unfold zc.
        pose proof zw_pos as Z. clear -Z L. induction P as [|q l IH]; [reflexivity|]. inversion Z; subst. specialize (IH H2). cbn [filter].
        destruct (fleb t (fst q)) eqn:E.
        + rewrite (fleb_trans _ _ _ L E). destruct (p (fst (snd q))); cbn [andb map]; auto. unfold Zsum in *. cbn [fold_right]. lia.
        + cbn [andb]. destruct (fleb t' (fst q) && p (fst (snd q))); auto. cbn [map]. unfold Zsum in *. cbn [fold_right]. lia.
      - intros t Ht. assert (In t s) as I by now apply thr_in. rewrite Forall_forall in Fs. specialize (Fs _ I).
        assert (In t (map fst P)) as J.
        { unfold P. rewrite map_fst_combine; auto. rewrite combine_length. lia. }
        apply in_map_iff in J as (q & E & Hq). subst t. pose proof zw_pos as Z.
        assert (forall l, Forall (fun q => 1 <= zw q)%Z l -> 0 <= zc l negb (fst q) /\ 0 <= zc l (fun b => b) (fst q))%Z as NN.
        { intros l Zl. assert (forall p, 0 <= zc l p (fst q))%Z as K; [|split; apply K]. intros p. unfold zc. apply Zsum_nonneg, Forall_map.
          apply Forall_forall. intros x Hx. apply filter_In in Hx as [Hx _]. rewrite Forall_forall in Zl. specialize (Zl x Hx). lia. }
        clear -Z Hq Fs NN. revert Z Hq. generalize P. intros l. induction l as [|a l IH]; intros Z Hq; [contradiction|]. inversion Z; subst.
        specialize (NN l H2) as [N1 N2].
        destruct Hq as [->|Hq].
        + unfold zc in *. cbn [filter]. rewrite (fleb_refl _ (fisfin_notnan _ Fs)). cbn [andb].
          destruct (fst (snd q)); cbn [negb map]; unfold Zsum in *; cbn [fold_right]; lia.
        + specialize (IH H2 Hq). unfold zc in *. cbn [filter]. destruct (fleb (fst q) (fst a)); cbn [andb]; auto.
          destruct (fst (snd a)); cbn [negb map]; unfold Zsum in *; cbn [fold_right]; lia. }
    destruct (finish_good _ _ (thr s) RR) as (f & t & E & G & Len & _ & _).
    exists f, t.
    assert (forallb (forallb nisfin) [r] = true /\ forallb (forallb (nltb n0)) [r] = true) as [C1 C2].
    { cbn [forallb]. rewrite !andb_true_r. unfold r. rewrite Forall_forall in Pk.
      assert (forall k, In k ks -> (1 <= k <= 2 ^ 53)%Z) as B.
      { intros k Hk. split; auto. eapply Z.le_trans; [apply (Zsum_in ks)|auto]; auto. apply Forall_forall. intros z Hz. specialize (Pk z Hz). lia. }
      split; apply forallb_forall; intros x Hx; apply in_map_iff in Hx as (k & <- & Hk); specialize (B k Hk);
        (destruct (f_of_Z_nn k) as [N V]; [lia|]).
      - apply N.
      - apply fltb_fin; [reflexivity|apply N|]. change (B2R64 f0) with 0. rewrite V. apply (IZR_lt 0). lia. }
    split.
    - rewrite (clf_weighted (NT := f64_num)); auto; [|cbn [forallb]; rewrite Lr, Nat.eqb_refl; reflexivity|discriminate].
      cbn [map]. rewrite fps_int, tps_int, (neg_int _ f0), (pos_int _ f0).
      assert (forall p, lastn (map (fun t1 => f_of_Z (zc P p t1)) (thr s)) = f_of_Z (zc P p (last (thr s) f0))) as La.
      { intros p. unfold lastn. apply (PerfProofs2.last_map (fun t1 => f_of_Z (zc P p t1))). now apply thr_nonempty. }
      rewrite !La. unfold allclose. cbn [combine forallb fst snd]. rewrite !isclose_int by apply zc_bound. cbn [andb py_assert bind].
      exact E.
    - split; [exact E|]. constructor; [|constructor]. exists f, t. split; [reflexivity|]. split; [reflexivity|]. split; [exact G|].
      cbn [length]. rewrite Len, map_length. reflexivity.
  Qed.
End IntWeights.

(** ** repetition *)
Lemma finish_thr {T} {NT : num T} rows (D D' : list T) F G th : finish rows D = Ok (F, G, th) -> finish rows D' = Ok (F, G, ninf :: D').
Proof.
  unfold finish. destruct (forallb _ rows); cbn [py_assert bind]; [|discriminate]. intros E. apply Ok_inj in E.
  injection E as <- <- <-. reflexivity.
Qed.

Lemma replicate_combine {A B} ks (l : list A) (m : list B) : length ks = length l -> length m = length l ->
  combine (replicate ks l) (replicate ks m) = replicate ks (combine l m).
Proof.
  revert l m. induction ks as [|k ks IH]; intros [|a l] [|b m] L1 L2; try discriminate; [reflexivity|].
  cbn [replicate combine]. rewrite <- IH by (cbn in *; lia). clear. induction k as [|k IH]; cbn [repeat app combine]; [reflexivity|].
  now rewrite IH.
Qed.

Lemma filter_app_len {A} (p : A -> bool) l m : length (filter p (l ++ m)) = (length (filter p l) + length (filter p m))%nat.
Proof. now rewrite filter_app, app_length. Qed.
Lemma filter_repeat_len {A} (p : A -> bool) a k : length (filter p (repeat a k)) = if p a then k else 0%nat.
Proof. induction k as [|k IH]; cbn; [now destruct (p a)|]. destruct (p a); cbn; now rewrite IH. Qed.

Lemma zc_replicate s y ks p t : length ks = length y -> length s = length y ->
  zc (combine s (combine y (map Z.of_nat ks))) p t = cntZ (replicate ks s) (replicate ks y) p t.
Proof.
  intros L1 L2. unfold cntZ. rewrite replicate_combine by lia.
  revert s y L1 L2. induction ks as [|k ks IH]; intros [|a s] [|b y] L1 L2; try discriminate; [reflexivity|].
  cbn [combine map replicate]. rewrite filter_app_len, filter_repeat_len. cbn [fst snd].
  specialize (IH s y ltac:(cbn in *; lia) ltac:(cbn in *; lia)). unfold zc in *. cbn [filter fst snd].
  change (nleb t a) with (fleb t a). destruct (fleb t a && p b); cbn [map]; unfold Zsum in *; cbn [fold_right]; [change (zw (a, (b, Z.of_nat k))) with (Z.of_nat k)|]; rewrite IH, Nat2Z.inj_add; reflexivity.
Qed.

Theorem clf_replicate_f64 s y ks : Forall (fun x => fisfin x = true) s -> length s = length y -> s <> [] ->
  length ks = length y -> Forall (fun k => (1 <= k)%nat) ks -> (Zsum (map Z.of_nat ks) <= 2 ^ 53)%Z ->
  exists F T th th', _binary_clf_curve y s (Some [map (fun k => f_of_Z (Z.of_nat k)) ks]) = Ok (F, T, finf :: th) /\
    _binary_clf_curve (replicate ks y) (replicate ks s) None = Ok (F, T, finf :: th') /\
    Forall2 (fun a b => feqb a b = true) th th' /\ good_rows F T (length (finf :: th)).
Proof.
  intros Fs Ls Ne Lk Pk Sk.
  destruct (clf_int s y (map Z.of_nat ks)) as (f & t & E & Ef & G); auto.
  - now rewrite map_length.
  - apply Forall_map. eapply Forall_impl; [|exact Pk]. cbn. intros; lia.
  - rewrite map_map in E. exists [f0 :: f], [f0 :: t], (thr s), (thr (replicate ks s)).
    split; [exact E|].
    assert (forall x, In x s <-> In x (replicate ks s)) as Same by (intros; symmetry; apply replicate_in; [lia|exact Pk]).
    assert (Forall (fun x => fisfin x = true) (replicate ks s)) as Fr.
    { apply Forall_forall. intros x Hx. apply Same in Hx. rewrite Forall_forall in Fs. auto. }
    pose proof (thr_same s (replicate ks s) Fs Fr Same) as TS.
    assert (forall p, map (fun t => f_of_Z (zc (combine s (combine y (map Z.of_nat ks))) p t)) (thr s) =
                      map (fun t => f_of_Z (cntZ (replicate ks s) (replicate ks y) p t)) (thr (replicate ks s))) as M.
    { intros p. clear -TS Lk Ls. induction TS as [|a b l m H F IH]; [reflexivity|]. cbn [map]. rewrite IH. f_equal. f_equal.
      rewrite zc_replicate by auto. apply cntZ_eq. exact H. }
    split.
    + rewrite (clf_unweighted (NT := f64_num)); auto.
      * rewrite !M in Ef. exact (finish_thr _ _ (thr (replicate ks s)) _ _ _ Ef).
      * rewrite !replicate_length by lia. reflexivity.
      * intros Q. destruct s as [|a s]; [congruence|]. assert (In a (replicate ks (a :: s))) by (apply Same; now left). rewrite Q in H. contradiction.
    + split; [exact TS|exact G].
Qed.
