(** Lemmas about the model of data_splitter.py. *)
From Coq Require Import Reals Lra Permutation Sorted.
From Verif Require Import PyBase F64 F64Lemmas DataSplitter.
Open Scope Z_scope.
Open Scope list_scope.

Lemma zlen_nonneg {T} (l : list T) : 0 <= zlen l.
Proof. unfold zlen. lia. Qed.

(** ** Fractions *)

Lemma f1_val : B2R f1 = 1%R /\ fisfin f1 = true.
Proof. apply (f_of_Z_correct 1). lia. Qed.

Lemma frac_ok_spec frac : frac_ok frac = true <->
  fisfin frac = true /\ (0 <= B2R frac <= 1)%R.
Proof.
  unfold frac_ok. rewrite andb_true_iff. destruct f1_val as [V1 F1].
  split.
  - intros [H0 H1]. assert (fisfin frac = true) as F.
    { destruct frac as [|[]| |]; try reflexivity; try discriminate;
      unfold f1 in H1; vm_compute in H1; discriminate. }
    split; auto. apply fleb_fin in H0; auto. apply fleb_fin in H1; auto.
    rewrite V1 in H1. simpl in H0. lra.
  - intros [F [H0 H1]]. rewrite !fleb_fin by auto. rewrite V1. simpl. lra.
Qed.

(** The float product of a fraction and a length. *)
Lemma frac_mul frac n : fisfin frac = true -> (0 <= B2R frac <= 1)%R -> 0 <= n <= 2 ^ 53 ->
  B2R (fmul frac (f_of_Z n)) = rnd64 (B2R frac * IZR n) /\
  B2R (fmul (f_of_Z n) frac) = rnd64 (B2R frac * IZR n) /\
  fisfin (fmul frac (f_of_Z n)) = true /\ fisfin (fmul (f_of_Z n) frac) = true /\
  (0 <= rnd64 (B2R frac * IZR n) <= IZR n)%R.
Proof.
  intros F R01 Hn. destruct (f_of_Z_correct n) as [Vn Fn]; [lia|].
  assert (0 <= IZR n)%R as Pn by (apply IZR_le; lia).
  assert (0 <= rnd64 (B2R frac * IZR n) <= IZR n)%R as B.
  { split.
    - apply rnd64_ge; [apply format64_0|]. nra.
    - apply rnd64_le; [apply format64_IZR; lia|]. nra. }
  assert (Rabs (rnd64 (B2R frac * IZR n)) < bpow radix2 emax64)%R as O.
  { rewrite Rabs_pos_eq by lra. apply Rle_lt_trans with (IZR n); [lra|].
    rewrite <- Vn. apply abs_lt_emax. }
  destruct (fmul_correct frac (f_of_Z n) F Fn) as [M1 M2]; [now rewrite Vn|].
  destruct (fmul_correct (f_of_Z n) frac Fn F) as [M3 M4]; [now rewrite Vn, Rmult_comm|].
  rewrite Vn in *. rewrite (Rmult_comm (IZR n)) in M3. tauto.
Qed.

Lemma Zceil_range x n : (0 <= x <= IZR n)%R -> 0 <= Zceil x <= n.
Proof.
  intros [H0 H1]. split.
  - apply le_IZR. apply Rle_trans with x; [exact H0|apply Zceil_ub].
  - apply Zceil_glb in H1. exact H1.
Qed.

Lemma Zfloor_range x n : (0 <= x <= IZR n)%R -> 0 <= Zfloor x <= n.
Proof.
  intros [H0 H1]. split.
  - apply Zfloor_lub. exact H0.
  - apply le_IZR. apply Rle_trans with x; [apply Zfloor_lb|exact H1].
Qed.

Lemma ceil_trunc x : ftruncZ (fceil x) = Zceil (B2R x).
Proof.
  unfold ftruncZ. rewrite Btrunc_spec. destruct (fceil_spec x) as [E _]. rewrite E.
  apply Ztrunc_IZR.
Qed.

Lemma trunc_floor x : (0 <= B2R x)%R -> ftruncZ x = Zfloor (B2R x).
Proof. intros H. unfold ftruncZ. rewrite Btrunc_spec. now apply Ztrunc_floor. Qed.

(** ** choice *)

Lemma flat_map_nth_seq {T} (x y : list T) :
  flat_map (fun i => match nth_error (y ++ x) i with Some a => [a] | None => [] end)
           (seq (List.length y) (List.length x)) = x.
Proof.
  revert y. induction x as [|a x IH]; intros y; [reflexivity|].
  cbn [List.length seq flat_map]. rewrite nth_error_app2 by lia. rewrite Nat.sub_diag. cbn [nth_error app].
  f_equal. specialize (IH (y ++ [a])). rewrite app_length in IH. cbn [List.length] in IH.
  rewrite Nat.add_1_r in IH. rewrite <- app_assoc in IH. exact IH.
Qed.

Definition pick {T} (x : list T) (is : list nat) : list T :=
  flat_map (fun i => match nth_error x i with Some a => [a] | None => [] end) is.

Lemma pick_length {T} (x : list T) is : (forall i, In i is -> (i < List.length x)%nat) ->
  List.length (pick x is) = List.length is.
Proof.
  induction is as [|i is IH]; intros H; [reflexivity|].
  cbn. rewrite app_length. unfold pick in IH. rewrite IH by (intros; apply H; now right).
  destruct (nth_error x i) eqn:E; [reflexivity|].
  apply nth_error_None in E. specialize (H i (or_introl eq_refl)). lia.
Qed.

Lemma choice_spec {T} (x : list T) N rng :
  x <> [] -> Permutation (rng (List.length x)) (seq 0 (List.length x)) -> 0 <= N <= zlen x ->
  exists L R, choice x N rng = Ok L /\ zlen L = N /\ Permutation (L ++ R) x /\
    L = pick x (firstn (Z.to_nat N) (rng (List.length x))).
Proof.
  intros Hx P HN. pose (L := pick x (firstn (Z.to_nat N) (rng (List.length x)))).
  exists L, (pick x (skipn (Z.to_nat N) (rng (List.length x)))).
  split; [|split; [|split]].
  - unfold choice. destruct x; [contradiction|]. reflexivity.
  - unfold zlen, L. rewrite pick_length.
    + rewrite firstn_length. apply Permutation_length in P. rewrite P, seq_length. unfold zlen in HN. lia.
    + intros i Hi. assert (In i (rng (List.length x))) as I.
      { rewrite <- (firstn_skipn (Z.to_nat N)). apply in_or_app. now left. }
      apply (Permutation_in _ P) in I. apply in_seq in I. lia.
  - unfold L, pick. rewrite <- flat_map_app, firstn_skipn.
    rewrite (Permutation_flat_map _ P).
    pose proof (flat_map_nth_seq x []) as E. cbn in E. rewrite E. reflexivity.
  - reflexivity.
Qed.

(** Number of elements taken by [rand_subset]. *)
Definition n_take (frac : f64) (n : Z) : Z := Zceil (rnd64 (B2R frac * IZR n)).

Lemma n_take_range frac n : fisfin frac = true -> (0 <= B2R frac <= 1)%R -> 0 <= n <= 2 ^ 53 ->
  0 <= n_take frac n <= n.
Proof. intros F B Hn. apply Zceil_range. now apply frac_mul. Qed.

Lemma rounding_asserts frac n : fisfin frac = true -> (0 <= B2R frac <= 1)%R -> 0 <= n <= 2 ^ 53 ->
  fleb (fmul (f_of_Z n) frac) (f_of_Z (n_take frac n)) = true /\
  fltb (f_of_Z (n_take frac n - 1)) (fmul (f_of_Z n) frac) = true.
Proof.
  intros F B Hn. destruct (frac_mul frac n F B Hn) as (_ & M & _ & FM & R).
  pose proof (n_take_range frac n F B Hn) as NR.
  destruct (f_of_Z_correct (n_take frac n)) as [V1 F1]; [lia|].
  destruct (f_of_Z_correct (n_take frac n - 1)) as [V2 F2]; [lia|].
  rewrite fleb_fin, fltb_fin by auto. rewrite V1, V2, M. split.
  - apply Zceil_ub.
  - unfold n_take. rewrite minus_IZR. pose proof (Zceil_lb (rnd64 (B2R frac * IZR n))). lra.
Qed.

Lemma rand_subset_spec {T} (x : list T) frac rng :
  x <> [] -> zlen x < 2 ^ 53 -> frac_ok frac = true ->
  Permutation (rng (List.length x)) (seq 0 (List.length x)) ->
  exists L R, rand_subset x frac rng = Ok L /\ zlen L = n_take frac (zlen x) /\ Permutation (L ++ R) x /\
    L = pick x (firstn (Z.to_nat (n_take frac (zlen x))) (rng (List.length x))).
Proof.
  intros Hx Hlen Hf P. pose proof Hf as Hf'. apply frac_ok_spec in Hf' as [F B].
  pose proof (zlen_nonneg x) as Z0.
  assert (0 <= zlen x <= 2 ^ 53) as Hn by lia.
  pose proof (n_take_range frac (zlen x) F B Hn) as NR.
  assert (ftruncZ (fceil (fmul frac (f_of_Z (zlen x)))) = n_take frac (zlen x)) as EN.
  { rewrite ceil_trunc. destruct (frac_mul frac (zlen x) F B Hn) as (M & _). now rewrite M. }
  destruct (choice_spec x (n_take frac (zlen x)) rng Hx P NR) as (L & R & C1 & C2 & C3 & C4).
  exists L, R. split; [|tauto].
  unfold rand_subset. rewrite Hf. cbn [py_assert bind]. rewrite EN.
  replace ((0 <=? n_take frac (zlen x)) && (n_take frac (zlen x) <=? zlen x)) with true
    by (symmetry; rewrite andb_true_iff; split; apply Z.leb_le; lia).
  cbn [py_assert bind]. rewrite C1. cbn [bind]. rewrite C2.
  destruct (rounding_asserts frac (zlen x) F B Hn) as [A1 A2]. rewrite A1, A2. reflexivity.
Qed.

Lemma count_memb (pos : list nat) n : NoDup pos -> (forall i, In i pos -> (i < n)%nat) ->
  count (fun b : bool => b) (map (fun i => existsb (Nat.eqb i) pos) (seq 0 n)) = zlen pos.
Proof.
  intros ND Hr. unfold count, zlen. f_equal.
  transitivity (List.length (filter (fun i => existsb (Nat.eqb i) pos) (seq 0 n))).
  - induction (seq 0 n) as [|i s IH]; [reflexivity|]. cbn.
    destruct (existsb (Nat.eqb i) pos); cbn; rewrite IH; reflexivity.
  - apply Permutation_length. apply NoDup_Permutation; auto.
    + apply NoDup_filter, seq_NoDup.
    + intros i. rewrite filter_In, in_seq, existsb_exists. split.
      * intros [_ (j & Hj & E)]. apply Nat.eqb_eq in E. now subst.
      * intros Hi. split; [specialize (Hr i Hi); lia|]. exists i. split; auto. apply Nat.eqb_refl.
Qed.

Lemma rand_mask_spec n frac rng :
  (0 < n)%nat -> Z.of_nat n < 2 ^ 53 -> frac_ok frac = true ->
  Permutation (rng n) (seq 0 n) ->
  exists pos, rand_mask n frac rng = Ok (map (fun i => existsb (Nat.eqb i) pos) (seq 0 n)) /\
    zlen pos = n_take frac (Z.of_nat n) /\ NoDup pos /\ (forall i, In i pos -> (i < n)%nat) /\
    pos = firstn (Z.to_nat (n_take frac (Z.of_nat n))) (rng n) /\
    count (fun b : bool => b) (map (fun i => existsb (Nat.eqb i) pos) (seq 0 n)) = n_take frac (Z.of_nat n).
Proof.
  intros Hn Hlen Hf P.
  assert (zlen (seq 0 n) = Z.of_nat n) as EL by (unfold zlen; now rewrite seq_length).
  destruct (rand_subset_spec (seq 0 n) frac rng) as (pos & R & S1 & S2 & S3 & S4); auto.
  { destruct n; [lia|discriminate]. }
  { lia. }
  { now rewrite seq_length. }
  rewrite EL, seq_length in *.
  assert (NoDup (pos ++ R)) as ND by (apply (Permutation_NoDup (Permutation_sym S3)), seq_NoDup).
  assert (NoDup pos) as ND1.
  { clear - ND. induction pos; [constructor|]. cbn in ND. inversion ND; subst. constructor; auto.
    intros C. apply H1. apply in_or_app. now left. }
  assert (forall i, In i pos -> (i < n)%nat) as Hr.
  { intros i Hi. assert (In i (seq 0 n)) as I by (apply (Permutation_in _ S3), in_or_app; now left).
    apply in_seq in I. lia. }
  pose proof (count_memb pos n ND1 Hr) as CM.
  exists pos. split; [|split; [auto|split; [auto|split; [auto|split; [|congruence]]]]].
  - unfold rand_mask. rewrite S1. cbn [bind]. rewrite CM, S2.
    apply frac_ok_spec in Hf as [F B].
    destruct (rounding_asserts frac (Z.of_nat n) F B) as [A1 A2]; [lia|]. rewrite A1, A2. reflexivity.
  - rewrite S4. assert (forall l, (forall i, In i l -> (i < n)%nat) -> pick (seq 0 n) l = l) as PK.
    { induction l as [|i l IH]; intros H; [reflexivity|]. cbn.
      assert (nth_error (seq 0 n) i = Some i) as E.
      { specialize (H i (or_introl eq_refl)).
        rewrite (nth_error_nth' (seq 0 n) 0%nat) by (rewrite seq_length; lia).
        f_equal. rewrite seq_nth by lia. lia. }
      rewrite E. cbn. f_equal. apply IH. intros; apply H; now right. }
    apply PK. intros i Hi. apply Hr. rewrite S4. unfold pick.
    apply in_flat_map. exists i. split; auto.
    assert (In i (seq 0 n)) as I.
    { apply (Permutation_in _ P). rewrite <- (firstn_skipn (Z.to_nat (n_take frac (Z.of_nat n)))).
      apply in_or_app. now left. }
    apply in_seq in I.
    rewrite (nth_error_nth' (seq 0 n) 0%nat) by (rewrite seq_length; lia).
    rewrite seq_nth by lia. left. lia.
Qed.

(** ** Lists of values *)

Section Values.
  Context {A : Type} (eqb leb : A -> A -> bool).
  Hypothesis eqb_ok : forall a b, eqb a b = true <-> a = b.
  Hypothesis leb_total : forall a b, leb a b = true \/ leb b a = true.
  Hypothesis leb_antisym : forall a b, leb a b = true -> leb b a = true -> a = b.
  Hypothesis leb_trans : forall a b c, leb a b = true -> leb b c = true -> leb a c = true.

  Lemma leb_refl a : leb a a = true.
  Proof. destruct (leb_total a a); assumption. Qed.

  Lemma memb_In a l : memb eqb a l = true <-> In a l.
  Proof.
    unfold memb. rewrite existsb_exists. split.
    - intros (b & I & E). apply eqb_ok in E. now subst.
    - intros I. exists a. split; auto. now apply eqb_ok.
  Qed.

  Lemma no_null_values (S : list (option A)) : existsb isnull S = false -> map Some (values S) = S.
  Proof.
    induction S as [|[a|] S IH]; intros H; cbn in *; try discriminate; auto.
    f_equal. auto.
  Qed.

  Lemma values_length (S : list (option A)) : existsb isnull S = false ->
    List.length (values S) = List.length S.
  Proof. intros H. rewrite <- (no_null_values S H) at 2. now rewrite map_length. Qed.

  Lemma unique_from_spec l : forall seen,
    NoDup (unique_from eqb seen l) /\
    (forall v, In v (unique_from eqb seen l) <-> In v l /\ ~ In v seen).
  Proof.
    induction l as [|a l IH]; intros seen; cbn.
    - split; [constructor|]. intros; tauto.
    - destruct (memb eqb a seen) eqn:M.
      + apply memb_In in M. destruct (IH seen) as [N I]. split; auto.
        intros v. rewrite I. split; [tauto|]. intros [[->|H] H']; tauto.
      + destruct (IH (a :: seen)) as [N I].
        assert (~ In a seen) as NI by (intros C; apply memb_In in C; congruence).
        split.
        * constructor; auto. rewrite I. intros [_ C]. apply C. now left.
        * intros v. cbn. rewrite I. split.
          -- intros [<-|[H1 H2]]; [tauto|]. split; auto. intros C. apply H2. now right.
          -- intros [[<-|H1] H2]; [now left|].
             destruct (eqb a v) eqn:E; [apply eqb_ok in E; now left|].
             right. split; auto. intros [->|C]; auto.
             rewrite (proj2 (eqb_ok v v) eq_refl) in E. discriminate.
  Qed.

  Lemma unique_NoDup l : NoDup (unique eqb l).
  Proof. apply unique_from_spec. Qed.
  Lemma unique_In l v : In v (unique eqb l) <-> In v l.
  Proof. unfold unique. rewrite (proj2 (unique_from_spec l [])). cbn. tauto. Qed.

  Lemma unique_from_id l : forall seen, NoDup l -> (forall v, In v l -> ~ In v seen) ->
    unique_from eqb seen l = l.
  Proof.
    induction l as [|a l IH]; intros seen N D; [reflexivity|]. cbn.
    destruct (memb eqb a seen) eqn:M.
    - apply memb_In in M. exfalso. apply (D a); [now left|auto].
    - f_equal. inversion N; subst. apply IH; auto.
      intros v I [->|C]; [contradiction|]. apply (D v); [now right|auto].
  Qed.
  Lemma unique_id l : NoDup l -> unique eqb l = l.
  Proof. intros. apply unique_from_id; auto. Qed.

  (** ** sorting *)

  Definition le_ a b := leb a b = true.
  Definition lt_ a b := leb a b = true /\ a <> b.

  Lemma insert_perm a l : Permutation (insert leb a l) (a :: l).
  Proof.
    induction l as [|b l IH]; cbn; [reflexivity|]. destruct (leb a b); [reflexivity|].
    rewrite IH. apply perm_swap.
  Qed.
  Lemma np_sort_perm l : Permutation (np_sort leb l) l.
  Proof. induction l; cbn; [reflexivity|]. rewrite insert_perm. now constructor. Qed.

  Lemma insert_sorted a l : StronglySorted le_ l -> StronglySorted le_ (insert leb a l).
  Proof.
    induction l as [|b l IH]; intros H; cbn.
    - constructor; constructor.
    - inversion H as [|? ? H1 H2]; subst. destruct (leb a b) eqn:E.
      + constructor; auto. constructor; auto. eapply Forall_impl; [|exact H2].
        intros c Hc. eapply leb_trans; eauto.
      + constructor; auto. rewrite Forall_forall in *. intros c Hc.
        apply (Permutation_in _ (insert_perm a l)) in Hc as [->|Hc]; auto.
        destruct (leb_total c b); unfold le_; auto. congruence.
  Qed.
  Lemma np_sort_sorted l : StronglySorted le_ (np_sort leb l).
  Proof. induction l; cbn; [constructor|]. now apply insert_sorted. Qed.

  Lemma dedup_cons a b l : dedup eqb (a :: b :: l) = if eqb a b then dedup eqb (b :: l) else a :: dedup eqb (b :: l).
  Proof. reflexivity. Qed.

  Lemma dedup_spec l : StronglySorted le_ l ->
    StronglySorted lt_ (dedup eqb l) /\ (forall v, In v (dedup eqb l) <-> In v l).
  Proof.
    induction l as [|a l IH]; intros H; [cbn; split; [constructor|tauto]|].
    destruct l as [|b l].
    - cbn. split; [repeat constructor|tauto].
    - inversion H as [|? ? H1 H2]; subst. specialize (IH H1) as [IS II].
      rewrite dedup_cons. destruct (eqb a b) eqn:E.
      + apply eqb_ok in E. subst b. split; auto. intros v. rewrite II. cbn. tauto.
      + assert (a <> b) as NE by (intros ->; rewrite (proj2 (eqb_ok b b) eq_refl) in E; discriminate).
        split.
        * constructor; auto. rewrite Forall_forall in *. intros c Hc. apply II in Hc. split; [now apply H2|].
          intros ->. apply NE. apply leb_antisym; [apply H2; now left|].
          inversion H1 as [|? ? H3 H4]; subst. rewrite Forall_forall in H4.
          destruct Hc as [->|Hc]; [apply leb_refl|now apply H4].
        * intros v. cbn [In]. rewrite II. cbn. tauto.
  Qed.

  Lemma np_unique_spec l : StronglySorted lt_ (np_unique eqb leb l) /\
    (forall v, In v (np_unique eqb leb l) <-> In v l).
  Proof.
    destruct (dedup_spec (np_sort leb l) (np_sort_sorted l)) as [H1 H2]. split; auto.
    intros v. unfold np_unique. rewrite H2. split; apply Permutation_in; [|symmetry]; apply np_sort_perm.
  Qed.

  Lemma lt_irrefl a : ~ lt_ a a.
  Proof. intros [_ H]. congruence. Qed.
  Lemma lt_asym a b : lt_ a b -> ~ lt_ b a.
  Proof. intros [H1 N] [H2 _]. apply N. now apply leb_antisym. Qed.

  Lemma strict_ext l : forall l', StronglySorted lt_ l -> StronglySorted lt_ l' ->
    (forall v, In v l <-> In v l') -> l = l'.
  Proof.
    induction l as [|a l IH]; intros l' S S' E.
    - destruct l' as [|b l']; auto. destruct (proj2 (E b) (or_introl eq_refl)).
    - destruct l' as [|b l']. { destruct (proj1 (E a) (or_introl eq_refl)). }
      inversion S as [|? ? S1 S2]; inversion S' as [|? ? S1' S2']; subst.
      rewrite Forall_forall in *.
      assert (a = b) as ->.
      { destruct (proj1 (E a) (or_introl eq_refl)) as [|Ia]; auto.
        destruct (proj2 (E b) (or_introl eq_refl)) as [|Ib]; auto.
        exfalso. apply (lt_asym a b); auto. }
      f_equal. apply IH; auto. intros v. split; intros I.
      + destruct (proj1 (E v) (or_intror I)) as [->|]; auto. exfalso. apply (lt_irrefl v); auto.
      + destruct (proj2 (E v) (or_intror I)) as [->|]; auto. exfalso. apply (lt_irrefl v); auto.
  Qed.

  Lemma sorted_NoDup_strict l : StronglySorted le_ l -> NoDup l -> StronglySorted lt_ l.
  Proof.
    induction l as [|a l IH]; intros S N; [constructor|].
    inversion S; inversion N; subst. constructor; auto. rewrite Forall_forall in *.
    intros b I. split; [now apply H2|]. intros ->. contradiction.
  Qed.

  Lemma strict_NoDup l : StronglySorted lt_ l -> NoDup l.
  Proof.
    induction 1 as [|a l S IH F]; constructor; auto. rewrite Forall_forall in F.
    intros I. apply (lt_irrefl a); auto.
  Qed.

  (** In a strictly increasing list exactly [i+1] elements are <= the i-th. *)
  Lemma count_le_nth l : forall i p, StronglySorted lt_ l -> nth_error l i = Some p ->
    count (fun v => leb v p) l = Z.of_nat i + 1.
  Proof.
    induction l as [|a l IH]; intros i p S E; [destruct i; discriminate|].
    inversion S as [|? ? S1 S2]; subst. rewrite Forall_forall in S2.
    destruct i as [|i]; cbn in E.
    - injection E as ->. unfold count. cbn [filter]. rewrite leb_refl.
      assert (filter (fun v => leb v p) l = []) as ->.
      { apply length_zero_iff_nil. destruct (filter (fun v => leb v p) l) as [|b f] eqn:F; auto.
        assert (In b (filter (fun v => leb v p) l)) as I by (rewrite F; now left).
        apply filter_In in I as [I Hb]. exfalso. destruct (S2 b I) as [H1 H2].
        apply H2. now apply leb_antisym. }
      unfold zlen. cbn. lia.
    - assert (In p l) as I by (eapply nth_error_In; eauto).
      unfold count in *. cbn [filter]. destruct (S2 p I) as [H1 _]. rewrite H1.
      specialize (IH i p S1 E). unfold zlen in *. cbn [List.length]. lia.
  Qed.
End Values.
