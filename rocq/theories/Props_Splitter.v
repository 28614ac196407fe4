(** Property theorems C19-C27 about data_splitter.py.  Model: DataSplitter.v. *)
From Coq Require Import Reals Lra Permutation Sorted.
From Verif Require Import PyBase F64 F64Lemmas DataSplitter SplitProofs SplitProofs2 SplitProofs3 SplitProofs4.
Open Scope Z_scope.
Open Scope list_scope.

(** ** Vocabulary *)

(** A double that is a number in [0,1]. *)
Definition is_frac (frac : f64) : Prop := is_finite frac = true /\ (0 <= B2R frac <= 1)%R.

(** The double nearest to [frac * n] (ties to even). *)
Definition float_product (frac : f64) (n : Z) : R :=
  round radix2 (FLT_exp (-1074) 53) ZnearestE (B2R frac * IZR n).

(** [np.random.permutation(n)] really is a permutation of 0..n-1. *)
Definition rng_ok (rng : nat -> list nat) : Prop := forall n, Permutation (rng n) (seq 0 n).

Record total_order {A} (eqb leb : A -> A -> bool) : Prop := {
  to_eqb : forall a b, eqb a b = true <-> a = b;
  to_total : forall a b, leb a b = true \/ leb b a = true;
  to_antisym : forall a b, leb a b = true -> leb b a = true -> a = b;
  to_trans : forall a b c, leb a b = true -> leb b c = true -> leb a c = true
}.

(** [D] lists the distinct values of [V]. *)
Definition distinct_values {A} (V D : list A) : Prop := NoDup D /\ forall v, In v D <-> In v V.

(** The hints given to a splitter are true. *)
Definition truthful {A} (leb : A -> A -> bool) (V : list A) (assume_sorted assume_unique : bool) : Prop :=
  (assume_sorted = true -> StronglySorted (fun a b => leb a b = true) V) /\
  (assume_unique = true -> NoDup V).

(** Examples use integers as values. *)
Lemma Z_order : total_order Z.eqb Z.leb.
Proof. constructor; intros; rewrite ?Z.eqb_eq, ?Z.leb_le in *; lia. Qed.

Lemma is_frac_ok frac : is_frac frac <-> frac_ok frac = true.
Proof. rewrite frac_ok_spec. reflexivity. Qed.

Lemma distinct_len {A} (V D D' : list A) : distinct_values V D -> distinct_values V D' -> zlen D = zlen D'.
Proof.
  intros [N I] [N' I']. unfold zlen. f_equal. apply Permutation_length. apply NoDup_Permutation; auto.
  intros v. now rewrite I, I'.
Qed.

(** ** C21 *)
Theorem C21_rand_subset_total :
  forall T (x : list T) frac rng, x <> [] -> zlen x < 2 ^ 53 -> is_frac frac -> rng_ok rng ->
  exists L rest, rand_subset x frac rng = Ok L /\ Permutation (L ++ rest) x
    /\ zlen L = Zceil (float_product frac (zlen x)).
Proof.
  intros T x frac rng Hx Hl Hf Hr. apply is_frac_ok in Hf.
  destruct (rand_subset_spec x frac rng Hx Hl Hf (Hr _)) as (L & R & E & N & P & _).
  exists L, R. auto.
Qed.
Print Assumptions C21_rand_subset_total.

Theorem C21_rand_mask_total :
  forall n frac rng, (0 < n)%nat -> Z.of_nat n < 2 ^ 53 -> is_frac frac -> rng_ok rng ->
  exists mask, rand_mask n frac rng = Ok mask /\ List.length mask = n
    /\ zlen (filter (fun b => b) mask) = Zceil (float_product frac (Z.of_nat n)).
Proof.
  intros n frac rng Hn Hl Hf Hr. apply is_frac_ok in Hf.
  destruct (rand_mask_spec n frac rng Hn Hl Hf (Hr n)) as (pos & E & _ & _ & _ & _ & C).
  eexists. split; [exact E|]. split; [now rewrite map_length, seq_length|exact C].
Qed.
Print Assumptions C21_rand_mask_total.

(** Every other argument raises: a fraction outside [0,1] (or NaN), an empty
    population. *)
Theorem C21_rand_subset_rejects :
  forall T (x : list T) frac rng,
  (~ is_frac frac -> rand_subset x frac rng = Err AssertionError)
  /\ (is_frac frac -> rand_subset (@nil T) frac rng = Err ValueError).
Proof.
  intros T x frac rng. split; intros H.
  - unfold rand_subset. destruct (frac_ok frac) eqn:E; [|reflexivity].
    exfalso. apply H. now apply is_frac_ok.
  - pose proof H as [F B]. unfold rand_subset. rewrite (proj1 (is_frac_ok frac) H). cbn [py_assert bind].
    rewrite ceil_trunc. destruct (frac_mul frac 0 F B) as (M & _); [lia|].
    change (zlen (@nil T)) with 0. rewrite M, Rmult_0_r, rnd64_0.
    replace (Zceil 0) with 0 by (symmetry; apply (Zceil_IZR 0)). reflexivity.
Qed.
Print Assumptions C21_rand_subset_rejects.

Example C21_case : is_frac (f_lit 8 10) /\ rng_ok (fun n => rev (seq 0 n))
  /\ rand_subset [10; 11; 12; 13; 14] (f_lit 5 10) (fun n => rev (seq 0 n)) = Ok [14; 13; 12]
  /\ rand_mask 5 (f_lit 8 10) (fun n => rev (seq 0 n)) = Ok [false; true; true; true; true].
Proof.
  split; [apply is_frac_ok; vm_compute; reflexivity|].
  split; [intros n; symmetry; apply Permutation_rev|].
  split; vm_compute; reflexivity.
Qed.

(** ** C20 *)
Lemma nth_error_ext {T} (l : list T) : forall l', (forall i, nth_error l i = nth_error l' i) -> l = l'.
Proof.
  induction l as [|a l IH]; intros [|b l'] H; auto; try (specialize (H O); discriminate).
  f_equal; [specialize (H O); cbn in H; congruence|]. apply IH. intros i. apply (H (S i)).
Qed.
Lemma no_null {A} (V : list A) : existsb isnull (map Some V) = false.
Proof. induction V; auto. Qed.
Lemma values_some {A} (V : list A) : values (map Some V) = V.
Proof. induction V; cbn; [reflexivity|]. now f_equal. Qed.

Theorem C20_random_split_groups :
  forall A eqb leb (V : list A) D frac srt uniq rng,
  total_order eqb leb -> V <> [] -> zlen V < 2 ^ 53 -> is_frac frac -> rng_ok rng ->
  (uniq = true -> NoDup V) -> distinct_values V D ->
  exists mask train_values, random_split_series eqb (map Some V) frac srt uniq rng = Ok mask
    /\ NoDup train_values /\ incl train_values V
    /\ zlen train_values = Zceil (float_product frac (zlen D))
    /\ List.length mask = List.length V
    /\ forall i v, nth_error V i = Some v -> (nth_error mask i = Some true <-> In v train_values).
Proof.
  intros A eqb leb V D frac srt uniq rng TO HV HL Hf Hr HU HD. apply is_frac_ok in Hf.
  destruct TO as [EQ _ _ _].
  unfold random_split_series. rewrite no_null, values_some. cbn [negb py_assert bind].
  assert (distinct_values V (unique eqb V)) as DU.
  { split; [now apply unique_NoDup|]. intros. now apply unique_In. }
  assert (zlen (unique eqb V) = zlen D) as EL by (eapply distinct_len; eauto).
  assert (zlen (unique eqb V) <= zlen V) as LE.
  { unfold zlen. apply inj_le. apply NoDup_incl_length; [apply DU|]. intros v. apply DU. }
  assert (unique eqb V <> []) as NE.
  { intros E. destruct V as [|v V]; [contradiction|].
    assert (In v (unique eqb (v :: V))) as I by (apply DU; now left). rewrite E in I. destruct I. }
  destruct (rand_subset_spec (unique eqb V) frac rng NE ltac:(lia) Hf (Hr _)) as (L & R & E1 & N1 & P1 & S1).
  assert (NoDup L) as NL.
  { assert (NoDup (L ++ R)) as N by (apply (Permutation_NoDup (Permutation_sym P1)); apply DU).
    clear - N. induction L; [constructor|]. cbn in N. inversion N; subst. constructor; auto.
    intros C. apply H1, in_or_app. now left. }
  assert (incl L V) as IL.
  { intros v I. apply DU. apply (Permutation_in _ P1), in_or_app. now left. }
  rewrite EL in N1.
  destruct uniq.
  - rewrite map_length. rewrite (unique_id eqb EQ V (HU eq_refl)) in *.
    assert ((0 < List.length V)%nat) as L0 by (destruct V; [contradiction|cbn; lia]).
    destruct (rand_mask_spec (List.length V) frac rng L0 HL Hf (Hr _)) as (pos & E2 & N2 & ND2 & R2 & S2 & C2).
    eexists. exists L. split; [exact E2|]. split; [auto|]. split; [auto|]. split; [exact N1|].
    split; [now rewrite map_length, seq_length|].
    intros i v Hi.
    assert ((i < List.length V)%nat) as Li by (apply nth_error_Some; congruence).
    rewrite nth_error_map. rewrite (nth_error_nth' (seq 0 (List.length V)) 0%nat) by (rewrite seq_length; lia).
    rewrite seq_nth by lia. cbn [option_map Nat.add].
    rewrite S1. change (Z.of_nat (List.length V)) with (zlen V) in S2.
    rewrite <- S2. split.
    + intros H. injection H as H. apply existsb_exists in H as (j & Ij & Ej). apply Nat.eqb_eq in Ej. subst j.
      apply in_flat_map. exists i. split; auto. rewrite Hi. now left.
    + intros H. apply in_flat_map in H as (j & Ij & Hj). destruct (nth_error V j) as [w|] eqn:Ew; [|destruct Hj].
      destruct Hj as [->|[]]. assert (j = i) as ->.
      { apply (proj1 (NoDup_nth_error V) (HU eq_refl) j i); [apply nth_error_Some; congruence|congruence]. }
      f_equal. apply existsb_exists. exists i. split; auto. apply Nat.eqb_refl.
  - rewrite E1. cbn [bind]. eexists. exists L. split; [reflexivity|]. split; [auto|]. split; [auto|]. split; [exact N1|].
    split; [apply map_length|]. intros i v Hi. rewrite nth_error_map, Hi. cbn [option_map].
    rewrite <- (memb_In eqb EQ). split; [intros H; injection H; auto|congruence].
Qed.
Print Assumptions C20_random_split_groups.

(** A null value raises. *)
Theorem C20_random_split_null :
  forall A (eqb : A -> A -> bool) S frac srt uniq rng, In None S ->
  random_split_series eqb S frac srt uniq rng = Err AssertionError.
Proof.
  intros A eqb S frac srt uniq rng I. unfold random_split_series.
  replace (existsb isnull S) with true; [reflexivity|]. symmetry. apply existsb_exists. exists None. auto.
Qed.
Print Assumptions C20_random_split_null.

Example C20_case :
  random_split_series Z.eqb (map Some [7; 3; 7; 5; 3; 9]) (f_lit 5 10) false false (fun n => rev (seq 0 n))
    = Ok [false; false; false; true; false; true]
  /\ distinct_values [7; 3; 7; 5; 3; 9] [7; 3; 5; 9] /\ total_order Z.eqb Z.leb.
Proof.
  split; [vm_compute; reflexivity|]. split; [|apply Z_order]. split.
  - repeat constructor; cbn; lia.
  - intros v. cbn. tauto.
Qed.

(** ** C22 *)
Theorem C22_assume_unique_hint :
  forall A eqb leb (V : list A) frac srt srt' rng,
  total_order eqb leb -> NoDup V -> zlen V < 2 ^ 53 -> rng_ok rng ->
  random_split_series eqb (map Some V) frac srt true rng =
  random_split_series eqb (map Some V) frac srt' false rng.
Proof.
  intros A eqb leb V frac srt srt' rng TO HU HL Hr. destruct TO as [EQ _ _ _].
  unfold random_split_series. rewrite no_null, values_some, map_length. cbn [negb py_assert bind].
  rewrite (unique_id eqb EQ V HU).
  destruct (frac_ok frac) eqn:Hf.
  2: { unfold rand_mask, rand_subset. rewrite Hf. reflexivity. }
  destruct V as [|a V'] eqn:EV.
  { unfold rand_mask. cbn [List.length seq].
    destruct (C21_rand_subset_rejects nat [] frac rng) as [_ H1].
    destruct (C21_rand_subset_rejects A [] frac rng) as [_ H2].
    rewrite H1, H2 by now apply is_frac_ok. reflexivity. }
  rewrite <- EV in *.
  assert (V <> []) as NE by (rewrite EV; discriminate).
  assert ((0 < List.length V)%nat) as L0 by (rewrite EV; cbn; lia).
  destruct (rand_subset_spec V frac rng NE HL Hf (Hr _)) as (L & R & E1 & N1 & P1 & S1).
  destruct (rand_mask_spec (List.length V) frac rng L0 HL Hf (Hr _)) as (pos & E2 & N2 & ND2 & R2 & S2 & C2).
  rewrite E1, E2. cbn [bind]. f_equal. rewrite S1. change (zlen V) with (Z.of_nat (List.length V)).
  rewrite <- S2. clear - EQ HU R2.
  apply nth_error_ext. intros i. rewrite !nth_error_map.
  destruct (nth_error V i) as [v|] eqn:Ev; cbn [option_map].
  - assert ((i < List.length V)%nat) as Li by (apply nth_error_Some; congruence).
    rewrite (nth_error_nth' (seq 0 (List.length V)) 0%nat) by (rewrite seq_length; lia).
    rewrite seq_nth by lia. cbn [option_map Nat.add]. f_equal. apply eq_true_iff_eq.
    rewrite (memb_In eqb EQ). rewrite existsb_exists. split.
    + intros (j & Ij & Ej). apply Nat.eqb_eq in Ej. subst j. apply in_flat_map. exists i. rewrite Ev. cbn. auto.
    + intros H. apply in_flat_map in H as (j & Ij & Hj). destruct (nth_error V j) as [w|] eqn:Ew; [|destruct Hj].
      destruct Hj as [->|[]]. exists i. split; [|apply Nat.eqb_refl].
      assert (j = i) as ->; auto. apply (proj1 (NoDup_nth_error V) HU j i); [apply nth_error_Some; congruence|congruence].
  - apply nth_error_None in Ev.
    rewrite (proj2 (nth_error_None (seq 0 (List.length V)) i)); [reflexivity|]. now rewrite seq_length.
Qed.
Print Assumptions C22_assume_unique_hint.

Example C22_case :
  random_split_series Z.eqb (map Some [4; 8; 1; 6]) (f_lit 6 10) false true (fun n => rev (seq 0 n))
    = Ok [false; true; true; true]
  /\ NoDup [4; 8; 1; 6].
Proof. split; [vm_compute; reflexivity|]. repeat constructor; cbn; lia. Qed.

(** ** C23 *)
Theorem C23_ordered_threshold :
  forall A eqb leb (V : list A) D frac srt uniq mask,
  total_order eqb leb -> zlen V < 2 ^ 53 -> truthful leb V srt uniq -> distinct_values V D ->
  ordered_split_series eqb leb (map Some V) frac srt uniq = Ok mask ->
  is_frac frac /\
  exists pivot, In pivot V
    /\ mask = map (fun v => leb v pivot) V
    /\ zlen (filter (fun v => leb v pivot) D) = Z.max 1 (Zceil (B2R frac * IZR (zlen D))).
Proof.
  intros A eqb leb V D frac srt uniq mask TO HL [HS HU] HD H.
  pose proof TO as [EQ TT TA TR].
  destruct (frac_ok frac) eqn:Hf.
  2: { exfalso. unfold ordered_split_series in H. rewrite no_null, Hf in H. discriminate. }
  split; [now apply is_frac_ok|].
  assert (V <> []) as NE.
  { intros ->. unfold ordered_split_series in H. rewrite Hf in H. cbn [map existsb negb py_assert bind] in H.
    assert ((if srt && uniq then values [] else if uniq then np_sort leb (values []) else np_unique eqb leb (values [])) = []) as E
      by (destruct srt, uniq; reflexivity).
    rewrite E in H. change (zlen []) with 0 in H. 
    destruct (0 <=? Z.min (ftruncZ (fmul frac (f_of_Z 0))) (0 - 1)) eqn:C; [|discriminate].
    apply Z.leb_le in C. lia. }
  assert (map Some V <> []) as NE' by (destruct V; [contradiction|discriminate]).
  destruct (ordered_split_spec eqb leb EQ TT TA TR (map Some V) frac srt uniq (no_null V) NE') as (Hn & pivot & EP & EO); auto.
  { unfold zlen in *. now rewrite map_length. }
  { rewrite values_some. exact HS. }
  { rewrite values_some. exact HU. }
  rewrite values_some in *. rewrite EO in H. clear EO.
  set (U := np_unique eqb leb V) in *.
  destruct ((piv_idx frac (zlen U) =? 0) || fltb (fdiv (f_of_Z (piv_idx frac (zlen U))) (f_of_Z (zlen U))) frac) eqn:C; [|discriminate].
  apply Ok_inj in H. destruct (np_unique_spec eqb leb EQ TT TA TR V) as [U1 U2]. fold U in U1, U2.
  exists pivot. split; [apply U2; eapply nth_error_In; eauto|]. split; [auto|].
  assert (distinct_values V U) as DU by (split; [eapply strict_NoDup; eauto|auto]).
  assert (Permutation D U) as PD by (apply NoDup_Permutation; [apply HD|apply DU|]; intros v; rewrite (proj2 HD), (proj2 DU); reflexivity).
  rewrite (distinct_len V D U HD DU).
  pose proof (count_le_nth eqb leb EQ TT TA TR U _ _ U1 EP) as CT.
  assert (zlen (filter (fun v => leb v pivot) D) = count (fun v => leb v pivot) U) as EC.
  { unfold count, zlen. f_equal. apply Permutation_length. clear - PD.
    induction PD; cbn; auto.
    - destruct (leb x pivot); auto.
    - destruct (leb x pivot), (leb y pivot); auto. apply perm_swap.
    - eapply perm_trans; eauto. }
  apply frac_ok_spec in Hf as [F B].
  pose proof (piv_idx_range frac (zlen U) F B ltac:(lia)) as PR.
  rewrite EC, CT, Z2Nat.id by lia. apply n_train_exact; auto. lia.
Qed.
Print Assumptions C23_ordered_threshold.

Example C23_case :
  ordered_split_series Z.eqb Z.leb (map Some [30; 10; 20; 10; 40; 50]) (f_lit 5 10) false false
    = Ok [true; true; true; true; false; false]
  /\ truthful Z.leb [30; 10; 20; 10; 40; 50] false false
  /\ distinct_values [30; 10; 20; 10; 40; 50] [10; 20; 30; 40; 50].
Proof.
  split; [vm_compute; reflexivity|]. split; [split; discriminate|]. split.
  - repeat constructor; cbn; lia.
  - intros v. cbn. tauto.
Qed.

(** ** C24 (refuted as first stated: not every valid fraction is accepted) *)

(** Exactly when the code raises. *)
Theorem C24_ordered_raises_iff :
  forall A eqb leb (V : list A) D frac srt uniq,
  total_order eqb leb -> V <> [] -> zlen V < 2 ^ 53 -> is_frac frac ->
  truthful leb V srt uniq -> distinct_values V D ->
  let n := zlen D in
  let k := Z.min (Zfloor (float_product frac n)) (n - 1) in
  (ordered_split_series eqb leb (map Some V) frac srt uniq = Err AssertionError <->
     1 <= k /\ (B2R frac <= round radix2 (FLT_exp (-1074) 53) ZnearestE (IZR k / IZR n))%R)
  /\ (forall e, ordered_split_series eqb leb (map Some V) frac srt uniq = Err e -> e = AssertionError).
Proof.
  intros A eqb leb V D frac srt uniq TO NE HL Hf [HS HU] HD n k.
  pose proof TO as [EQ TT TA TR]. apply is_frac_ok in Hf.
  assert (map Some V <> []) as NE' by (destruct V; [contradiction|discriminate]).
  destruct (ordered_split_spec eqb leb EQ TT TA TR (map Some V) frac srt uniq (no_null V) NE') as (Hn & pivot & EP & EO); auto.
  { unfold zlen in *. now rewrite map_length. }
  { rewrite values_some. exact HS. }
  { rewrite values_some. exact HU. }
  rewrite values_some in *. rewrite EO. clear EO.
  set (U := np_unique eqb leb V) in *.
  destruct (np_unique_spec eqb leb EQ TT TA TR V) as [U1 U2]. fold U in U1, U2.
  assert (distinct_values V U) as DU by (split; [eapply strict_NoDup; eauto|auto]).
  assert (zlen U = n) as EL by (apply (distinct_len V); auto). rewrite EL in *.
  change (piv_idx frac n) with k in *. apply frac_ok_spec in Hf as [F B].
  pose proof (piv_idx_range frac n F B ltac:(lia)) as PR. change (piv_idx frac n) with k in PR.
  pose proof (fdiv_lt_frac k n frac F ltac:(lia) ltac:(lia)) as L.
  change (SpecFloat.fexp prec64 emax64) with (FLT_exp (-1074) 53) in L.
  destruct (Z.eqb_spec k 0) as [E0|E0]; cbn [orb].
  - split; [|discriminate]. split; [discriminate|]. lia.
  - destruct (fltb (fdiv (f_of_Z k) (f_of_Z n)) frac).
    + split; [|discriminate]. split; [discriminate|]. intros [_ C]. destruct L as [L _]. specialize (L eq_refl). lra.
    + split; [|intros e H; inversion H; auto]. split; auto. intros _. split; [lia|].
      destruct (Rle_lt_dec (B2R64 frac) (round radix2 (FLT_exp (-1074) 53) ZnearestE (IZR k / IZR n))) as [|C]; auto.
      apply L in C. discriminate.
Qed.
Print Assumptions C24_ordered_raises_iff.

(** Every fraction that divides the distinct values exactly is rejected. *)
Theorem C24_exact_fraction_rejected :
  forall A eqb leb (V : list A) D frac srt uniq k,
  total_order eqb leb -> zlen V < 2 ^ 53 -> is_frac frac ->
  truthful leb V srt uniq -> distinct_values V D ->
  1 <= k < zlen D -> (B2R frac * IZR (zlen D) = IZR k)%R ->
  ordered_split_series eqb leb (map Some V) frac srt uniq = Err AssertionError.
Proof.
  intros A eqb leb V D frac srt uniq k TO HL Hf [HS HU] HD Hk E.
  pose proof TO as [EQ TT TA TR]. apply is_frac_ok in Hf.
  assert (map Some V <> []) as NE'.
  { destruct V; [|discriminate]. exfalso. destruct D as [|d D]; [cbn in Hk; lia|].
    destruct (proj1 (proj2 HD d) (or_introl eq_refl)). }
  destruct (ordered_split_spec eqb leb EQ TT TA TR (map Some V) frac srt uniq (no_null V) NE') as (Hn & pivot & EP & EO); auto.
  { unfold zlen in *. now rewrite map_length. }
  { rewrite values_some. exact HS. }
  { rewrite values_some. exact HU. }
  rewrite values_some in *. rewrite EO. clear EO.
  set (U := np_unique eqb leb V) in *.
  destruct (np_unique_spec eqb leb EQ TT TA TR V) as [U1 U2]. fold U in U1, U2.
  assert (distinct_values V U) as DU by (split; [eapply strict_NoDup; eauto|auto]).
  assert (zlen U = zlen D) as EL by (apply (distinct_len V); auto). rewrite EL in *.
  apply frac_ok_spec in Hf as [F B].
  rewrite (ordered_exact_fails frac (zlen D) k F B); auto; lia.
Qed.
Print Assumptions C24_exact_fraction_rejected.

(** The end points 0 and 1 are always accepted. *)
Theorem C24_endpoints_accepted :
  forall A eqb leb (V : list A) frac srt uniq,
  total_order eqb leb -> V <> [] -> zlen V < 2 ^ 53 -> truthful leb V srt uniq ->
  is_finite frac = true -> (B2R frac = 0 \/ B2R frac = 1)%R ->
  exists mask, ordered_split_series eqb leb (map Some V) frac srt uniq = Ok mask
    /\ (B2R frac = 1%R -> mask = map (fun _ => true) V).
Proof.
  intros A eqb leb V frac srt uniq TO NE HL [HS HU] F E01.
  pose proof TO as [EQ TT TA TR].
  assert (frac_ok frac = true) as Hf by (apply is_frac_ok; split; auto; lra).
  assert (map Some V <> []) as NE' by (destruct V; [contradiction|discriminate]).
  destruct (ordered_split_spec eqb leb EQ TT TA TR (map Some V) frac srt uniq (no_null V) NE') as (Hn & pivot & EP & EO); auto.
  { unfold zlen in *. now rewrite map_length. }
  { rewrite values_some. exact HS. }
  { rewrite values_some. exact HU. }
  rewrite values_some in *. rewrite EO. clear EO.
  set (U := np_unique eqb leb V) in *.
  destruct (np_unique_spec eqb leb EQ TT TA TR V) as [U1 U2]. fold U in U1, U2.
  destruct E01 as [E|E].
  - rewrite (ordered_zero_accepts frac (zlen U) E) by lia. eexists. split; [reflexivity|]. lra.
  - rewrite (ordered_one_accepts frac (zlen U) F E) by lia. eexists. split; [reflexivity|]. intros _.
    apply map_ext_in. intros v I. apply U2 in I.
    assert (piv_idx frac (zlen U) = zlen U - 1) as PI.
    { unfold piv_idx. rewrite E, Rmult_1_l, rnd64_id by (apply format64_IZR; lia). rewrite Zfloor_IZR. lia. }
    rewrite PI in EP.
    pose proof (count_le_nth eqb leb EQ TT TA TR U _ _ U1 EP) as CT.
    destruct (leb v pivot) eqn:C; auto. exfalso.
    unfold count, zlen in CT.
    assert (List.length (filter (fun v => leb v pivot) U) < List.length U)%nat; [|unfold zlen in Hn; lia].
    clear - I C. induction U as [|a U IH]; [destruct I|]. cbn. destruct I as [->|I].
    + rewrite C. assert (List.length (filter (fun v => leb v pivot) U) <= List.length U)%nat; [|lia].
      clear. induction U; cbn; [lia|]. destruct (leb _ _); cbn; lia.
    + specialize (IH I). destruct (leb a pivot); cbn; lia.
Qed.
Print Assumptions C24_endpoints_accepted.

(** Ten rows, frac = 0.8: the call raises AssertionError. *)
Theorem C24_ordered_accepts_all_refuted :
  exists (V : list Z) frac, V <> [] /\ is_frac frac /\ total_order Z.eqb Z.leb
    /\ ordered_split_series Z.eqb Z.leb (map Some V) frac false false = Err AssertionError.
Proof.
  exists [0; 1; 2; 3; 4; 5; 6; 7; 8; 9], (f_lit 8 10).
  split; [discriminate|]. split; [apply is_frac_ok; vm_compute; reflexivity|]. split; [apply Z_order|].
  vm_compute. reflexivity.
Qed.
Print Assumptions C24_ordered_accepts_all_refuted.

Example C24_case : ordered_split_series Z.eqb Z.leb (map Some [3; 1; 2; 4]) (f_lit 1 2) false true = Err AssertionError
  /\ (B2R (f_lit 1 2) * IZR (zlen [1; 2; 3; 4]%Z) = IZR 2)%R.
Proof.
  split; [vm_compute; reflexivity|].
  replace (f_lit 1 2) with (f_of_me 1 (-1)) by (apply B2SF_inj; vm_compute; reflexivity).
  replace (B2R (f_of_me 1 (-1))) with (/ 2)%R.
  - change (zlen [1; 2; 3; 4]) with 4. lra.
  - symmetry. assert (B2SF (f_of_me 1 (-1)) = SpecFloat.S754_finite false 4503599627370496 (-53)) as E by (vm_compute; reflexivity).
    rewrite <- SF2R_B2SF, E. unfold SF2R, F2R. cbn [Fnum Fexp cond_Zopp].
    change (-53) with (- (53)). rewrite bpow_opp, <- (IZR_Zpower radix2 53) by lia.
    change (radix2 ^ 53) with 9007199254740992. lra.
Qed.

(** ** C25 *)
Theorem C25_ordered_hints :
  forall A eqb leb (V : list A) frac srt uniq,
  total_order eqb leb -> truthful leb V srt uniq ->
  ordered_split_series eqb leb (map Some V) frac srt uniq =
  ordered_split_series eqb leb (map Some V) frac false false.
Proof.
  intros A eqb leb V frac srt uniq [EQ TT TA TR] [HS HU].
  unfold ordered_split_series. rewrite !values_some.
  fold (cases eqb leb V srt uniq). fold (cases eqb leb V false false).
  rewrite (cases_same eqb leb EQ TT TA TR V srt uniq) by auto.
  rewrite (cases_same eqb leb EQ TT TA TR V false false) by discriminate. reflexivity.
Qed.
Print Assumptions C25_ordered_hints.

Theorem C25_linear_hints :
  forall S frac srt uniq, S <> [] ->
  (srt = true -> StronglySorted (fun a b => fleb a b = true) S) ->
  linear_split_series S frac srt uniq = linear_split_series S frac false false.
Proof. exact linear_hint. Qed.
Print Assumptions C25_linear_hints.

Example C25_case :
  truthful Z.leb [1; 3; 8] true true /\
  ordered_split_series Z.eqb Z.leb (map Some [1; 3; 8]) (f_lit 1 2) true true = Ok [true; true; false]
  /\ StronglySorted (fun a b => fleb a b = true) [B754_zero false; B754_zero true; f_of_Z 3]
  /\ linear_split_series [B754_zero false; B754_zero true; f_of_Z 3] (f_lit 1 2) true true = Ok [true; true; false].
Proof.
  split.
  { split; intros _; repeat constructor; cbn; lia. }
  split; [vm_compute; reflexivity|]. split; [|vm_compute; reflexivity].
  repeat constructor; vm_compute; reflexivity.
Qed.

(** ** C26 *)
Theorem C26_linear_total :
  forall (S : list f64) frac srt uniq, S <> [] -> (forall v, In v S -> is_finite v = true) -> is_frac frac ->
  (srt = true -> StronglySorted (fun a b => fleb a b = true) S) ->
  exists pivot lo hi : f64, is_finite pivot = true /\ In lo S /\ In hi S
    /\ (forall v, In v S -> (B2R lo <= B2R v <= B2R hi)%R)
    /\ (B2R lo <= B2R pivot <= B2R hi)%R
    /\ exists mask, linear_split_series S frac srt uniq = Ok mask
       /\ List.length mask = List.length S
       /\ (forall i v, nth_error S i = Some v -> (nth_error mask i = Some true <-> (B2R v <= B2R pivot)%R))
       /\ (B2R frac = 1%R -> B2R pivot = B2R hi)
       /\ (B2R frac = 0%R -> B2R pivot = B2R lo).
Proof.
  intros S frac srt uniq HE HF Hf HS. pose proof Hf as [F B]. apply is_frac_ok in Hf.
  destruct (linear_split_spec S frac srt uniq HE HF Hf HS) as (s & e & _ & Is & Ie & M & E).
  assert (fisfin s = true) as Fs by (apply HF; auto). assert (fisfin e = true) as Fe by (apply HF; auto).
  destruct (linear_pivot_range s e frac Fs Fe ltac:(apply (M e Ie)) F B) as [FP R].
  exists (linear_pivot s e frac), s, e. repeat (split; [auto|]).
  eexists. split; [exact E|]. split; [apply map_length|]. split; [|split].
  - intros i v Hi. rewrite nth_error_map, Hi. cbn [option_map].
    rewrite <- fleb_fin; [|apply HF; eapply nth_error_In; eauto|exact FP].
    split; [intros H; injection H; auto|congruence].
  - intros E1. apply linear_pivot_one; auto. apply (M e Ie).
  - intros E0. apply linear_pivot_zero; auto. apply (M e Ie).
Qed.
Print Assumptions C26_linear_total.

(** The interpolation overflows to infinity and is clipped. *)
Example C26_case :
  linear_split_series [Bmax_float; Bmax_float] (f_lit 1 3) false false = Ok [true; true]
  /\ linear_split_series [f_of_Z 1; f_of_Z 2; f_of_Z 10] (f_lit 1 2) false false = Ok [true; true; false]
  /\ is_frac (f_lit 1 3).
Proof.
  split; [vm_compute; reflexivity|]. split; [vm_compute; reflexivity|]. apply is_frac_ok; vm_compute; reflexivity.
Qed.

(** ** C19 *)

(** Rows [is] of a frame, in that order. *)
Definition rows {A} (df : frame A) (is : list nat) : frame A :=
  let take {T} (l : list T) := flat_map (fun i => match nth_error l i with Some a => [a] | None => [] end) is in
  Frame (take (d_index df)) (map (fun c => (fst c, take (snd c))) (d_cols df)).

Definition well_formed {A} (df : frame A) : Prop :=
  Forall (fun c => List.length (snd c) = List.length (d_index df)) (d_cols df).

Theorem C19_split_df_partition :
  forall A eqb leb to_f (df : frame A) splits au asrt rngs tr te un,
  well_formed df ->
  split_df eqb leb to_f df splits au asrt rngs = Ok (tr, te, un) ->
  exists masks,
    split_masks eqb leb to_f df au asrt rngs 0 splits masks /\
    Forall (fun m => List.length m = List.length (d_index df)) masks /\
    let n := List.length (d_index df) in
    let in_train i := forallb (fun m => nth i m false) masks in
    let in_test i := forallb (fun m => negb (nth i m false)) masks in
    tr = rows df (filter in_train (seq 0 n)) /\
    te = rows df (filter in_test (seq 0 n)) /\
    un = rows df (filter (fun i => negb (in_train i || in_test i)) (seq 0 n)) /\
    (forall i, in_train i && in_test i = false) /\
    (List.length splits = 1%nat -> d_index un = []).
Proof.
  intros A eqb leb to_f df splits au asrt rngs tr te un W H.
  destruct (split_df_inv _ _ _ _ _ _ _ _ _ H) as (HD & HS & HC & ms & HM).
  exists ms. split; auto. split; [eapply split_masks_length; eauto|].
  pose proof (split_df_spec eqb leb to_f df splits au asrt rngs ms W HD HS HC HM) as E.
  cbv zeta in E. rewrite E in H. apply Ok_inj in H. injection H as <- <- <-.
  assert (forall i, all_in ms i && all_out ms i = false) as DJ.
  { intros i. destruct splits, ms; cbn in HM; try contradiction. unfold all_in, all_out. cbn.
    destruct (nth i l false); cbn; auto. apply andb_false_r. }
  cbv zeta. split; [reflexivity|]. split; [reflexivity|]. split; [reflexivity|]. split; [exact DJ|].
  intros L1. destruct splits as [|sp [|]]; try discriminate. destruct ms as [|m [|]]; cbn in HM; try tauto.
  cbn [d_index sub_frame]. replace (where_ _ _) with (@nil nat); [reflexivity|]. symmetry.
  unfold where_, all_in, all_out. cbn [forallb].
  induction (seq 0 (List.length (d_index df))) as [|i l IH]; [reflexivity|]. cbn [filter].
  destruct (nth i m false); cbn [negb andb orb]; exact IH.
Qed.
Print Assumptions C19_split_df_partition.

(** split_df itself adds no failure: if every column split succeeds, so does
    split_df. *)
Theorem C19_split_df_total :
  forall A eqb leb to_f (df : frame A) splits au asrt rngs masks,
  well_formed df -> d_index df <> [] -> splits <> [] -> ~ In None (map fst (d_cols df)) ->
  split_masks eqb leb to_f df au asrt rngs 0 splits masks ->
  exists r, split_df eqb leb to_f df splits au asrt rngs = Ok r.
Proof.
  intros A eqb leb to_f df splits au asrt rngs masks W HD HS HC HM. eexists.
  apply (split_df_spec eqb leb to_f df splits au asrt rngs masks W HD HS HC HM).
Qed.
Print Assumptions C19_split_df_total.

Definition example_df : frame Z :=
  Frame (map Some [0; 1; 2; 3; 4])
        [(Some (str "a"), map Some [5; 6; 7; 8; 9]); (Some (str "b"), map Some [2; 2; 1; 1; 3])].
Example C19_case :
  well_formed example_df /\
  split_df Z.eqb Z.leb f_of_Z example_df
    [(Some (str "a"), (str "linear", f_lit 1 2)); (Some (str "b"), (str "ordered", f_lit 1 2))] [] []
    (fun _ n => seq 0 n)
  = Ok (Frame (map Some [0; 1; 2]) [(Some (str "a"), map Some [5; 6; 7]); (Some (str "b"), map Some [2; 2; 1])],
        Frame (map Some [4]) [(Some (str "a"), map Some [9]); (Some (str "b"), map Some [3])],
        Frame (map Some [3]) [(Some (str "a"), map Some [8]); (Some (str "b"), map Some [1])]).
Proof. split; [repeat constructor|]. vm_compute. reflexivity. Qed.

(** ** C27 (refuted as first stated: build_lag_df never returns) *)
Theorem C27_build_lag_df_never_returns :
  forall A (df : frame A) n_lags stride features,
  exists e, build_lag_df df n_lags stride features = Err e /\ (e = TypeError \/ e = KeyError)
    /\ (features = None -> e = TypeError).
Proof.
  intros A df n_lags stride features. unfold build_lag_df.
  destruct (lag_frame df n_lags stride features) as [D|e] eqn:E.
  - exists TypeError. cbn. auto.
  - exists e. split; [reflexivity|]. unfold lag_frame in E. destruct features as [fs|]; [|discriminate].
    match type of E with bind ?x _ = _ => destruct x as [?|e'] eqn:M end; [discriminate|]. cbn in E. injection E as ->.
    split; [right|discriminate].
    revert M. induction fs as [|f fs IH]; cbn; [discriminate|].
    destruct (col_get (d_cols df) f); cbn; [|congruence].
    match goal with |- bind ?x _ = _ -> _ => destruct x end; cbn; [discriminate|]. intros H. apply IH. congruence.
Qed.
Print Assumptions C27_build_lag_df_never_returns.

Theorem C27_build_lag_df_returns_refuted :
  exists (df : frame Z) n_lags, well_formed df /\ 1 <= n_lags /\
    forall r, build_lag_df df n_lags 1 None <> Ok r.
Proof.
  exists example_df, 2. split; [repeat constructor|]. split; [lia|]. intros r. cbn. discriminate.
Qed.
Print Assumptions C27_build_lag_df_returns_refuted.

(** The lag blocks that it builds before failing are right: row [i] of the
    lag-[k] block is row [i - stride*k] of the frame, or null. *)
Theorem C27_lag_blocks :
  forall A (df : frame A) n_lags stride k name col i,
  1 <= k < n_lags -> In (name, col) (d_cols df) -> (i < List.length col)%nat ->
  exists D block c, lag_frame df n_lags stride None = Ok D /\ In (k, block) D /\ In (name, c) block /\
    List.length c = List.length col /\
    (0 <= Z.of_nat i - stride * k < zlen col -> nth_error c i = nth_error col (Z.to_nat (Z.of_nat i - stride * k))) /\
    (~ (0 <= Z.of_nat i - stride * k < zlen col) -> nth_error c i = Some None).
Proof.
  intros A df n_lags stride k name col i Hk HI Hi. unfold lag_frame. cbn [bind].
  eexists. eexists. exists (shift (stride * k) col). split; [reflexivity|]. split; [|split; [|split; [|split]]].
  - right. apply in_map_iff. exists (Z.to_nat k). split; [|apply in_seq; lia].
    rewrite Z2Nat.id by lia. reflexivity.
  - apply in_map_iff. exists (name, col). auto.
  - apply shift_length.
  - intros R. rewrite shift_nth by auto.
    replace (0 <=? Z.of_nat i - stride * k) with true by (symmetry; apply Z.leb_le; lia).
    replace (Z.of_nat i - stride * k <? zlen col) with true by (symmetry; apply Z.ltb_lt; lia). reflexivity.
  - intros R. rewrite shift_nth by auto.
    destruct (Z.leb_spec 0 (Z.of_nat i - stride * k)); destruct (Z.ltb_spec (Z.of_nat i - stride * k) (zlen col));
      cbn [andb]; auto. lia.
Qed.
Print Assumptions C27_lag_blocks.

Example C27_case : In (Some (str "a"), map Some [5; 6; 7; 8; 9]) (d_cols example_df) /\
  shift 2 (map Some [5; 6; 7; 8; 9]) = [None; None; Some 5; Some 6; Some 7].
Proof. split; [now left|reflexivity]. Qed.
