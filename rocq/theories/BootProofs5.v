(** Exact arithmetic versions, p-value counts, resampling weights. *)
From Coq Require Import Reals Lra Permutation Sorted.
From Flocq Require Import Core BinarySingleNaN.
From Verif Require Import PyBase F64 F64Lemmas Num NumOk Util UtilProofs ListLemmas UtilProofs2 BootUtil
  BootProofs BootProofs2 BootProofs3 BootProofs4 SumProofs.
Open Scope R_scope.

(** ** Exact arithmetic *)

Lemma Reqb_neq x y : x <> y -> Reqb x y = false.
Proof. intros H. destruct (Reqb x y) eqn:E; auto. apply Reqb_spec in E. contradiction. Qed.
Lemma xdiv_fin x y : y <> 0 -> xdiv (Fin x) (Fin y) = Fin (x / y).
Proof. intros H. cbn. now rewrite Reqb_neq. Qed.

Lemma in01_xr c : in01 c = true -> exists r, c = Fin r /\ 0 < r < 1.
Proof.
  unfold in01. rewrite andb_true_iff. cbn [nltb n0 n1 xr_num]. intros [H1 H2].
  destruct c as [r| | |]; cbn in H1, H2; try discriminate. apply Rltb_spec in H1. apply Rltb_spec in H2. eauto.
Qed.
Lemma in01_xr_intro r : 0 < r < 1 -> in01 (Fin r) = true.
Proof.
  intros H. unfold in01. cbn [nltb n0 n1 xr_num xltb]. apply andb_true_iff. split; apply Rltb_spec; lra.
Qed.

Lemma nhalf_xr' : (nhalf : xr) = Fin (/ 2).
Proof. unfold nhalf. cbn [ndiv n1 nofZ xr_num]. rewrite xdiv_fin by lra. f_equal. lra. Qed.

Lemma qlo_xr c : (qlo (Fin c) : xr) = Fin ((1 - c) / 2).
Proof.
  unfold qlo, lbp, alpha_. rewrite nhalf_xr'. cbn [ndiv nmul nsub n1 nofZ xr_num xsub xopp xadd xmul].
  rewrite xdiv_fin by lra. f_equal. field.
Qed.
Lemma qhi_xr c : (qhi (Fin c) : xr) = Fin (1 - (1 - c) / 2).
Proof.
  unfold qhi, ubp, alpha_. rewrite nhalf_xr'. cbn [ndiv nmul nsub n1 nofZ xr_num xsub xopp xadd xmul].
  rewrite xdiv_fin by lra. f_equal. field.
Qed.
Lemma kL_xr c n : kL (Fin c) n = Zfloor ((1 - c) / 2 * (IZR n - 1)).
Proof. unfold kL, xlo. rewrite qlo_xr. cbn [nmul nofZ nfloorZ xr_num xmul]. now rewrite minus_IZR. Qed.
Lemma kU_xr c n : kU (Fin c) n = Zceil ((1 - (1 - c) / 2) * (IZR n - 1)).
Proof. unfold kU, xhi. rewrite qhi_xr. cbn [nmul nofZ nceilZ xr_num xmul]. now rewrite minus_IZR. Qed.

Lemma idx_ok_xr (c : xr) n : in01 c = true -> (1 <= n)%Z -> idx_ok c n.
Proof.
  intros C N. destruct (in01_xr c C) as (r & -> & B). unfold idx_ok. rewrite qlo_xr, qhi_xr, kL_xr, kU_xr.
  cbn [nltb n0 n1 xr_num xltb]. rewrite !Rltb_false.
  assert (1 <= IZR n) as Nn by now apply IZR_le.
  assert (0 <= (1 - r) / 2 * (IZR n - 1)) by (apply Rmult_le_pos; lra).
  assert ((1 - r) / 2 * (IZR n - 1) <= (1 - (1 - r) / 2) * (IZR n - 1)) by (apply Rmult_le_compat_r; lra).
  assert ((1 - (1 - r) / 2) * (IZR n - 1) <= 1 * (IZR n - 1)) by (apply Rmult_le_compat_r; lra).
  repeat split; try lra.
  - now apply Zfloor_lub.
  - apply le_IZR. eapply Rle_trans; [apply Zfloor_lb|]. eapply Rle_trans; [|apply Zceil_ub]. auto.
  - assert (Zceil ((1 - (1 - r) / 2) * (IZR n - 1)) <= n - 1)%Z; [|lia]. apply Zceil_glb. rewrite minus_IZR. lra.
Qed.

Lemma idx_err_xr r n : 0 < r < 1 -> (1 <= n)%Z -> idx_err (Fin r) n ((1 - r) / 2) 0.
Proof.
  intros B N. unfold idx_err. rewrite kL_xr, kU_xr. rewrite !minus_IZR.
  pose proof (Zfloor_lb ((1 - r) / 2 * (IZR n - 1))). pose proof (Zfloor_ub ((1 - r) / 2 * (IZR n - 1))).
  pose proof (Zceil_ub ((1 - (1 - r) / 2) * (IZR n - 1))). pose proof (Zceil_lb ((1 - (1 - r) / 2) * (IZR n - 1))).
  repeat split; lra.
Qed.

Lemma rate_xr k n : (1 <= n)%nat -> (rate k n : xr) = Fin (INR k / INR n).
Proof.
  intros N. unfold rate. cbn [ndiv nofZ xr_num]. rewrite xdiv_fin; [now rewrite !INR_IZR_INZ|].
  apply not_0_IZR. lia.
Qed.
Lemma nmin_xr x y : nmin (Fin x) (Fin y) = Fin (Rmin x y).
Proof.
  unfold nmin. cbn [nleb nisnan xr_num xleb xisnan]. rewrite orb_false_r. destruct (Rleb x y) eqn:E.
  - apply Rleb_spec in E. now rewrite Rmin_left.
  - apply Rleb_false in E. rewrite Rmin_right; auto; lra.
Qed.

Lemma sig_xr b r p : significance b (Scalar r) = Ok p -> b <> [] ->
  p = Fin (Rmin 1 (2 * Rmin (INR (cnt_le b r) / INR (length b)) (INR (cnt_ge b r) / INR (length b)))).
Proof.
  intros H NE. destruct (significance_scalar_inv _ _ _ H) as (O & Nr & ->).
  assert (1 <= length b)%nat by (destruct b; cbn; [congruence|lia]).
  rewrite !rate_xr by auto. rewrite nmin_xr. cbn [nmul nofZ n1 xr_num xmul]. apply nmin_xr.
Qed.

Lemma rate_err_xr n : rate_err (fun k => INR k / INR n) n 0.
Proof. split; [lra|]. intros. lra. Qed.

Lemma sig_lt_xr b r p c : significance b (Scalar r) = Ok p -> b <> [] -> c < 1 -> 0 < c ->
  (nltb p (nsub n1 (Fin c)) = true <->
   Rmin (INR (cnt_le b r) / INR (length b)) (INR (cnt_ge b r) / INR (length b)) < (1 - c) / 2).
Proof.
  intros H NE C C0. rewrite (sig_xr _ _ _ H NE). cbn [nltb nsub n1 xr_num xsub xopp xadd xltb]. rewrite Rltb_spec.
  set (m := Rmin (_ / _) _). unfold Rmin. destruct (Rle_dec 1 (2 * m)); split; intros; lra.
Qed.

Theorem out_xr (b : list xr) c lb ub r p : percentile b c = Ok (lb, ub) ->
  significance b (Scalar r) = Ok p -> nltb r lb || nltb ub r = true -> nltb p (nsub n1 c) = true.
Proof.
  intros P S H. pose proof (percentile_nonempty _ _ _ _ P) as NE.
  destruct (percentile_unfold _ _ _ _ P) as (O & C & _). destruct (in01_xr c C) as (q & -> & B).
  assert (b <> []) as NE' by (destruct b; cbn in NE; [lia|discriminate]).
  apply (sig_lt_xr b r p q S NE'); try lra.
  refine (coh_out b (Fin q) lb ub r _ 0 0 (fun k => INR k / INR (length b)) P (idx_ok_xr _ _ C _)
            (idx_err_xr q _ B _) (rate_err_xr _) _ H); try lia. lra.
Qed.
Theorem in_xr (b : list xr) c lb ub r p : percentile b c = Ok (lb, ub) ->
  significance b (Scalar r) = Ok p -> nltb p (nsub n1 c) = true ->
  (forall v, In v b -> nleb v r = true -> nleb v lb = true) \/
  (forall v, In v b -> nleb r v = true -> nleb ub v = true).
Proof.
  intros P S H. pose proof (percentile_nonempty _ _ _ _ P) as NE.
  destruct (percentile_unfold _ _ _ _ P) as (O & C & _). destruct (in01_xr c C) as (q & -> & B).
  assert (b <> []) as NE' by (destruct b; cbn in NE; [lia|discriminate]).
  apply (sig_lt_xr b r p q S NE') in H; try lra.
  refine (coh_in b (Fin q) lb ub r _ 0 0 (fun k => INR k / INR (length b)) P (idx_ok_xr _ _ C _)
            (idx_err_xr q _ B _) (rate_err_xr _) _ H); try lia. lra.
Qed.
Theorem inv_xr (b : list xr) r p : significance b (Scalar r) = Ok p -> b <> [] ->
  nltb n0 p = true -> nltb p n1 = true ->
  exists lb ub, percentile b (nsub n1 p) = Ok (lb, ub) /\ nleb lb r = true /\ nleb r ub = true.
Proof.
  intros S NE P0 P1. assert (1 <= length b)%nat as Hl by (destruct b; cbn; [congruence|lia]).
  pose proof (sig_xr _ _ _ S NE) as V. destruct (significance_scalar_inv _ _ _ S) as (O & Nr & _).
  rewrite V in *. cbn [nltb n0 n1 xr_num xltb nsub xsub xopp xadd] in *. apply Rltb_spec in P0. apply Rltb_spec in P1.
  assert (0 < INR (length b)) as Hn by (apply lt_0_INR; lia). assert (0 < / INR (length b)) as Hi by now apply Rinv_0_lt_compat.
  assert (Rmin (INR (cnt_le b r) / INR (length b)) (INR (cnt_ge b r) / INR (length b))
          = INR (Nat.min (cnt_le b r) (cnt_ge b r)) / INR (length b)) as Hm.
  { destruct (Nat.le_ge_cases (cnt_le b r) (cnt_ge b r)) as [L|L].
    - rewrite Nat.min_l by auto. apply Rmin_left. apply Rmult_le_compat_r; [lra|]. now apply le_INR.
    - rewrite Nat.min_r by auto. apply Rmin_right. apply Rmult_le_compat_r; [lra|]. now apply le_INR. }
  rewrite Hm in *. set (cnt := Nat.min _ _) in *. set (q := INR cnt / INR (length b)) in *.
  assert (Rmin 1 (2 * q) = 2 * q /\ 0 < 2 * q < 1) as [E B].
  { unfold Rmin in *. destruct (Rle_dec 1 (2 * q)); lra. }
  rewrite E in *. set (c := 1 + - (2 * q)) in *.
  assert (0 < c < 1) as Bc by (unfold c; lra). pose proof (in01_xr_intro c Bc) as Ic.
  assert (1 <= Z.of_nat (length b))%Z as NN by lia.
  pose proof (idx_ok_xr (Fin c) _ Ic NN) as K.
  destruct (percentile_total b (Fin c) O Ic K) as (i & j & lb & ub & P & _).
  exists lb, ub. split; [exact P|].
  refine (coh_inv b (Fin c) lb ub r _ 0 0 P K (idx_err_xr c _ Bc NN) _ _ _ _).
  - fold cnt. destruct cnt; [|lia]. exfalso. unfold q in B. cbn [INR] in B. unfold Rdiv in B. lra.
  - fold cnt. fold q. unfold c. lra.
  - lra.
  - lra.
Qed.

(** ** p-values as counts, scalar or paired *)
Section Counts.
  Context {T : Type} {NT : num T} {NO : num_ok NT}.

  Definition ref_ok (b : list T) (r : reference T) : Prop :=
    okl (ref_values b r) /\ length (ref_values b r) = length b.
  Definition n_le (l : list (T * T)) : nat := length (filter (fun p => nleb (fst p) (snd p)) l).
  Definition n_ge (l : list (T * T)) : nat := length (filter (fun p => nleb (snd p) (fst p)) l).
  Definition pvalue (k1 k2 n : nat) : T := nmin n1 (nmul (nofZ 2) (nmin (rate k1 n) (rate k2 n))).

  Lemma map2_combine {A B C} (f : A -> B -> C) l m : map2 f l m = map (fun p => f (fst p) (snd p)) (combine l m).
  Proof. revert m; induction l as [|a l IH]; intros [|c m]; cbn; f_equal; auto. Qed.
  Lemma map2_swap {A B C} (f : A -> B -> C) l m : map2 f l m = map (fun p => f (snd p) (fst p)) (combine m l).
  Proof. revert m; induction l as [|a l IH]; intros [|c m]; cbn; f_equal; auto. Qed.

  Lemma significance_counts b r : okl b -> ref_ok b r -> b <> [] ->
    significance b r = Ok (pvalue (n_le (combine b (ref_values b r))) (n_ge (combine b (ref_values b r))) (length b)).
  Proof.
    intros O [Or Lr] NE. unfold significance. apply okl_existsb in O. rewrite O.
    assert ((match r with Scalar _ => true | Paired l => (length l =? length b)%nat end) = true) as ->.
    { destruct r; auto. cbn in Lr. rewrite Lr. apply Nat.eqb_refl. }
    assert ((match r with Scalar v => negb (nisnan v) | Paired l => negb (existsb nisnan l) end) = true) as ->.
    { destruct r as [v|l]; cbn in Or; [|now apply okl_existsb]. destruct b; [congruence|]. cbn in Or.
      inversion Or as [|? ? N]; subst. now rewrite N. }
    cbn [py_assert bind]. f_equal. unfold pvalue, rate, n_le, n_ge, mean_bool.
    rewrite (map2_combine nleb b). rewrite (map2_swap nleb (ref_values b r)). rewrite !filter_id_map, !map_length.
    rewrite !combine_length, Lr, Nat.min_id. reflexivity.
  Qed.

  Lemma significance_inv b r p : significance b r = Ok p -> b <> [] -> okl b /\ ref_ok b r.
  Proof.
    intros H NE. unfold significance in H.
    destruct (match r with Scalar _ => true | Paired l => (length l =? length b)%nat end) eqn:E1; [|discriminate].
    destruct (negb (existsb nisnan b)) eqn:E2; [|discriminate].
    destruct (match r with Scalar v => negb (nisnan v) | Paired l => negb (existsb nisnan l) end) eqn:E3; [|discriminate].
    split; [now apply okl_existsb|]. destruct r as [v|l]; split; cbn.
    - unfold okl. apply Forall_forall. intros x Hx. apply repeat_spec in Hx. subst x. now destruct (nisnan v).
    - apply repeat_length.
    - now apply okl_existsb.
    - now apply Nat.eqb_eq.
  Qed.

  Lemma n_le_bound (l : list (T * T)) : (n_le l <= length l)%nat.
  Proof. unfold n_le. induction l as [|a l IH]; cbn; auto. destruct (nleb _ _); cbn; lia. Qed.
  Lemma n_ge_bound (l : list (T * T)) : (n_ge l <= length l)%nat.
  Proof. unfold n_ge. induction l as [|a l IH]; cbn; auto. destruct (nleb _ _); cbn; lia. Qed.
  Lemma filter_perm_length {A} (p : A -> bool) l m : Permutation l m -> length (filter p l) = length (filter p m).
  Proof. induction 1; cbn; auto; repeat destruct (p _); cbn; try lia. Qed.
  Lemma n_perm l m : Permutation l m -> n_le l = n_le m /\ n_ge l = n_ge m.
  Proof. intros P. split; now apply filter_perm_length. Qed.
End Counts.

(** the sign of a rate *)
Lemma Bsign_f_of_Z n : (0 <= n <= 2 ^ 53)%Z -> Bsign (f_of_Z n) = false.
Proof.
  intros H. pose proof (binary_normalize_correct prec64 emax64 _ _ mode_NE n 0 false) as C.
  cbv zeta in C. unfold F2R in C. simpl Fnum in C. simpl Fexp in C. simpl (bpow radix2 0) in C.
  rewrite Rmult_1_r in C. simpl (round_mode mode_NE) in C.
  rewrite rnd64_id in C by (apply format64_IZR; lia).
  rewrite Rlt_bool_true in C.
  - destruct C as (_ & _ & C). unfold f_of_Z. rewrite C.
    destruct (Rcompare_spec (IZR n) 0) as [L|E|L]; auto. apply (lt_IZR n 0) in L. lia.
  - rewrite <- abs_IZR. apply Rle_lt_trans with (IZR (2 ^ 53)); [apply IZR_le; lia|].
    apply Rlt_le_trans with (bpow radix2 60).
    + rewrite <- (IZR_Zpower radix2 60) by lia. apply IZR_lt. reflexivity.
    + apply bpow_le. unfold emax64; lia.
Qed.

Lemma Bsign_rate k n : (k <= n)%nat -> (1 <= Z.of_nat n <= 2 ^ 53)%Z -> Bsign (rate k n : f64) = false.
Proof.
  intros L N. destruct (rate_val k n L N) as (V & F & B). unfold rate in *. cbn [ndiv nofZ f64_num] in *.
  assert (B2R (f_of_Z (Z.of_nat n)) <> 0) as NZ by (rewrite f_of_Z_val by lia; apply not_0_IZR; lia).
  pose proof (Bdiv_correct prec64 emax64 _ _ mode_NE (f_of_Z (Z.of_nat k)) (f_of_Z (Z.of_nat n)) NZ) as C.
  simpl (round_mode mode_NE) in C. rewrite !f_of_Z_val in C by lia. rewrite <- !INR_IZR_INZ in C.
  rewrite Rlt_bool_true in C.
  - destruct C as (_ & _ & C). unfold fdiv. rewrite C by (now apply fisfin_notnan). rewrite !Bsign_f_of_Z by lia. reflexivity.
  - apply rnd64_small. lra.
Qed.

Lemma nmin_rate_comm k1 k2 n : (k1 <= n)%nat -> (k2 <= n)%nat -> (1 <= Z.of_nat n <= 2 ^ 53)%Z ->
  nmin (rate k1 n : f64) (rate k2 n) = nmin (rate k2 n) (rate k1 n).
Proof.
  intros L1 L2 N. destruct (rate_val k1 n L1 N) as (V1 & F1 & _). destruct (rate_val k2 n L2 N) as (V2 & F2 & _).
  pose proof (Bsign_rate k1 n L1 N) as S1. pose proof (Bsign_rate k2 n L2 N) as S2.
  unfold nmin. cbn [nleb nisnan f64_num]. rewrite (fisfin_notnan _ F1), (fisfin_notnan _ F2), !orb_false_r.
  destruct (fleb (rate k1 n) (rate k2 n)) eqn:E1; destruct (fleb (rate k2 n) (rate k1 n)) eqn:E2; auto.
  - apply fleb_fin in E1; auto. apply fleb_fin in E2; auto.
    apply B2R_Bsign_inj; auto; [lra|congruence].
  - destruct (fleb_total _ _ (fisfin_notnan _ F1) (fisfin_notnan _ F2)); congruence.
Qed.

Lemma pvalue_comm k1 k2 n : (k1 <= n)%nat -> (k2 <= n)%nat -> (1 <= Z.of_nat n <= 2 ^ 53)%Z ->
  (pvalue k1 k2 n : f64) = pvalue k2 k1 n.
Proof. intros. unfold pvalue. now rewrite nmin_rate_comm. Qed.

Lemma pvalue_range k1 k2 n : (k1 <= n)%nat -> (k2 <= n)%nat -> (1 <= Z.of_nat n <= 2 ^ 53)%Z ->
  fleb f0 (pvalue k1 k2 n) = true /\ fleb (pvalue k1 k2 n) (f_of_Z 1) = true.
Proof.
  intros L1 L2 N. destruct (pval_val n k1 k2 N L1 L2) as [V F]. fold (pvalue k1 k2 n : f64) in V, F.
  destruct (rate_val k1 n L1 N) as (_ & _ & B1). destruct (rate_val k2 n L2 N) as (_ & _ & B2).
  split; apply fleb_fin; auto; rewrite V.
  - change (B2R f0) with 0. apply Rmin_glb; [lra|]. apply Rmult_le_pos; [lra|].
    apply Rmin_glb; apply rnd64_ge; try apply format64_0; lra.
  - rewrite f_of_Z_val by lia. apply Rmin_l.
Qed.

Lemma pvalue_full n : (1 <= Z.of_nat n <= 2 ^ 53)%Z -> feqb (pvalue n n n) (f_of_Z 1) = true.
Proof.
  intros N. destruct (pval_val n n n N (Nat.le_refl n) (Nat.le_refl n)) as [V F]. fold (pvalue n n n : f64) in V, F.
  apply feqb_fin; auto. rewrite V, f_of_Z_val by lia.
  assert (INR n <> 0) by (apply not_0_INR; lia). rewrite Rdiv_diag_eq || replace (INR n / INR n) with 1 by (field; auto).
  rewrite rnd64_1. rewrite (Rmin_left 1 1) by lra. apply Rmin_left. lra.
Qed.

(** ** the paired test is the test of the differences *)
Lemma sub_le0 x y : fisfin x = true -> fisfin y = true -> fleb (fsub x y) f0 = fleb x y /\ fleb f0 (fsub x y) = fleb y x.
Proof.
  intros Fx Fy. split; [|exact (diff_nonneg_ (NT := f64_num) y x Fy Fx)].
  destruct (fsub_key x y Fx Fy) as [N _]. destruct (fsub_sign y x Fy Fx) as [S _].
  apply eq_true_iff_eq. rewrite (fleb_fin x y) by auto.
  pose proof (ltb_leb_ (num_ok := f64_ok) f0 (fsub x y) eq_refl N) as E. cbn [nltb nleb f64_num] in E.
  destruct (fleb (fsub x y) f0).
  - split; auto. intros _. apply Rnot_lt_le. intros L. apply S in L. rewrite L in E. discriminate.
  - split; [discriminate|]. intros L. cbn in E. apply S in E. lra.
Qed.

Lemma fleb_opp x y : fisnan x = false -> fisnan y = false -> fleb (fopp x) (fopp y) = fleb y x.
Proof.
  intros Nx Ny. assert (forall z, fisnan z = false -> fisnan (fopp z) = false /\ fkey (fopp z) = - fkey z) as K.
  { intros [|[]| |] Nz; try discriminate; split; try reflexivity; cbn [fopp Bopp fkey negb]; try lra.
    - cbn. lra.
    - change (B2R (fopp (B754_finite s m e e0)) = - B2R (B754_finite s m e e0)). apply B2R_Bopp. }
  destruct (K x Nx) as [N1 K1]. destruct (K y Ny) as [N2 K2].
  apply eq_true_iff_eq. rewrite !fleb_key by auto. lra.
Qed.

(** ** resampling *)

(** the data set in which point i appears [counts_i] times *)
Definition resampled {A} (x : list A) (counts : list Z) : list A :=
  concat (map (fun p => repeat (fst p) (Z.to_nat (snd p))) (combine x counts)).

Lemma resampled_length {A} (x : list A) counts : length x = length counts -> Forall (fun k => 0 <= k)%Z counts ->
  Z.of_nat (length (resampled x counts)) = fold_right Z.add 0%Z counts.
Proof.
  unfold resampled. revert counts; induction x as [|a x IH]; intros [|k counts] L F; try discriminate; auto.
  inversion F; subst. cbn [combine map concat fold_right fst snd]. rewrite app_length, repeat_length.
  injection L as L. specialize (IH counts L H2). lia.
Qed.

Lemma Rsum_repeat a n : Rsum (repeat a n) = INR n * a.
Proof. induction n; [cbn; lra|]. rewrite S_INR. cbn [repeat]. rewrite Rsum_cons, IHn. lra. Qed.

Lemma resampled_sum x counts : length x = length counts -> Forall (fun k => 0 <= k)%Z counts ->
  Rsum (map2 Rmult x (map IZR counts)) = Rsum (resampled x counts).
Proof.
  unfold resampled. revert counts; induction x as [|a x IH]; intros [|k counts] L F; try discriminate; auto.
  inversion F; subst. cbn [combine map map2 concat fst snd]. rewrite Rsum_app, Rsum_repeat, Rsum_cons.
  injection L as L. rewrite (IH counts L H2). rewrite INR_IZR_INZ, Z2Nat.id by lia. lra.
Qed.

Lemma map2_fin x w : map2 (@nmul xr _) (map Fin x) (map Fin w) = map Fin (map2 Rmult x w).
Proof. revert w; induction x; intros [|b w]; cbn; f_equal; auto. Qed.
Lemma map2_length {A B C} (f : A -> B -> C) l m : length (map2 f l m) = Nat.min (length l) (length m).
Proof. revert m; induction l; intros [|b m]; cbn; auto. Qed.

Lemma nmean_fin l : l <> [] -> nmean (map Fin l) = Fin (Rsum l / INR (length l)).
Proof.
  intros NE. unfold nmean. rewrite psum_xr, nsum_fin, map_length. cbn [ndiv nofZ xr_num]. rewrite xdiv_fin; [now rewrite <- INR_IZR_INZ|].
  apply not_0_IZR. destruct l; cbn; [congruence|lia].
Qed.
