(** Curves with bootstrap weights in doubles: the counts at the thresholds are
    usable, and the checks of _binary_clf_curve pass. *)
From Coq Require Import Reals ZArith Lra Lia List Sorted Bool Permutation.
From Flocq Require Import Core BinarySingleNaN.
From Verif Require Import PyBase F64 F64Lemmas Num NumOk Util UtilProofs ListLemmas UtilProofs2 BootUtil BootProofs2 BootProofs4
  PerfCurves PerfProofs PerfProofs2 PerfProofs7 PerfProofs8 PerfProofs9 PerfProofs10 SumProofs CompareProofs SwapProofs MeanProofs DoublesProofs CurveProofs4.
Open Scope R_scope.
Open Scope list_scope.

Notation u64 := MeanProofs.u64.

(** ** What is close *)
Lemma u_le x : 0 <= x -> 0 <= u64 * x <= x / 1024.
Proof. intros X. pose proof u64_pos. pose proof u64_small. split; [apply Rmult_le_pos; lra|]. unfold Rdiv. rewrite (Rmult_comm x). apply Rmult_le_compat_r; auto. Qed.

Lemma tiny_le : P2 (-1075) <= / 10 ^ 20.
Proof.
  apply Rle_trans with (P2 (-67)); [apply bpow_le; lia|].
  assert (P2 (-67) = / IZR (2 ^ 67)) as -> by reflexivity. cbn [Z.pow Z.pow_pos Pos.iter Z.mul Pos.mul]. lra.
Qed.

Lemma const_val k : (1 <= k <= 2 ^ 53)%Z -> exists r, v64 (fdiv (f_of_Z 1) (f_of_Z k)) = Fin r /\ 1 / IZR k * (1 - / 1024) - / 10 ^ 20 <= r <= 1 /\ 0 <= r.
Proof.
  intros K. destruct (f_of_Z_correct 1) as [V1 F1]; [lia|]. destruct (f_of_Z_correct k) as [Vk Fk]; [lia|].
  assert (1 <= IZR k) as K1 by (apply IZR_le; lia). assert (1 / IZR k <= 1) as K2.
  { apply (Rmult_le_reg_r (IZR k)); [lra|]. unfold Rdiv. rewrite Rmult_assoc, Rinv_l by lra. lra. }
  assert (0 <= 1 / IZR k) as K3 by (apply Rle_mult_inv_pos; lra).
  exists (rnd64 (1 / IZR k)). rewrite v64_div_fin; [|exact F1|rewrite Vk; lra]. rewrite V1, Vk. split; [|split; [split|]].
  - apply xround_ok. rewrite Rabs_pos_eq by lra. eapply Rle_trans; [exact K2|]. change 1 with (P2 0). apply bpow_le. lia.
  - pose proof (rnd_err (1 / IZR k)) as E. rewrite (Rabs_pos_eq (1 / IZR k)) in E by lra. apply Rabs_le_inv in E.
    pose proof (u_le _ K3). pose proof tiny_le. lra.
  - apply rnd64_le; [apply format64_1|exact K2].
  - apply rnd64_ge; [apply format64_0|exact K3].
Qed.

Lemma isclose_tol a b : fisfin a = true -> fisfin b = true -> 0 <= B2R b <= P2 100 ->
  Rabs (B2R a - B2R b) <= 9 / 10 ^ 9 + 9 / 10 ^ 6 * B2R b -> isclose a b = true.
Proof.
  intros Fa Fb Bb Dd. unfold isclose. cbn [nisfin f64_num]. rewrite Fa, Fb. cbn [andb]. rewrite !nabs_fabs. cbn [nsub nadd ndiv nmul nofZ n1 nleb f64_num].
  set (B := B2R b) in *. set (d := B2R a - B) in *. assert (0 <= Rabs d) as Pd by apply Rabs_pos.
  assert (1 <= P2 100) as O100 by (change 1 with (P2 0); apply bpow_le; lia).
  assert (forall x, 0 <= x <= 4 * P2 100 -> Rabs x <= P2 1000) as OK.
  { intros x X. rewrite Rabs_pos_eq by lra. apply Rle_trans with (P2 102); [|apply bpow_le; lia].
    replace (P2 102) with (4 * P2 100); [lra|]. change 4 with (P2 2). rewrite <- bpow_plus. reflexivity. }
  assert (v64 (fsub a b) = Fin (rnd64 d)) as Vd.
  { rewrite v64_sub, (v64_fin a Fa), (v64_fin b Fb). cbn [xr2]. apply xround_ok. rewrite <- Rabs_Rabsolu. apply OK. lra. }
  assert (Rabs (rnd64 d) <= Rabs d * (1 + / 1024)) as Ld.
  { pose proof (rnd_add_err (B2R a) (- B) (B2R_format a) (generic_format_opp _ _ _ (B2R_format b))) as E.
    replace (B2R a + - B) with d in E by (unfold d; ring).
    replace (rnd64 d) with ((rnd64 d - d) + d) by ring.
    eapply Rle_trans; [apply Rabs_triang|]. pose proof (u_le _ Pd). lra. }
  destruct (const_val (10 ^ 8)%Z) as (r8 & V8 & L8 & P8); [lia|]. destruct (const_val (10 ^ 5)%Z) as (r5 & V5 & L5 & P5); [lia|].
  assert (v64 (fabs b) = Fin B) as Vb by (rewrite v64_abs, (v64_fin b Fb); cbn; rewrite Rabs_pos_eq by apply Bb; reflexivity).
  assert (0 <= r5 * B <= B) as Bm by (split; [apply Rmult_le_pos; lra|nra]).
  assert (v64 (fmul (fdiv (f_of_Z 1) (f_of_Z (10 ^ 5))) (fabs b)) = Fin (rnd64 (r5 * B))) as Vm.
  { rewrite v64_mul, V5, Vb. cbn [xr2]. apply xround_ok. apply OK. lra. }
  assert (99 / 10 ^ 7 * B <= r5 * B) as L5'. { apply Rmult_le_compat_r; [apply Bb|]. cbn in L5 |- *. lra. }
  assert (r5 * B * (1 - / 1024) - / 10 ^ 20 <= rnd64 (r5 * B) <= P2 100) as Lm.
  { split.
    - pose proof (rnd_err (r5 * B)) as E. rewrite (Rabs_pos_eq (r5 * B)) in E by lra. apply Rabs_le_inv in E.
      pose proof (u_le _ (proj1 Bm)). pose proof tiny_le. lra.
    - apply rnd64_le; [apply format64_pow; lia|]. lra. }
  assert (0 <= rnd64 (r5 * B)) as Pm by (apply rnd64_ge; [apply format64_0|lra]).
  set (t := rnd64 (r5 * B)) in *.
  assert (v64 (fadd (fdiv (f_of_Z 1) (f_of_Z (10 ^ 8))) (fmul (fdiv (f_of_Z 1) (f_of_Z (10 ^ 5))) (fabs b))) = Fin (rnd64 (r8 + t))) as Vs.
  { rewrite v64_add, V8, Vm. cbn [xr2]. apply xround_ok. apply OK. lra. }
  assert ((r8 + t) * (1 - / 1024) <= rnd64 (r8 + t)) as Lr.
  { pose proof (rnd_add_err r8 t (v64_Fin_format _ _ V8) (v64_Fin_format _ _ Vm)) as E. rewrite (Rabs_pos_eq (r8 + t)) in E by lra. apply Rabs_le_inv in E.
    pose proof (u_le (r8 + t) ltac:(lra)). lra. }
  change (fleb (fabs (fsub a b)) (fadd (fdiv (f_of_Z 1) (f_of_Z (10 ^ 8))) (fmul (fdiv (f_of_Z 1) (f_of_Z (10 ^ 5))) (fabs b))) = true).
  rewrite v64_leb, v64_abs, Vd, Vs. cbn [xabs xleb]. apply Rleb_spec. cbn in L8. lra.
Qed.

(** ** A finer bound on the growth of rounding errors *)
Lemma pow_close n : INR n * u64 <= / 1000 -> (1 + u64) ^ n - 1 <= INR n * u64 * (1 + / 1000).
Proof.
  intros H. pose proof u64_pos as U.
  assert (forall k, (k <= n)%nat -> (1 + u64) ^ k <= 1 + INR k * u64 * (1 + INR k * u64)) as G.
  { induction k as [|k IH]; intros K; [cbn; lra|]. specialize (IH ltac:(lia)).
    assert (INR k * u64 <= / 1000) as Hk.
    { eapply Rle_trans; [|exact H]. apply Rmult_le_compat_r; [lra|]. apply le_INR. lia. }
    pose proof (pos_INR k) as Pk. rewrite S_INR. cbn [pow]. set (x := INR k * u64) in *.
    assert (0 <= x) as X by (unfold x; apply Rmult_le_pos; lra).
    replace ((INR k + 1) * u64) with (x + u64) by (unfold x; ring).
    apply Rle_trans with ((1 + u64) * (1 + x * (1 + x))); [apply Rmult_le_compat_l; lra|].
    assert (0 <= u64 * x) by (apply Rmult_le_pos; lra). assert (u64 * (x * x) <= u64 * x) by (apply Rmult_le_compat_l; [lra|]; rewrite <- (Rmult_1_r x) at 3; apply Rmult_le_compat_l; lra).
    nra. }
  specialize (G n (Nat.le_refl n)). set (x := INR n * u64) in *. assert (0 <= x) as X by (unfold x; apply Rmult_le_pos; [apply pos_INR|lra]). nra.
Qed.

(** ** Bootstrap weights *)
Definition W (k : Z) : f64 := nmax (ndiv n1 (nofZ (10 ^ 10))) (nofZ k).

Lemma W_val k : (0 <= k <= 2 ^ 53)%Z -> nn (W k) /\ B2R (W k) = wt k /\ P2 (-34) <= B2R (W k).
Proof.
  intros K. destruct (f_of_Z_nn k K) as [Nk Vk]. destruct EPS_val as [NE RE]. pose proof e10_dec as ED. pose proof e10_range as ER. unfold e10 in ED, ER.
  unfold W, nmax. change (ndiv n1 (nofZ (10 ^ 10))) with EPS. change (nofZ k) with (f_of_Z k). cbn [nleb nisnan f64_num].
  rewrite (fisfin_notnan EPS (proj1 NE)), orb_false_r. unfold wt.
  destruct (fleb (f_of_Z k) EPS) eqn:E.
  - apply fleb_fin in E; [|apply Nk|apply NE]. rewrite Vk in E.
    assert (k = 0%Z) as ->. { destruct (Z.eq_dec k 0); auto. exfalso. assert (1 <= k)%Z as K1 by lia. apply IZR_le in K1. lra. }
    cbn [Z.eqb]. split; [exact NE|]. split; [reflexivity|exact (proj1 ER)].
  - assert (k <> 0%Z) as Nz.
    { intros ->. assert (fleb (f_of_Z 0) EPS = true); [|congruence]. apply fleb_fin; [apply Nk|apply NE|]. rewrite Vk. lra. }
    rewrite (proj2 (Z.eqb_neq k 0) Nz). split; [exact Nk|]. split; [exact Vk|]. rewrite Vk.
    assert (1 <= k)%Z as K1 by lia. apply IZR_le in K1. pose proof (P2_le1 (-34) ltac:(lia)). lra.
Qed.

Lemma wt_range k : (0 <= k)%Z -> 0 < wt k <= IZR k + 1.
Proof.
  intros K. pose proof e10_dec. unfold wt. destruct (k =? 0)%Z eqn:E; [apply Z.eqb_eq in E; subst k; lra|].
  apply Z.eqb_neq in E. assert (1 <= k)%Z as K1 by lia. apply IZR_le in K1. lra.
Qed.

Definition part (b : bool) (k : Z) : f64 := fmul (f_of_Z (b2z b)) (W k).
Lemma part_val b k : (0 <= k <= 2 ^ 53)%Z -> nn (part b k) /\ B2R (part b k) = (if b then wt k else 0).
Proof.
  intros K. destruct (W_val k K) as (N & V & _). pose proof (wt_range k ltac:(lia)) as R. unfold part.
  destruct (f_of_Z_nn (b2z b)) as [Nb Vb]; [destruct b; cbn; lia|].
  assert (IZR k <= IZR (2 ^ 53)) as K2 by (apply IZR_le; lia).
  assert (IZR (2 ^ 53) + 1 <= P2 1000) as B.
  { apply Rle_trans with (P2 54); [|apply bpow_le; lia]. rewrite <- IZR_P2 by lia. rewrite <- plus_IZR. apply IZR_le. cbn. lia. }
  assert (B2R (f_of_Z (b2z b)) * B2R (W k) = if b then wt k else 0) as E by (rewrite Vb, V; destruct b; cbn [b2z]; lra).
  destruct (fmul_nn _ _ Nb N) as [Nm Vm]; [rewrite E; destruct b; lra|].
  split; [exact Nm|]. rewrite Vm, E. destruct b; [|apply rnd64_0]. apply rnd64_id. apply wt_fmt. exact K.
Qed.

(** *** The two running sums *)
Definition big (x : R) : Prop := x = 0 \/ P2 (-34) <= x.
Record st (j : Z) (c t : f64) : Prop := {
  st_c : nn c; st_t : nn t; st_le : B2R t <= B2R c; st_ub : B2R c <= IZR j; st_bc : big (B2R c); st_bt : big (B2R t) }.

Lemma st_step j c t b k : st j c t -> (0 <= j)%Z -> (0 <= k)%Z -> (j + k + 1 <= 2 ^ 53)%Z ->
  let c' := fadd c (W k) in let t' := fadd t (part b k) in
  st (j + k + 1) c' t' /\ (B2R c', B2R t') = step (B2R c, B2R t) (b, k) /\ rle c c' /\ rle t t' /\ 0 < B2R c'.
Proof.
  intros [Nc Nt Le Ub Bc Bt] J K S c' t'. destruct (W_val k ltac:(lia)) as (Nw & Vw & Lw). destruct (part_val b k ltac:(lia)) as [Np Vp].
  pose proof (wt_range k K) as R. pose proof (nn_ge0 _ Nc) as C0. pose proof (nn_ge0 _ Nt) as T0.
  assert (IZR (j + k + 1) = IZR j + IZR k + 1) as EJ by (now rewrite !plus_IZR).
  assert (IZR (j + k + 1) <= P2 1000) as B.
  { apply Rle_trans with (P2 53); [|apply bpow_le; lia]. rewrite <- IZR_P2 by lia. apply IZR_le. lia. }
  assert (0 <= B2R (part b k) <= wt k) as Rp by (rewrite Vp; destruct b; lra).
  destruct (fadd_nn c (W k) Nc Nw) as [Nc' Vc']; [rewrite Vw; lra|]. destruct (fadd_nn t (part b k) Nt Np) as [Nt' Vt']; [lra|].
  fold c' in Nc', Vc'. fold t' in Nt', Vt'.
  assert (B2R c <= B2R c') as G1 by (rewrite Vc'; apply rnd64_ge; [apply B2R_format|lra]).
  assert (B2R (W k) <= B2R c') as G2 by (rewrite Vc'; apply rnd64_ge; [apply B2R_format|lra]).
  assert (B2R t <= B2R t') as G3 by (rewrite Vt'; apply rnd64_ge; [apply B2R_format|lra]).
  assert (B2R (part b k) <= B2R t') as G4 by (rewrite Vt'; apply rnd64_ge; [apply B2R_format|lra]).
  pose proof (bpow_gt_0 radix2 (-34)) as P34.
  split; [constructor; auto|split; [|split; [exact G1|split; [exact G3|lra]]]].
  - rewrite Vc', Vt'. apply rnd64_mono. rewrite Vw. lra.
  - rewrite Vc'. apply rnd64_le; [apply format64_IZR; lia|]. rewrite Vw. lra.
  - right. lra.
  - destruct b.
    + right. rewrite Vp in G4. rewrite <- Vw in G4. lra.
    + rewrite Vt', Vp, Rplus_0_r, rnd64_id by apply B2R_format. exact Bt.
  - unfold step. cbn [fst snd]. rewrite Vc', Vt', Vw, Vp. destruct b; [reflexivity|]. f_equal. rewrite Rplus_0_r. apply rnd64_id, B2R_format.
Qed.

Definition walls (L : list (bool * Z)) : list f64 := map (fun p => W (snd p)) L.
Definition parts (L : list (bool * Z)) : list f64 := map (fun p => part (fst p) (snd p)) L.

Lemma sumk_nn L : Forall (fun q => 0 <= snd q)%Z L -> (0 <= sumk L)%Z.
Proof. induction 1; cbn [sumk fold_right]; [lia|]. fold (sumk l). lia. Qed.

Lemma sorted_cons_rle (a b : f64) l : rle a b -> StronglySorted rle (b :: l) -> StronglySorted rle (a :: b :: l).
Proof.
  intros R S. constructor; auto. constructor; auto. apply StronglySorted_inv in S as [_ F]. eapply Forall_impl; [|exact F].
  intros x. unfold rle in *. intros. lra.
Qed.

Lemma last_cons2 {A} (a b : A) l : last (b :: l) a = last l b.
Proof. revert a b. induction l as [|c l IH]; intros a b; [reflexivity|]. change (last (b :: c :: l) a) with (last (c :: l) a). now rewrite !IH. Qed.

Lemma rows_run L : forall j c t, st j c t -> (0 <= j)%Z -> Forall (fun q => 0 <= snd q)%Z L -> (j + sumk L + Z.of_nat (length L) <= 2 ^ 53)%Z ->
  let C := cumsum_from c (walls L) in let T := cumsum_from t (parts L) in
  Forall2 (fun a b => st (2 ^ 53) a b /\ 0 < B2R a) C T /\
  StronglySorted rle (c :: C) /\ StronglySorted rle (t :: T) /\
  (B2R (last C c), B2R (last T t)) = fold_left step L (B2R c, B2R t) /\
  (forallb fst L = true -> B2R c = B2R t -> Forall2 (fun a b => B2R a = B2R b) C T) /\
  (forallb (fun p => negb (fst p)) L = true -> B2R t = 0 -> Forall (fun b => B2R b = 0) T).
Proof.
  induction L as [|[b k] L IH]; intros j c t S J K U C T.
  - unfold C, T. cbn. split; [constructor|]. split; [repeat constructor|]. split; [repeat constructor|]. split; [reflexivity|]. split; constructor.
  - inversion K as [|? ? K1 K2]; subst. cbn [snd sumk fold_right length] in *. fold (sumk L) in *. pose proof (sumk_nn L K2) as S0.
    destruct (st_step j c t b k S J K1 ltac:(lia)) as (S1 & E1 & R1 & R2 & P1).
    unfold C, T. cbn [walls parts map cumsum_from fst snd]. change (nadd c (W k)) with (fadd c (W k)). change (nadd t (part b k)) with (fadd t (part b k)).
    set (c' := fadd c (W k)) in *. set (t' := fadd t (part b k)) in *.
    destruct (IH _ c' t' S1 ltac:(lia) K2 ltac:(lia)) as (H1 & H2 & H3 & H4 & H5 & H6). cbv zeta in *.
    fold (walls L) (parts L).
    split; [|split; [|split; [|split; [|split]]]].
    + constructor; auto. split; [|exact P1]. destruct S1 as [A1 A2 A3 A4 A5 A6]. constructor; auto.
      eapply Rle_trans; [exact A4|]. apply IZR_le. lia.
    + apply sorted_cons_rle; auto.
    + apply sorted_cons_rle; auto.
    + cbn [fold_left]. rewrite !last_cons2, H4. f_equal. exact E1.
    + cbn [forallb fst]. intros F E. apply andb_true_iff in F as [F1 F2]. subst b.
      assert (B2R c' = B2R t') as E'. { injection E1 as A B. cbn [fst snd step] in A, B. rewrite A, B, E. reflexivity. }
      constructor; auto.
    + cbn [forallb fst]. intros F E. apply andb_true_iff in F as [F1 F2]. destruct b; [discriminate|].
      assert (B2R t' = 0) as E'. { injection E1 as A B. cbn [fst snd step] in B. rewrite B. exact E. }
      constructor; auto.
Qed.

(** *** Differences of the running sums *)
Lemma binade_any x e : P2 e <= x -> exists m, (e <= m)%Z /\ P2 m <= x < P2 (m + 1).
Proof.
  intros H. pose proof (bpow_gt_0 radix2 e) as P. destruct (mag radix2 x) as [m Hm]. specialize (Hm ltac:(lra)).
  rewrite Rabs_pos_eq in Hm by lra. exists (m - 1)%Z. replace (m - 1 + 1)%Z with m by ring. split; [|exact Hm].
  destruct (Z_le_gt_dec e (m - 1)) as [L|L]; auto. assert (P2 m <= P2 e) by (apply bpow_le; lia). lra.
Qed.

Lemma big_mul x : format64 x -> big x -> exists z, x = IZR z * P2 (-86).
Proof.
  intros F [->|B]; [exists 0%Z; lra|]. destruct (binade_any x _ B) as (m & Lm & Bm). destruct (fmt_bin m x F Bm ltac:(lia)) as [z Ez].
  exists (z * 2 ^ (m + 34))%Z. rewrite Ez, mult_IZR, IZR_P2, Rmult_assoc, <- bpow_plus by lia. do 2 f_equal. lia.
Qed.

Lemma gap_big c t : format64 c -> format64 t -> big c -> big t -> t <= c -> rnd64 (c - t) = 0 /\ c = t \/ P2 (-86) <= rnd64 (c - t) /\ t < c.
Proof.
  intros Fc Ft Bc Bt L. destruct (big_mul c Fc Bc) as [a Ea]. destruct (big_mul t Ft Bt) as [b Eb].
  assert (c - t = IZR (a - b) * P2 (-86)) as E by (rewrite Ea, Eb, minus_IZR; ring).
  pose proof (bpow_gt_0 radix2 (-86)) as P. destruct (Z_lt_le_dec b a) as [Lt|Le].
  - right. assert (1 <= IZR (a - b)) as O by (apply IZR_le; lia). assert (1 * P2 (-86) <= IZR (a - b) * P2 (-86)) as O' by (apply Rmult_le_compat_r; lra).
    split; [|lra]. apply rnd64_ge; [apply format64_pow; lia|]. lra.
  - left. assert (c = t) as Ect.
    { assert (IZR (a - b) <= 0) as O by (apply IZR_le; lia). assert (IZR (a - b) * P2 (-86) <= 0 * P2 (-86)) by (apply Rmult_le_compat_r; lra). lra. }
    split; [|exact Ect]. rewrite Ect. replace (t - t) with 0 by ring. apply rnd64_0.
Qed.

Lemma big_mid x : nn x -> big (B2R x) -> B2R x <= IZR (2 ^ 53) -> mid x.
Proof.
  intros N [Z|B] U; split; auto. right. split; [|eapply Rle_trans; [exact U|exact P2_53_160]].
  eapply Rle_trans; [|exact B]. apply bpow_le. lia.
Qed.

Lemma st_sub c t : st (2 ^ 53) c t -> 0 < B2R c ->
  let f := fsub c t in mid f /\ mid t /\ (0 < B2R f \/ 0 < B2R t) /\ (B2R f = 0 <-> B2R c = B2R t) /\ B2R f = rnd64 (B2R c - B2R t).
Proof.
  intros [Nc Nt Le Ub Bc Bt] P f. pose proof (nn_ge0 _ Nt) as T0.
  destruct (fsub_nn c t Nc Nt Le) as [Nf Vf]; [eapply Rle_trans; [exact Ub|]; eapply Rle_trans; [exact P2_53_160|]; apply bpow_le; lia|]. fold f in Nf, Vf.
  pose proof (bpow_gt_0 radix2 (-86)) as P86.
  assert (mid t) as Mt by (apply big_mid; auto; lra).
  destruct (gap_big _ _ (B2R_format c) (B2R_format t) Bc Bt Le) as [[G E]|[G E]]; rewrite <- Vf in G.
  - split; [split; auto|]. split; [exact Mt|]. split; [right; lra|]. split; [tauto|exact Vf].
  - split; [|split; [exact Mt|split; [left; lra|split; [split; intros; lra|exact Vf]]]].
    split; auto. right. split; [eapply Rle_trans; [|exact G]; apply bpow_le; lia|].
    eapply Rle_trans; [|exact P2_53_160]. rewrite Vf. apply rnd64_le; [apply format64_IZR; lia|]. lra.
Qed.

(** *** Masks *)
Lemma mask_in {A} m (l : list A) x : In x (mask m l) -> In x l.
Proof.
  revert m. induction l as [|a l IH]; intros [|b m]; cbn; try tauto. destruct b; cbn; [intros [E|E]; auto|auto]; right; eapply IH; eauto.
Qed.
Lemma mask_Forall {A} (P : A -> Prop) m l : Forall P l -> Forall P (mask m l).
Proof. intros F. apply Forall_forall. intros x I. rewrite Forall_forall in F. apply F. eapply mask_in; eauto. Qed.
Lemma mask_Forall2 {A B} (R : A -> B -> Prop) l l' : Forall2 R l l' -> forall m, Forall2 R (mask m l) (mask m l').
Proof. induction 1 as [|a b l l' H F IH]; intros [|c m]; cbn; try constructor. destruct c; [constructor|]; auto. Qed.
Lemma mask_sorted {A} (R : A -> A -> Prop) l : StronglySorted R l -> forall m, StronglySorted R (mask m l).
Proof.
  induction 1 as [|a l S IH F]; intros [|c m]; cbn; try constructor. destruct c; auto. constructor; auto. now apply mask_Forall.
Qed.
Lemma mask_map2 {A B C} (g : A -> B -> C) l : forall m k, length l = length k -> mask m (map2 g l k) = map2 g (mask m l) (mask m k).
Proof. induction l as [|a l IH]; intros [|c m] [|b k]; cbn; try discriminate; auto. intros E. injection E as E. destruct c; cbn; rewrite IH; auto. Qed.
Lemma mask_last {A} (m : list bool) : forall (l : list A) d, length l = S (length m) -> last (mask (m ++ [true]) l) d = last l d /\ mask (m ++ [true]) l <> [].
Proof.
  induction m as [|b m IH]; intros [|a l] d E; cbn in E; try discriminate.
  - destruct l; [|discriminate]. cbn. split; congruence.
  - injection E as E. destruct (IH l d E) as [I1 I2]. assert (l <> []) as Nl by (destruct l; cbn in E; congruence).
    assert (last (a :: l) d = last l d) as La by (destruct l; [congruence|reflexivity]). cbn [app mask]. destruct b.
    + split; [|discriminate]. rewrite La, <- I1. destruct (mask (m ++ [true]) l); [congruence|reflexivity].
    + rewrite La. auto.
Qed.

(** *** Running maxima *)
Lemma nmax_nn a b : nn a -> nn b -> (nmax a b = a \/ nmax a b = b) /\ rle a (nmax a b) /\ rle b (nmax a b).
Proof.
  intros Na Nb. unfold nmax. cbn [nleb nisnan f64_num]. rewrite (fisfin_notnan a (proj1 Na)), orb_false_r. unfold rle.
  destruct (fleb b a) eqn:E.
  - apply fleb_fin in E; [|apply Nb|apply Na]. split; auto. split; lra.
  - split; auto. split; [|lra]. destruct (Rle_or_lt (B2R b) (B2R a)) as [L|L]; [|lra]. exfalso.
    assert (fleb b a = true); [|congruence]. apply fleb_fin; [apply Nb|apply Na|exact L].
Qed.

Lemma max_acc_facts l : forall a, mid a -> Forall mid l ->
  length (max_acc_from a l) = length l /\ Forall mid (max_acc_from a l) /\ StronglySorted rle (a :: max_acc_from a l) /\ Forall2 rle l (max_acc_from a l) /\ rle (last l a) (last (max_acc_from a l) a).
Proof.
  induction l as [|b l IH]; intros a Ma Fl; cbn [max_acc_from].
  - split; auto. split; auto. split; [repeat constructor|]. split; auto. unfold rle. cbn. lra.
  - inversion Fl as [|? ? Mb Fl']; subst. destruct (nmax_nn a b (mid_nn _ Ma) (mid_nn _ Mb)) as (E & La & Lb).
    assert (mid (nmax a b)) as Mm by (destruct E as [-> | ->]; auto).
    destruct (IH _ Mm Fl') as (H1 & H2 & H3 & H4 & H5). cbv zeta.
    split; [cbn; now rewrite H1|]. split; [now constructor|]. split; [now apply sorted_cons_rle|]. split; [now constructor|].
    rewrite !last_cons2. destruct l as [|c l]; [exact Lb|]. destruct (max_acc_from (nmax a b) (c :: l)) as [|d r] eqn:Er; [discriminate|].
    rewrite !last_cons2 in *. exact H5.
Qed.

(** *** One row *)
Definition row_done (f t : list f64) : Prop :=
  exists f' t', row_ok f t = true /\ row_out f t = (f0 :: f', f0 :: t') /\ good_row f' t' /\ length f' = length f.

Lemma pair_eq {A B} (a c : A) (b d : B) : (a, b) = (c, d) -> a = c /\ b = d.
Proof. intros E. split; [exact (f_equal fst E)|exact (f_equal snd E)]. Qed.

Lemma raw_done f t : raw_row f t -> row_done f t.
Proof.
  intros R. destruct (finish_good f t [] R) as (f' & t' & E & G & L & _). exists f', t'.
  unfold finish in E. cbn [forallb map fst snd] in E. rewrite andb_true_r in E. destruct (row_ok f t); cbn [py_assert bind] in E; [|discriminate].
  apply Ok_inj in E. apply pair_eq in E as [E _]. apply pair_eq in E as [E1 E2]. split; auto. split; auto.
  assert (forall (a b : list f64), [a] = [b] -> a = b) as Hd by (intros a b H; exact (f_equal (fun l => hd a l) H)).
  apply Hd in E1. apply Hd in E2. rewrite (surjective_pairing (row_out f t)), E1, E2. reflexivity.
Qed.

Lemma unsorted_done f t : length f = length t -> f <> [] -> Forall mid f -> Forall mid t -> StronglySorted rle (f0 :: t) ->
  Forall2 (fun a b => 0 < B2R a \/ 0 < B2R b) f t -> 0 < B2R (last f f0) -> 0 < B2R (last t f0) -> row_done f t.
Proof.
  intros L Ne Mf Mt St Nz Pf Pt. destruct (max_acc_facts f f0 mid_f0 Mf) as (H1 & H2 & H3 & H4 & H5).
  set (f' := max_acc_from f0 f) in *. assert (t <> []) as Nt by (intros ->; destruct f; [congruence|discriminate]).
  assert (good_row f' t) as G.
  { constructor; auto; [congruence|destruct f; [congruence|discriminate]| | | |].
    - eapply Forall_impl; [|exact H2]. apply mid_sane.
    - eapply Forall_impl; [|exact Mt]. apply mid_sane.
    - unfold rle in H5. lra.
    - clear -Nz H4 Mf. clearbody f'. revert t Nz Mf. induction H4 as [|a b l m R F IH]; intros t Nz Mf; inversion Nz; subst; constructor.
      + unfold rle in R. intros Z. destruct H1; lra.
      + apply IH; auto. now inversion Mf. }
  exists f', t. assert (row_pseudo f t = (f0 :: f, f0 :: t)) as Ep.
  { unfold row_pseudo, pseudo_row. change n0 with f0. assert (forall l : list f64, l <> [] -> lastn (f0 :: l) = last l f0) as El by (intros l Nl; apply last_cons_f0; exact Nl).
    rewrite !El by auto. cbn [neqb f64_num].
    assert (forall l, l <> [] -> Forall mid l -> 0 < B2R (last l f0) -> feqb (last l f0) f0 = false) as Z.
    { intros l Nl Ml P. destruct (feqb (last l f0) f0) eqn:E; auto. apply feqb_f0 in E; [lra|]. rewrite Forall_forall in Ml. apply mid_nn, Ml, last_in, Nl. }
    rewrite !Z by auto. reflexivity. }
  destruct (out_good f' t G) as (A1 & A2 & A3 & A4 & A5).
  assert (row_out f t = (f0 :: f', f0 :: t)) as Eo by (unfold row_out; rewrite Ep; reflexivity).
  split; [|split; [exact Eo|split; [exact G|exact H1]]]. unfold row_ok. rewrite Eo, Ep. cbn [fst snd]. rewrite A5 in A1. rewrite A1, A2, A4.
  assert (nltb n0 (lastn (f0 :: f)) = true) as ->; [|reflexivity].
  change (lastn (f0 :: f)) with (last (f0 :: f) f0). rewrite last_cons_f0 by auto. change n0 with f0. cbn [nltb f64_num].
  apply fltb_fin; [reflexivity| |exact Pf]. rewrite Forall_forall in Mf. apply Mf, last_in, Ne.
Qed.

Lemma finish_rows rows D : D <> [] -> Forall (fun p => row_done (fst p) (snd p) /\ length (fst p) = length D) rows ->
  exists F T, finish rows D = Ok (F, T, finf :: D) /\ good_rows F T (S (length D)) /\ length F = length rows.
Proof.
  intros Nd H. exists (map (fun p => fst (row_out (fst p) (snd p))) rows), (map (fun p => snd (row_out (fst p) (snd p))) rows).
  assert (forallb (fun p => row_ok (fst p) (snd p)) rows = true) as E.
  { apply forallb_forall. intros p I. rewrite Forall_forall in H. destruct (H p I) as [(f' & t' & K & _) _]. exact K. }
  unfold finish. rewrite E. cbn [py_assert bind]. split; [reflexivity|]. split; [|apply map_length].
  clear E. unfold good_rows. induction H as [|p l [(f' & t' & K & Eo & G & L) Lp] Fl IH]; cbn [map]; constructor; auto.
  rewrite Eo. exists f', t'. cbn [fst snd]. split; auto. split; auto. split; auto. congruence.
Qed.

(** *** One row of bootstrap counts *)
Lemma cumsum_last (l : list f64) : forall a, last (cumsum_from a l) a = fold_left fadd l a.
Proof. induction l as [|b l IH]; intros a; [reflexivity|]. cbn [cumsum_from fold_left]. rewrite last_cons2. apply IH. Qed.
Lemma cumsum_len (l : list f64) : forall a, length (cumsum_from a l) = length l.
Proof. induction l as [|b l IH]; intros a; [reflexivity|]. cbn [cumsum_from length]. now rewrite IH. Qed.

Lemma cumsum_f0 (l : list f64) : Forall (fun x => nn x /\ B2R x <= P2 1000) l -> cumsum l = cumsum_from f0 l.
Proof.
  destruct l as [|a l]; [reflexivity|]. intros H. inversion H as [|? ? [N U] _]; subst. cbn [cumsum cumsum_from].
  assert (nadd f0 a = a) as ->; [|reflexivity]. cbn [nadd f64_num].
  assert (B2R f0 + B2R a = B2R a) as E by (change (B2R f0) with 0; ring).
  destruct (fadd_nn f0 a nn_f0 N) as [N' V']; [rewrite E; exact U|].
  apply nn_eq; auto. rewrite V', E. apply rnd64_id, B2R_format.
Qed.

Lemma st_start : st 0 f0 f0.
Proof. constructor; try apply nn_f0; change (B2R f0) with 0; try lra; now left. Qed.

Lemma step_pos L : forall c t, 0 <= t -> format64 t -> Forall (fun q => 0 <= snd q)%Z L -> 0 < t \/ existsb fst L = true -> 0 < snd (fold_left step L (c, t)).
Proof.
  induction L as [|[b k] L IH]; intros c t T0 Ft F H; cbn [fold_left existsb] in *.
  - destruct H as [H|H]; [exact H|discriminate].
  - inversion F as [|? ? K F']; subst. cbn [fst snd] in *. unfold step at 2. cbn [fst snd]. pose proof (wt_range k K) as Rk.
    assert (t <= rnd64 (t + wt k)) as G by (apply rnd64_ge; auto; lra).
    apply IH; auto; destruct b; auto; try lra; try (apply generic_format_round; typeclasses eauto).
    left. assert (P2 (-1000) <= rnd64 (t + wt k)) as G'.
    { apply rnd64_ge; [apply format64_pow; lia|]. pose proof e10_range as ER. assert (P2 (-1000) <= P2 (-34)) by (apply bpow_le; lia).
      pose proof (P2_le1 (-34) ltac:(lia)). unfold wt. destruct (k =? 0)%Z eqn:E; [lra|]. apply Z.eqb_neq in E.
      assert (1 <= k)%Z as K1 by lia. apply IZR_le in K1. lra. }
    pose proof (bpow_gt_0 radix2 (-1000)). lra.
Qed.

Section BootRow.
  Context (L : list (bool * Z)) (m : list bool).
  Hypothesis (Pk : Forall (fun q => 0 <= snd q)%Z L) (Sk : (sumk L + Z.of_nat (length L) <= 2 ^ 53)%Z) (Lm : length L = S (length m)).
  Let C := cumsum_from f0 (walls L).
  Let T := cumsum_from f0 (parts L).
  Let K := m ++ [true].
  Let f := mask K (map2 fsub C T).
  Let t := mask K T.

  Lemma boot_row :
    (existsb fst L = true -> existsb (fun q => negb (fst q)) L = true -> let e := fold_left step L (0, 0) in snd e < fst e) ->
    row_done f t /\ length f = length (mask K C) /\ last f f0 = fsub (last C f0) (last T f0) /\ last t f0 = last T f0.
  Proof.
    intros Gap. destruct (rows_run L 0 f0 f0 st_start ltac:(lia) Pk Sk) as (H1 & H2 & H3 & H4 & H5 & H6). cbv zeta in *. fold C T in H1, H2, H3, H4, H5, H6.
    change (B2R f0) with 0 in *.
    assert (length C = S (length m)) as LC by (unfold C, walls; now rewrite cumsum_len, map_length).
    assert (length T = S (length m)) as LT by (unfold T, parts; now rewrite cumsum_len, map_length).
    assert (length (map2 fsub C T) = S (length m)) as LF by (rewrite map2_len; congruence).
    destruct (mask_last m (map2 fsub C T) f0 LF) as [LaF NeF]. destruct (mask_last m T f0 LT) as [LaT NeT]. fold K in LaF, NeF, LaT, NeT. fold f in LaF, NeF. fold t in LaT, NeT.
    assert (C <> []) as NC by (intros E; rewrite E in LC; discriminate).
    rewrite (last_map2 _ C T f0 f0 f0) in LaF by (auto; congruence).
    assert (length f = length t) as Lft by (apply mask_length_eq; congruence).
    assert (length f = length (mask K C)) as LfC by (apply mask_length_eq; congruence).
    assert (Forall2 (fun a b => mid a /\ mid b /\ (0 < B2R a \/ 0 < B2R b)) (map2 fsub C T) T) as HF.
    { clear -H1. induction H1 as [|a b l l' [S P] F IH]; cbn [map2]; constructor; auto. destruct (st_sub a b S P) as (A1 & A2 & A3 & _). auto. }
    pose proof (mask_Forall2 _ _ _ HF K) as HM. fold f t in HM.
    assert (Forall mid f /\ Forall mid t /\ Forall2 (fun a b => 0 < B2R a \/ 0 < B2R b) f t) as (Mf & Mt & Nz).
    { clear -HM. induction HM as [|a b l l' (A1 & A2 & A3) F (I1 & I2 & I3)]; repeat split; try constructor; auto. }
    assert (StronglySorted rle (f0 :: t)) as St by (apply (mask_sorted _ _ H3 (true :: K))).
    assert (StronglySorted rle (f0 :: mask K C)) as SC by (apply (mask_sorted _ _ H2 (true :: K))).
    split; [|split; [exact LfC|split; [exact LaF|exact LaT]]].
    assert (forall l : list f64, (forall x, In x l -> nn x) -> Forall (fun x => B2R x = 0) l -> StronglySorted rle (f0 :: l)) as Z0.
    { intros l Nl Zl. assert (forall x, In x l -> x = f0) as E. { intros x I. rewrite Forall_forall in Zl. apply nn_zero; auto. }
      assert (Forall (rle f0) l) as F0 by (apply Forall_forall; intros x I; rewrite (E x I); unfold rle; lra).
      constructor; auto. clear -E. induction l as [|a l IH]; constructor; [apply IH; intros; apply E; now right|].
      apply Forall_forall. intros x I. rewrite (E x), (E a) by (try (now left); now right). unfold rle. lra. }
    destruct (existsb (fun q => negb (fst q)) L) eqn:En; [destruct (existsb fst L) eqn:Ep|].
    - specialize (Gap eq_refl eq_refl). pose proof (step_pos L 0 0 ltac:(lra) format64_0 Pk (or_intror Ep)) as Pt.
      rewrite <- H4 in Gap, Pt. cbn [fst snd] in Gap, Pt.
      apply unsorted_done; auto; [|rewrite LaT; exact Pt]. rewrite LaF.
      assert (st (2 ^ 53) (last C f0) (last T f0) /\ 0 < B2R (last C f0)) as [Sl Pl].
      { clear -H1 NC. induction H1 as [|a b l l' H F IH]; [congruence|]. inversion F as [|c d r r' H' F']; subst; [exact H|]. cbn [last] in *. apply IH. discriminate. }
      destruct (st_sub _ _ Sl Pl) as (A1 & _ & _ & A4 & _). pose proof (nn_ge0 _ (mid_nn _ A1)) as G0.
      destruct (Req_dec (B2R (fsub (last C f0) (last T f0))) 0) as [E|E]; [|lra]. apply A4 in E. lra.
    - apply raw_done. repeat split; auto.
      assert (forallb (fun p => negb (fst p)) L = true) as An.
      { apply forallb_forall. intros x I. destruct (fst x) eqn:E; auto. assert (existsb fst L = true); [apply existsb_exists; eauto|congruence]. }
      specialize (H6 An eq_refl).
      assert (Forall2 (fun a b => B2R a = B2R b) (map2 fsub C T) C) as HE.
      { clear -H1 H6. induction H1 as [|a b l l' [S P] F IH]; cbn [map2]; constructor.
        - inversion H6 as [|? ? Zb _]; subst. destruct (st_sub a b S P) as (_ & _ & _ & _ & V). rewrite V, Zb, Rminus_0_r. apply rnd64_id, B2R_format.
        - apply IH. now inversion H6. }
      pose proof (mask_Forall2 _ _ _ HE K) as HEm. fold f in HEm.
      assert (forall a l l', Forall2 (fun a b : f64 => B2R a = B2R b) l l' -> StronglySorted rle (a :: l') -> StronglySorted rle (a :: l)) as Tr.
      { clear. intros a l l' H S. revert a S. induction H as [|x z l l' E F IH]; intros a S; [exact S|].
        apply StronglySorted_inv in S as [S1 S2]. inversion S2; subst. apply sorted_cons_rle.
        - unfold rle in *. lra.
        - apply IH. constructor; [now apply StronglySorted_inv in S1|]. apply StronglySorted_inv in S1 as [_ S1]. eapply Forall_impl; [|exact S1].
          intros w. unfold rle. intros. lra. }
      eapply Tr; eauto.
    - apply raw_done. repeat split; auto.
      assert (forallb fst L = true) as An.
      { apply forallb_forall. intros x I. destruct (fst x) eqn:E; auto. assert (existsb (fun q => negb (fst q)) L = true); [|congruence].
        apply existsb_exists. exists x. rewrite E. auto. }
      specialize (H5 An eq_refl). apply Z0; [intros x I; rewrite Forall_forall in Mf; apply mid_nn; auto|]. apply mask_Forall.
      clear -H1 H5. revert H5. induction H1 as [|a b l l' [S P] F IH]; cbn [map2]; intros H5; constructor.
      + inversion H5; subst. destruct (st_sub a b S P) as (_ & _ & _ & A & _). now apply A.
      + apply IH. now inversion H5.
  Qed.
End BootRow.

(** ** Errors of the sums *)
Lemma u64_dec : u64 <= 1111 / 10 ^ 19.
Proof.
  unfold MeanProofs.u64. assert (P2 (-53) = / IZR (2 ^ 53)) as -> by reflexivity. cbn [Z.pow Z.pow_pos Pos.iter Z.mul Pos.mul]. lra.
Qed.

Lemma nn_abs_sum l : Forall nn l -> abs_sum l = Rsum (vals l).
Proof.
  unfold abs_sum, vals. induction 1 as [|a l N F IH]; [reflexivity|]. cbn [map]. unfold Rsum in *. cbn [fold_right]. rewrite IH, Rabs_pos_eq by now apply nn_ge0. reflexivity.
Qed.

Lemma sum_near l (v : f64) n : sums_to l v -> Forall nn l -> (length l <= n)%nat -> INR n <= 100000 -> Rsum (vals l) <= P2 990 ->
  fisfin v = true /\ Rabs (B2R v - Rsum (vals l)) <= INR n * u64 * (1001 / 1000) * Rsum (vals l).
Proof.
  intros S N Ln Hn U. pose proof (nn_abs_sum l N) as EA. pose proof (abs_sum_pos l) as A0. rewrite EA in A0. pose proof u64_pos as Pu. pose proof u64_dec as Du.
  assert (INR (length l) <= INR n) as Ll by now apply le_INR.
  assert (INR (Nat.pred (length l)) <= INR n) as Lp by (apply le_INR; lia). pose proof (pos_INR (Nat.pred (length l))) as P0.
  destruct (sums_err l v S) as [Fv Ev].
  - eapply Forall_impl; [|exact N]. intros a Ha. apply Ha.
  - apply Rle_trans with 100000; [lra|]. unfold MAXN. change 30%Z with (17 + 13)%Z. rewrite bpow_plus. change (P2 17) with 131072. change (P2 13) with 8192. lra.
  - rewrite EA. exact U.
  - split; [exact Fv|]. rewrite EA in Ev. eapply Rle_trans; [exact Ev|]. apply Rmult_le_compat_r; [exact A0|].
    assert (INR (Nat.pred (length l)) * u64 <= INR n * u64) as M by (apply Rmult_le_compat_r; lra).
    assert (INR n * u64 <= 100000 * (1111 / 10 ^ 19)) as M2 by (apply Rmult_le_compat; try lra; apply pos_INR).
    eapply Rle_trans; [apply pow_close; lra|]. lra.
Qed.

Definition tot (p : bool -> bool) (L : list (bool * Z)) : R := Rsum (map (fun q => if p (fst q) then wt (snd q) else 0) L).
Definition sel (p : bool -> bool) (L : list (bool * Z)) : list f64 := map (fun q => W (snd q)) (filter (fun q => p (fst q)) L).

Lemma tot_nn p L : Forall (fun q => 0 <= snd q)%Z L -> 0 <= tot p L.
Proof.
  unfold tot, Rsum. induction 1 as [|[b k] l K F IH]; cbn [map fold_right fst snd]; [lra|]. cbn [snd] in K. pose proof (wt_range k K). destruct (p b); lra.
Qed.
Lemma tot_split L : tot (fun _ => true) L = tot (fun b => b) L + tot negb L.
Proof. unfold tot, Rsum. induction L as [|[b k] l IH]; cbn [map fold_right fst snd]; [lra|]. rewrite IH. destruct b; cbn [negb]; lra. Qed.
Lemma tot_ub L : Forall (fun q => 0 <= snd q)%Z L -> tot (fun _ => true) L <= IZR (sumk L) + INR (length L) * e10.
Proof.
  unfold tot, Rsum. induction 1 as [|[b k] l K F IH]; [cbn [map fold_right length INR sumk]; lra|]. cbn [map fold_right fst snd length sumk] in *. fold (sumk l) in *. rewrite plus_IZR, S_INR.
  assert (wt k <= IZR k + e10); [|lra]. pose proof e10_pos. unfold wt. destruct (k =? 0)%Z eqn:E; [apply Z.eqb_eq in E; subst k; lra|lra].
Qed.
Lemma tot_cons p q L : tot p (q :: L) = (if p (fst q) then wt (snd q) else 0) + tot p L.
Proof. reflexivity. Qed.
Lemma tot_one p L q : Forall (fun q => 0 <= snd q)%Z L -> In q L -> p (fst q) = true -> (1 <= snd q)%Z -> 1 <= tot p L.
Proof.
  intros F I Hp K. induction F as [|[b k] l Kk F IH]; [destruct I|]. pose proof (tot_nn p l F) as G. rewrite tot_cons. cbn [fst snd] in *.
  pose proof (wt_range k Kk). destruct I as [<-|I]; [|specialize (IH I); destruct (p b); lra]. cbn [fst snd] in *. rewrite Hp. unfold wt.
  assert ((k =? 0)%Z = false) as -> by (apply Z.eqb_neq; lia). apply IZR_le in K. lra.
Qed.

Lemma sumk_ge L : Forall (fun q => 0 <= snd q)%Z L -> forall q, In q L -> (snd q <= sumk L)%Z.
Proof.
  induction 1 as [|[b k] l K F IH]; [intros ? []|]. intros q [<-|I]; cbn [sumk fold_right snd] in *; fold (sumk l) in *; pose proof (sumk_nn l F); [lia|]. specialize (IH q I). lia.
Qed.

Section Errors.
  Context (L : list (bool * Z)).
  Hypothesis (Pk : Forall (fun q => 0 <= snd q)%Z L) (Sk : (sumk L <= Z.of_nat (length L))%Z) (Nk : (Z.of_nat (length L) <= 100000)%Z).
  Let x := INR (length L).

  Lemma k53 q : In q L -> (0 <= snd q <= 2 ^ 53)%Z.
  Proof. intros I. pose proof (sumk_ge L Pk q I). rewrite Forall_forall in Pk. specialize (Pk q I). lia. Qed.

  Lemma x_range : 0 <= x <= 100000.
  Proof. unfold x. split; [apply pos_INR|]. rewrite INR_IZR_INZ. now apply IZR_le. Qed.

  Lemma A_ub p : 0 <= tot p L <= x * (10001 / 10000).
  Proof.
    split; [now apply tot_nn|]. pose proof (tot_ub L Pk) as U. pose proof e10_dec. pose proof x_range as X. fold x in U.
    assert (IZR (sumk L) <= x) as S by (unfold x; rewrite INR_IZR_INZ; now apply IZR_le).
    assert (x * e10 <= x * (101 / 10 ^ 12)) by (apply Rmult_le_compat_l; lra).
    assert (tot p L <= tot (fun _ => true) L); [|lra]. clear -Pk. induction Pk as [|[b k] l K F IH]; [cbn; lra|].
    specialize (IH F). rewrite !tot_cons. cbn [fst snd] in *. cbv beta iota. pose proof (wt_range k K). destruct (p b); lra.
  Qed.

  Lemma vals_walls : Forall nn (walls L) /\ Rsum (vals (walls L)) = tot (fun _ => true) L.
  Proof.
    pose proof k53 as K. unfold walls, vals, tot. rewrite map_map. split.
    - apply Forall_map, Forall_forall. intros q I. apply (W_val _ (K q I)).
    - f_equal. apply map_ext_in. intros q I. apply (W_val _ (K q I)).
  Qed.
  Lemma vals_parts : Forall nn (parts L) /\ Rsum (vals (parts L)) = tot (fun b => b) L.
  Proof.
    pose proof k53 as K. unfold parts, vals, tot. rewrite map_map. split.
    - apply Forall_map, Forall_forall. intros q I. apply (part_val _ _ (K q I)).
    - f_equal. apply map_ext_in. intros q I. apply (part_val _ _ (K q I)).
  Qed.
  Lemma vals_sel p : Forall nn (sel p L) /\ Rsum (vals (sel p L)) = tot p L.
  Proof.
    pose proof k53 as K. unfold sel, vals, tot. rewrite map_map. split.
    - apply Forall_map, Forall_forall. intros q I. apply filter_In in I as [I _]. apply (W_val _ (K q I)).
    - clear -K. induction L as [|[b k] l IH]; [reflexivity|]. specialize (IH (fun q I => K q (or_intror I))). cbn [filter map fst snd].
      unfold Rsum in *. cbn [fold_right]. destruct (p b); cbn [map fold_right]; rewrite IH; [|lra]. f_equal. cbn [snd]. apply (W_val k (K (b, k) (or_introl eq_refl))).
  Qed.

  Lemma small_tot p : tot p L <= P2 990.
  Proof.
    pose proof (A_ub p). pose proof x_range. apply Rle_trans with (P2 20); [|apply bpow_le; lia]. change (P2 20) with 1048576. lra.
  Qed.

  Let c := last (cumsum_from f0 (walls L)) f0.
  Let t := last (cumsum_from f0 (parts L)) f0.
  Let g := x * u64 * (1001 / 1000).

  Lemma g_ub b p : x <= b -> g * tot p L <= b * b * (1114 / 10 ^ 19) /\ u64 * tot p L <= b * (1114 / 10 ^ 19) /\ 0 <= g <= / 10 ^ 10.
  Proof.
    intros B. pose proof (A_ub p) as A. pose proof x_range as X. pose proof u64_pos as P. pose proof u64_dec as D.
    assert (x * u64 <= x * (1111 / 10 ^ 19)) as M1 by (apply Rmult_le_compat_l; lra).
    assert (0 <= x * u64) as M0 by (apply Rmult_le_pos; lra). unfold g. split; [|split].
    - apply Rle_trans with ((x * (11122 / 10 ^ 20)) * (x * (10001 / 10000))); [apply Rmult_le_compat; lra|].
      replace (x * (11122 / 10 ^ 20) * (x * (10001 / 10000))) with (x * x * (11122 / 10 ^ 20 * (10001 / 10000))) by ring.
      apply Rmult_le_compat; [apply Rmult_le_pos; lra|lra| |lra]. apply Rmult_le_compat; lra.
    - apply Rle_trans with ((1111 / 10 ^ 19) * (x * (10001 / 10000))); [apply Rmult_le_compat; lra|].
      replace (1111 / 10 ^ 19 * (x * (10001 / 10000))) with (x * (1111 / 10 ^ 19 * (10001 / 10000))) by ring. apply Rmult_le_compat; lra.
    - lra.
  Qed.

  Lemma c_near : fisfin c = true /\ Rabs (B2R c - tot (fun _ => true) L) <= g * tot (fun _ => true) L.
  Proof.
    destruct vals_walls as [N V]. rewrite <- V. apply (sum_near (walls L) c (length L)); auto.
    - unfold c. rewrite cumsum_last. exact (fold_sums (NT := f64_num) (walls L) [] f0 (SumProofs.st_nil (NT := f64_num))).
    - unfold walls. rewrite map_length. lia.
    - apply x_range.
    - rewrite V. apply small_tot.
  Qed.
  Lemma t_near : fisfin t = true /\ Rabs (B2R t - tot (fun b => b) L) <= g * tot (fun b => b) L.
  Proof.
    destruct vals_parts as [N V]. rewrite <- V. apply (sum_near (parts L) t (length L)); auto.
    - unfold t. rewrite cumsum_last. exact (fold_sums (NT := f64_num) (parts L) [] f0 (SumProofs.st_nil (NT := f64_num))).
    - unfold parts. rewrite map_length. lia.
    - apply x_range.
    - rewrite V. apply small_tot.
  Qed.
  Lemma sel_near p n : fisfin (row_sum n (sel p L)) = true /\ Rabs (B2R (row_sum n (sel p L)) - tot p L) <= g * tot p L.
  Proof.
    destruct (vals_sel p) as [N V]. rewrite <- V. apply (sum_near (sel p L) _ (length L)); auto.
    - apply row_sums.
    - unfold sel. rewrite map_length. apply filter_len_le.
    - apply x_range.
    - rewrite V. apply small_tot.
  Qed.

  Lemma gap_drawn q : In q L -> fst q = false -> (1 <= snd q)%Z -> B2R t < B2R c.
  Proof.
    intros I Hq K. pose proof (tot_one negb L q Pk I ltac:(now rewrite Hq) K) as O. pose proof (tot_split L) as S.
    destruct c_near as [_ Ec]. destruct t_near as [_ Et]. apply Rabs_le_inv in Ec. apply Rabs_le_inv in Et.
    destruct (g_ub 100000 (fun _ => true) (proj2 x_range)) as (G1 & _). destruct (g_ub 100000 (fun b => b) (proj2 x_range)) as (G2 & _). lra.
  Qed.

  Lemma tps_close n : isclose t (row_sum n (sel (fun b => b) L)) = true.
  Proof.
    destruct t_near as [Ft Et]. destruct (sel_near (fun b => b) n) as [Fv Ev]. set (v := row_sum n (sel (fun b => b) L)) in *.
    pose proof (A_ub (fun b => b)) as A. destruct (g_ub 100000 (fun b => b) (proj2 x_range)) as (G1 & _ & G3). pose proof x_range.
    set (S := tot (fun b => b) L) in *. assert (g * S <= / 10 ^ 10 * S) as G by (apply Rmult_le_compat_r; lra).
    apply Rabs_le_inv in Et. apply Rabs_le_inv in Ev. apply isclose_tol; auto.
    - split; [lra|]. apply Rle_trans with (P2 20); [|apply bpow_le; lia]. change (P2 20) with 1048576. lra.
    - apply Rabs_le. lra.
  Qed.

  Lemma fps_close n : B2R (fsub c t) = rnd64 (B2R c - B2R t) -> fisfin (fsub c t) = true ->
    (Z.of_nat (length L) <= 5000)%Z \/ 1 <= tot negb L \/ (fsub c t = f0 /\ sel negb L = []) ->
    isclose (fsub c t) (row_sum n (sel negb L)) = true.
  Proof.
    intros Vf Ff H. destruct c_near as [Fc Ec]. destruct t_near as [Ft Et]. destruct (sel_near negb n) as [Fv Ev]. set (v := row_sum n (sel negb L)) in *.
    pose proof (tot_split L) as S. pose proof (A_ub (fun _ => true)) as A1. pose proof (A_ub (fun b => b)) as A2. pose proof (A_ub negb) as A3. pose proof x_range as X.
    pose proof u64_pos as Pu.
    assert (Rabs (B2R (fsub c t) - (B2R c - B2R t)) <= u64 * Rabs (B2R c - B2R t)) as Er.
    { rewrite Vf. pose proof (rnd_add_err (B2R c) (- B2R t) (B2R_format c) (generic_format_opp _ _ _ (B2R_format t))) as E. exact E. }
    apply Rabs_le_inv in Ec. apply Rabs_le_inv in Et. apply Rabs_le_inv in Ev.
    destruct (g_ub 100000 (fun _ => true) (proj2 X)) as (_ & _ & G3).
    assert (forall p, g * tot p L <= / 10 ^ 10 * tot p L /\ 0 <= g * tot p L) as Gp.
    { intros p. pose proof (A_ub p). split; [apply Rmult_le_compat_r; lra|apply Rmult_le_pos; lra]. }
    pose proof (Gp (fun _ => true)) as Gp1. pose proof (Gp (fun b => b)) as Gp2. pose proof (Gp negb) as Gp3.
    assert (g * tot (fun _ => true) L = g * tot (fun b => b) L + g * tot negb L) as GS by (rewrite S; ring).
    assert (Rabs (B2R c - B2R t) <= 2 * tot (fun _ => true) L) as U2 by (apply Rabs_le; lra).
    assert (u64 * Rabs (B2R c - B2R t) <= 2 * (u64 * tot (fun _ => true) L)) as U3.
    { replace (2 * (u64 * tot (fun _ => true) L)) with (u64 * (2 * tot (fun _ => true) L)) by ring. apply Rmult_le_compat_l; lra. }
    apply Rabs_le_inv in Er.
    destruct H as [H|[H|[H1 H2]]].
    - assert (x <= 5000) as X5 by (unfold x; rewrite INR_IZR_INZ; now apply IZR_le). destruct (g_ub 5000 (fun _ => true) X5) as (G1 & G2 & _).
      apply isclose_tol; auto; [split; [lra|]; apply Rle_trans with (P2 20); [change (P2 20) with 1048576; lra|apply bpow_le; lia]|]. apply Rabs_le. lra.
    - destruct (g_ub 100000 (fun _ => true) (proj2 X)) as (G1 & G2 & _).
      apply isclose_tol; auto; [split; [lra|]; apply Rle_trans with (P2 20); [change (P2 20) with 1048576; lra|apply bpow_le; lia]|]. apply Rabs_le. lra.
    - assert (tot negb L = 0) as Z0. { destruct (vals_sel negb) as [_ V]. rewrite H2 in V. symmetry. exact V. }
      rewrite H1. apply isclose_tol; auto; [rewrite Z0 in *; split; [lra|]; apply Rle_trans with 1; [lra|]; change 1 with (P2 0); apply bpow_le; lia|].
      rewrite Z0 in *. change (B2R f0) with 0. apply Rabs_le. lra.
  Qed.
End Errors.

(** ** The counts and checks of _binary_clf_curve *)
Lemma sumk_map L : sumk L = Zsum (map snd L).
Proof. induction L as [|q l IH]; [reflexivity|]. cbn [sumk fold_right map Zsum]. fold (sumk l) (Zsum (map snd l)). now rewrite IH. Qed.

Lemma filter_none {A} (p : A -> bool) l : (forall a, In a l -> p a = false) -> filter p l = [].
Proof. induction l as [|a l IH]; intros H; [reflexivity|]. cbn [filter]. rewrite (H a (or_introl eq_refl)). apply IH. intros; apply H; now right. Qed.

(** One bootstrap replicate: how often each sample was drawn *)
Record draws (y : list bool) (ks : list Z) : Prop := {
  dr_len : length ks = length y;
  dr_nn : Forall (fun k => 0 <= k)%Z ks;
  dr_sum : Zsum ks = Z.of_nat (length y);
  dr_neg : (Z.of_nat (length y) <= 5000)%Z \/ forallb (fun b => b) y = true \/ existsb (fun p => negb (fst p) && (1 <=? snd p)%Z) (combine y ks) = true }.

Section Replicate.
  Context (s : list f64) (y : list bool) (ks : list Z).
  Hypothesis (Fs : Forall (fun x => fisfin x = true) s) (Ls : length s = length y) (Ne : s <> [])
    (Ny : (Z.of_nat (length y) <= 100000)%Z) (D : draws y ks).
  Let P : list zpt := combine s (combine y ks).
  Let Q : list zpt := take P (rev (argsort_stable s)).
  Let L : list (bool * Z) := map snd Q.
  Let r := map W ks.
  Lemma Lk_ : length ks = length y.
  Proof. apply (dr_len _ _ D). Qed.

  Definition fltW (p : zpt) : f64 * (bool * f64) := (fst p, (fst (snd p), W (zw p))).
  Lemma QW : sorted_samples s y r = map fltW Q.
  Proof.
    pose proof Lk_ as Lk.
    unfold sorted_samples, samples, Q. rewrite <- take_map. f_equal. unfold P, r. clear -Lk Ls. revert y ks Ls Lk.
    induction s as [|a l IH]; intros [|b y] [|k ks] L1 L2; try discriminate; [reflexivity|]. cbn [combine map]. f_equal. apply IH; auto; cbn in *; lia.
  Qed.
  Lemma LP : Permutation L (combine y ks).
  Proof.
    pose proof Lk_ as Lk.
    unfold L. rewrite (QP s y ks Ls Lk : Permutation Q P). unfold P. assert (map snd (combine s (combine y ks)) = combine y ks) as ->; [|reflexivity].
    clear -Lk Ls. revert y ks Ls Lk. induction s as [|a l IH]; intros [|b y] [|k ks] L1 L2; try discriminate; [reflexivity|].
    cbn [combine map snd]. f_equal. apply IH; auto; cbn in *; lia.
  Qed.
  Lemma L_facts : Forall (fun q => 0 <= snd q)%Z L /\ length L = length y /\ sumk L = Z.of_nat (length y).
  Proof.
    pose proof Lk_ as Lk.
    assert (map snd (combine y ks) = ks) as E.
    { clear -Lk. revert ks Lk. induction y as [|b l IH]; intros [|k ks] E; try discriminate; [reflexivity|]. cbn [combine map snd]. f_equal. apply IH. cbn in E. lia. }
    split; [|split].
    - apply Forall_forall. intros q I. rewrite LP in I. pose proof (dr_nn _ _ D) as H. rewrite Forall_forall in H. apply H. rewrite <- E. now apply in_map.
    - rewrite (Permutation_length LP), combine_length, Lk. apply Nat.min_id.
    - rewrite sumk_map, (Zsum_perm _ _ (Permutation_map snd LP)), E. apply (dr_sum _ _ D).
  Qed.

  Let m := map (fun d : f64 => negb (neqb d n0)) (diff (sorted_scores s)).
  Lemma Lm : length L = S (length m).
  Proof.
    unfold m. rewrite map_length, diff_length, sorted_scores_length. destruct L_facts as (_ & E & _). rewrite E, <- Ls. destruct s; [congruence|]. cbn. lia.
  Qed.
  Let K := m ++ [true].
  Let C := cumsum_from f0 (walls L).
  Let T := cumsum_from f0 (parts L).

  Lemma k53' q : In q L -> (0 <= snd q <= 2 ^ 53)%Z.
  Proof.
    intros I. destruct L_facts as (F & E & S). pose proof (sumk_ge L F q I). rewrite Forall_forall in F. specialize (F q I). lia.
  Qed.
  Lemma cum_walls : cumsum (map wall (sorted_samples s y r)) = C.
  Proof.
    rewrite QW, map_map. assert (map (fun q => wall (fltW q)) Q = walls L) as -> by (unfold walls, L; now rewrite map_map).
    apply cumsum_f0. apply Forall_map, Forall_forall. intros q I. pose proof (k53' q I) as B. destruct (W_val _ B) as (N & V & _). split; auto.
    rewrite V. pose proof (wt_range (snd q) ltac:(lia)) as U. assert (IZR (snd q) <= IZR (2 ^ 53)) as U2 by (apply IZR_le; lia).
    apply Rle_trans with (P2 54); [|apply bpow_le; lia]. rewrite <- IZR_P2 by lia. apply Rle_trans with (IZR (2 ^ 53) + 1); [lra|]. rewrite <- plus_IZR. apply IZR_le. cbn. lia.
  Qed.
  Lemma cum_parts : cumsum (map wpart (sorted_samples s y r)) = T.
  Proof.
    rewrite QW, map_map. assert (map (fun q => wpart (fltW q)) Q = parts L) as -> by (unfold parts, L; now rewrite map_map).
    apply cumsum_f0. apply Forall_map, Forall_forall. intros q I. pose proof (k53' q I) as B. destruct (part_val (fst q) _ B) as (N & V). split; auto.
    rewrite V. pose proof (wt_range (snd q) ltac:(lia)) as U. assert (IZR (snd q) <= IZR (2 ^ 53)) as U2 by (apply IZR_le; lia).
    apply Rle_trans with (P2 54); [|apply bpow_le; lia]. rewrite <- IZR_P2 by lia. apply Rle_trans with (IZR (2 ^ 53) + 1); [destruct (fst q); lra|]. rewrite <- plus_IZR. apply IZR_le. cbn. lia.
  Qed.

  Lemma Lr_ : length r = length y.
  Proof. unfold r. rewrite map_length. apply Lk_. Qed.
  Lemma tps_mask : tps_row s y r = mask K T.
  Proof.
    rewrite <- cum_parts. symmetry. rewrite <- (take_tidx_mask (NT := f64_num) s _ Ne).
    - apply (row_total (NT := f64_num) s y Fs Ls Ne wpart r Lr_).
    - rewrite cum_parts. unfold T, parts. rewrite cumsum_len, map_length. destruct L_facts as (_ & E & _). congruence.
  Qed.
  Lemma fps_mask : fps_row s y r = mask K (map2 fsub C T).
  Proof.
    assert (length C = length s) as LC by (unfold C, walls; rewrite cumsum_len, map_length; destruct L_facts as (_ & E & _); congruence).
    assert (length T = length s) as LT by (unfold T, parts; rewrite cumsum_len, map_length; destruct L_facts as (_ & E & _); congruence).
    rewrite mask_map2 by congruence. rewrite <- tps_mask.
    assert (mask K C = map (fun t => sum1 (map wall (at_or_above t (sorted_samples s y r)))) (thr s)) as ->.
    { rewrite <- (row_total (NT := f64_num) s y Fs Ls Ne wall r Lr_), cum_walls. symmetry. apply (take_tidx_mask (NT := f64_num) s _ Ne LC). }
    unfold fps_row, tps_row. rewrite map2_map_same. reflexivity.
  Qed.

  Lemma mask_sel (p : bool -> bool) : mask (map p (take y (rev (argsort_stable s)))) (take r (rev (argsort_stable s))) = sel p L.
  Proof.
    pose proof Lk_ as Lk.
    assert (take y (rev (argsort_stable s)) = map fst L /\ take ks (rev (argsort_stable s)) = map snd L) as [E1 E2].
    { unfold L, Q. rewrite !map_map, <- !take_map. split; f_equal; unfold P; clear -Lk Ls; revert y ks Ls Lk;
      (induction s as [|a l IH]; intros [|b y] [|k ks] L1 L2; try discriminate; [reflexivity|]; cbn [combine map fst snd]; f_equal; apply IH; cbn in *; lia). }
    unfold r. rewrite take_map, E1, E2. unfold sel. generalize L. induction L0 as [|q l IH]; cbn [map mask filter]; auto.
    destruct (p (fst q)); cbn [map]; now rewrite IH.
  Qed.

  Lemma replicate_row n :
    row_done (fps_row s y r) (tps_row s y r) /\ length (fps_row s y r) = length (thr s) /\
    isclose (lastn (fps_row s y r)) (neg_sum s y n r) = true /\ isclose (lastn (tps_row s y r)) (pos_sum s y n r) = true.
  Proof.
    destruct L_facts as (F & E & S). assert (sumk L <= Z.of_nat (length L))%Z as Sk by (rewrite S, E; lia). assert (Z.of_nat (length L) <= 100000)%Z as Nk by (rewrite E; exact Ny).
    assert (1 <= Z.of_nat (length y))%Z as Y1. { rewrite <- Ls. destruct s; [congruence|]. cbn [length]. lia. }
    destruct (rows_run L 0 f0 f0 st_start ltac:(lia) F ltac:(lia)) as (H1 & _ & _ & H4 & H5 & _). cbv zeta in *. fold C T in H1, H4, H5. change (B2R f0) with 0 in *.
    assert (C <> []) as NC. { unfold C, walls. intros Z. apply (f_equal (@length _)) in Z. rewrite cumsum_len, map_length, Lm in Z. discriminate. }
    assert (st (2 ^ 53) (last C f0) (last T f0) /\ 0 < B2R (last C f0)) as [Sl Pl].
    { clear -H1 NC. induction H1 as [|a b l l' H F IH]; [congruence|]. inversion F as [|c d r r' H' F']; subst; [exact H|]. cbn [last] in *. apply IH. discriminate. }
    destruct (st_sub _ _ Sl Pl) as (A1 & _ & _ & A4 & A5).
    assert (forall q, In q L <-> In q (combine y ks)) as IL by (intros q; split; intros; [rewrite <- LP|rewrite LP]; auto).
    assert (existsb (fun p => negb (fst p) && (1 <=? snd p)%Z) (combine y ks) = true -> exists q, In q L /\ fst q = false /\ (1 <= snd q)%Z) as Dr.
    { intros H. apply existsb_exists in H as (q & I & H). apply andb_true_iff in H as [Ha Hb]. exists q. split; [now apply IL|]. split; [now destruct (fst q)|]. now apply Z.leb_le. }
    assert (forallb (fun b => b) y = true -> forallb fst L = true) as Al.
    { intros H. apply forallb_forall. intros q I. apply IL in I. rewrite forallb_forall in H. apply H. destruct q. apply in_combine_l in I. exact I. }
    assert ((exists q, In q L /\ fst q = false /\ (1 <= snd q)%Z) \/ (Z.of_nat (length L) <= 5000)%Z \/ forallb fst L = true) as Hd.
    { destruct (dr_neg _ _ D) as [H|[H|H]]; [right; left; rewrite E; exact H|right; right; auto|left; auto]. }
    destruct (boot_row L m F ltac:(lia) Lm) as (R1 & R2 & R3 & R4).
    { intros Ep En e. unfold e. rewrite <- H4. cbn [fst snd].
      destruct Hd as [(q & I & Hq & Kq)|[Hs|Ha]]; [apply (gap_drawn L F Sk Nk q I Hq Kq)| |].
      - destruct (existsb (fun p => negb (fst p) && (1 <=? snd p)%Z) L) eqn:Ex.
        + apply existsb_exists in Ex as (q & I & H). apply andb_true_iff in H as [Hb Hc]. apply Z.leb_le in Hc. apply (gap_drawn L F Sk Nk q I); auto. now destruct (fst q).
        + pose proof (gap_final L) as G. rewrite <- H4 in G. cbn [fst snd] in G. apply G; auto.
          * rewrite INR_IZR_INZ. apply IZR_le. lia.
          * rewrite S. lia.
          * apply Forall_forall. intros q I Hq. rewrite Forall_forall in F. specialize (F q I). cbv beta in F. destruct (Z.eq_dec (snd q) 0) as [Z|Z]; auto. exfalso.
            assert (existsb (fun p => negb (fst p) && (1 <=? snd p)%Z) L = true); [|congruence]. apply existsb_exists. exists q. split; auto. rewrite Hq. cbn [negb andb]. apply Z.leb_le. lia.
      - exfalso. apply existsb_exists in En as (q & I & Hq). rewrite forallb_forall in Ha. specialize (Ha q I). destruct (fst q); discriminate. }
    fold C T K in R1, R2, R3, R4. rewrite <- fps_mask in R1, R2, R3. rewrite <- tps_mask in R1, R4.
    split; [exact R1|]. split; [unfold fps_row; apply map_length|].
    change (lastn (fps_row s y r)) with (last (fps_row s y r) f0). change (lastn (tps_row s y r)) with (last (tps_row s y r) f0). rewrite R3, R4.
    unfold neg_sum, pos_sum. rewrite (mask_sel negb). split.
    - apply (fps_close L F Sk Nk n A5).
      + apply A1.
      + destruct Hd as [(q & I & Hq & Kq)|[Hs|Ha]]; auto.
        * right. left. apply (tot_one negb L q F I); [now rewrite Hq|exact Kq].
        * right. right. specialize (H5 Ha eq_refl). split.
          -- apply nn_zero; [apply A1|]. apply A4. clear -H5 NC. induction H5 as [|a b l l' H F IH]; [congruence|]. inversion F as [|c d r r' H' F']; subst; [exact H|]. cbn [last] in *. apply IH. discriminate.
          -- unfold sel. assert (filter (fun q => negb (fst q)) L = []) as ->; [|reflexivity]. apply filter_none. intros q I. rewrite forallb_forall in Ha. now rewrite (Ha q I).
    - rewrite <- (map_id (take y _)). rewrite (mask_sel (fun b => b)). apply (tps_close L F Sk Nk n).
  Qed.
End Replicate.

Theorem clf_boot s y KS : Forall (fun x => fisfin x = true) s -> length s = length y -> s <> [] -> (Z.of_nat (length y) <= 100000)%Z ->
  KS <> [] -> Forall (draws y) KS ->
  exists F T, _binary_clf_curve y s (Some (map (map W) KS)) = Ok (F, T, finf :: thr s) /\ good_rows F T (length (finf :: thr s)) /\ length F = length KS.
Proof.
  intros Fs Ls Ne Ny Nk D. assert (forall ks k, In ks KS -> In k ks -> (0 <= k <= 2 ^ 53)%Z) as B.
  { intros ks k I J. rewrite Forall_forall in D. destruct (D ks I) as [_ Hn Hs _]. pose proof (Zsum_in ks k Hn J). rewrite Forall_forall in Hn. specialize (Hn k J). lia. }
  rewrite (clf_weighted (NT := f64_num) s y (map (map W) KS) Fs Ls Ne).
  - assert (forall ks n, In ks KS -> row_done (fps_row s y (map W ks)) (tps_row s y (map W ks)) /\ length (fps_row s y (map W ks)) = length (thr s) /\
      isclose (lastn (fps_row s y (map W ks))) (neg_sum s y n (map W ks)) = true /\ isclose (lastn (tps_row s y (map W ks))) (pos_sum s y n (map W ks)) = true) as R.
    { intros ks n I. rewrite Forall_forall in D. apply replicate_row; auto. }
    assert (forall (f g : list f64 -> f64), (forall ks, In ks KS -> isclose (f (map W ks)) (g (map W ks)) = true) -> allclose (map f (map (map W) KS)) (map g (map (map W) KS)) = true) as AC.
    { clear. intros f g H. unfold allclose. rewrite !map_map. apply forallb_forall. intros [u v] I. cbn [fst snd].
      induction KS as [|k l IH]; cbn [map combine] in I; [destruct I|]. destruct I as [E|I]; [apply pair_eq in E as [<- <-]; apply H; now left|]. apply IH; auto. intros; apply H; now right. }
    rewrite (AC (fun r => lastn (fps_row s y r)) (neg_sum s y (length (map (map W) KS)))) by (intros ks I; apply (R ks _ I)).
    rewrite (AC (fun r => lastn (tps_row s y r)) (pos_sum s y (length (map (map W) KS)))) by (intros ks I; apply (R ks _ I)).
    cbn [py_assert bind].
    destruct (finish_rows (map (fun r => (fps_row s y r, tps_row s y r)) (map (map W) KS)) (thr s)) as (F & T & E & G & Lf).
    + apply (thr_nonempty (NT := f64_num)). exact Ne.
    + apply Forall_map, Forall_map, Forall_forall. intros ks I. cbn [fst snd]. destruct (R ks 0%nat I) as (R1 & R2 & _). auto.
    + exists F, T. split; [exact E|]. split; [exact G|]. now rewrite Lf, !map_length.
  - apply forallb_forall. intros r I. apply in_map_iff in I as (ks & <- & I). rewrite map_length. apply Nat.eqb_eq. rewrite Forall_forall in D. apply (dr_len _ _ (D ks I)).
  - destruct KS; [congruence|discriminate].
  - apply forallb_forall. intros r I. apply in_map_iff in I as (ks & <- & I). apply forallb_forall. intros w J. apply in_map_iff in J as (k & <- & J).
    apply (W_val k (B ks k I J)).
  - apply forallb_forall. intros r I. apply in_map_iff in I as (ks & <- & I). apply forallb_forall. intros w J. apply in_map_iff in J as (k & <- & J).
    destruct (W_val k (B ks k I J)) as (N & _ & U). apply fltb_fin; [reflexivity|apply N|]. change (B2R n0) with 0. pose proof (bpow_gt_0 radix2 (-34)). lra.
Qed.
