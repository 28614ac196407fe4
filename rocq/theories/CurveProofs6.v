(** Areas and interpolated values of curves in doubles. *)
From Coq Require Import Reals ZArith Lra Lia List Sorted Bool Permutation.
From Flocq Require Import Core BinarySingleNaN.
From Verif Require Import PyBase F64 F64Lemmas Num NumOk Util UtilProofs ListLemmas UtilProofs2 UtilProofs3 BootUtil BootProofs2 BootProofs4
  PerfCurves PerfProofs PerfProofs2 PerfProofs7 PerfProofs8 PerfProofs9 PerfProofs10 SumProofs CompareProofs SwapProofs MeanProofs DoublesProofs
  CurveBoot CurveProofs CurveProofs3 CurveProofs4 CurveProofs5.
Open Scope R_scope.
Open Scope list_scope.

(** ** Linear interpolation between distinct doubles *)
Definition spaced (x : f64) : Prop := B2R x = 0 \/ P2 (-400) <= B2R x.

Lemma spaced_mul x : format64 x -> x = 0 \/ P2 (-400) <= x -> exists z, x = IZR z * P2 (-452).
Proof.
  intros F [->|B]; [exists 0%Z; lra|]. destruct (binade_any x _ B) as (m & Lm & Bm). destruct (fmt_bin m x F Bm ltac:(lia)) as [z Ez].
  exists (z * 2 ^ (m + 400))%Z. rewrite Ez, mult_IZR, IZR_P2, Rmult_assoc, <- bpow_plus by lia. do 2 f_equal. lia.
Qed.

Lemma spaced_gap (a b : f64) : spaced a -> spaced b -> B2R a < B2R b -> P2 (-452) <= B2R b - B2R a.
Proof.
  intros Sa Sb L. destruct (spaced_mul _ (B2R_format a) Sa) as [u Eu]. destruct (spaced_mul _ (B2R_format b) Sb) as [v Ev].
  assert (B2R b - B2R a = IZR (v - u) * P2 (-452)) as E by (rewrite Eu, Ev, minus_IZR; ring).
  pose proof (bpow_gt_0 radix2 (-452)) as P. rewrite E. destruct (Z_lt_le_dec u v) as [H|H].
  - assert (1 <= IZR (v - u)) by (apply IZR_le; lia). nra.
  - exfalso. assert (IZR (v - u) <= 0) as Q by (apply IZR_le; lia). assert (IZR (v - u) * P2 (-452) <= 0 * P2 (-452)) by (apply Rmult_le_compat_r; lra). lra.
Qed.

(** the value [slope * (g - x0) + y0] of np.interp *)
Lemma segment (x0 x1 y0 y1 g : f64) : nn x0 -> nn x1 -> nn y0 -> nn y1 -> fisfin g = true -> B2R x0 <= B2R g < B2R x1 -> B2R x1 <= 1 ->
  P2 (-452) <= B2R x1 - B2R x0 -> B2R y0 <= B2R y1 -> B2R y1 <= 1 ->
  let v := fadd (fmul (fdiv (fsub y1 y0) (fsub x1 x0)) (fsub g x0)) y0 in
  fisfin v = true /\ B2R y0 <= B2R v <= B2R y1 * (1 + P2 (-50)) + P2 (-1000).
Proof.
  intros N0 N1 M0 M1 Ng Gx X1 Gap Y01 Y1 v. pose proof (nn_ge0 _ N0) as X0. pose proof (nn_ge0 _ M0) as Y0.
  assert (2 <= P2 1000) as T by (change 2 with (P2 1); apply bpow_le; lia). assert (1 <= P2 500) as T5 by (change 1 with (P2 0); apply bpow_le; lia).
  assert (P2 500 <= P2 1000) as T6 by (apply bpow_le; lia).
  destruct (fsub_nn y1 y0 M1 M0 Y01) as [Nn Vn]; [lra|]. destruct (fsub_nn x1 x0 N1 N0) as [Nd Vd]; [lra|lra|]. destruct (fsub_correct g x0 Ng (proj1 N0)) as [Ve Ne]; [apply no_ovf, abs_nn; lra|].
  set (n := fsub y1 y0) in *. set (d := fsub x1 x0) in *. set (e := fsub g x0) in *.
  pose proof (bpow_gt_0 radix2 (-452)) as P4.
  assert (P2 (-452) <= B2R d) as Ld by (rewrite Vd; apply rnd64_ge; [apply format64_pow; lia|exact Gap]).
  assert (B2R d <= 1) as Ud by (rewrite Vd; apply rnd64_le; [apply format64_1|lra]).
  assert (0 <= B2R e <= B2R d) as Re by (split; [rewrite Ve; apply rnd_nn; lra|rewrite Ve, Vd; apply rnd64_mono; lra]).
  assert (0 <= B2R n <= 1) as Rn by (split; [now apply nn_ge0|rewrite Vn; apply rnd64_le; [apply format64_1|lra]]).
  assert (0 < B2R d) as Pd by lra.
  assert (0 <= B2R n / B2R d) as Q0 by (apply Rle_mult_inv_pos; lra).
  assert (B2R n / B2R d <= P2 452) as Q1.
  { apply (Rmult_le_reg_r (B2R d)); [exact Pd|]. unfold Rdiv. rewrite Rmult_assoc, Rinv_l by lra.
    apply Rle_trans with (P2 452 * P2 (-452)); [change (-452)%Z with (- (452))%Z; rewrite (P2_cancel 452); lra|]. apply Rmult_le_compat_l; [apply bpow_ge_0|exact Ld]. }
  destruct (fdiv_nn n d Nn Nd Pd) as [Ns Vs]; [eapply Rle_trans; [exact Q1|apply bpow_le; lia]|]. set (s := fdiv n d) in *.
  assert (B2R s <= P2 452) as Us by (rewrite Vs; apply rnd64_le; [apply format64_pow; lia|exact Q1]). pose proof (nn_ge0 _ Ns) as S0.
  assert (0 <= B2R s * B2R e <= P2 452) as Rp.
  { split; [apply Rmult_le_pos; lra|]. replace (P2 452) with (P2 452 * 1) by ring. apply Rmult_le_compat; lra. }
  destruct (fmul_correct s e (proj1 Ns) Ne) as [Vp Np]; [apply no_ovf, abs_nn; split; [lra|eapply Rle_trans; [apply Rp|apply bpow_le; lia]]|]. set (p := fmul s e) in *.
  pose proof u64_pos as Pu. pose proof u64_dec as Du.
  assert (forall z, 0 <= z -> rnd64 z <= z * (1 + u64) + P2 (-1075)) as RE.
  { intros z Z. pose proof (rnd_err z) as E. rewrite (Rabs_pos_eq z Z) in E. apply Rabs_le_inv in E. lra. }
  pose proof (bpow_gt_0 radix2 (-1075)) as Pt.
  assert (P2 (-1075) <= / 10 ^ 20) as Tt by apply tiny_le.
  assert (B2R s * B2R e <= B2R n * (1 + u64) + P2 (-1075)) as B1.
  { apply Rle_trans with (B2R s * B2R d); [apply Rmult_le_compat_l; lra|].
    pose proof (RE _ Q0) as E. rewrite <- Vs in E. apply Rle_trans with ((B2R n / B2R d * (1 + u64) + P2 (-1075)) * B2R d); [apply Rmult_le_compat_r; lra|].
    replace ((B2R n / B2R d * (1 + u64) + P2 (-1075)) * B2R d) with (B2R n * (1 + u64) + P2 (-1075) * B2R d) by (field; lra).
    assert (P2 (-1075) * B2R d <= P2 (-1075) * 1) by (apply Rmult_le_compat_l; lra). lra. }
  assert (B2R p <= (B2R n * (1 + u64) + P2 (-1075)) * (1 + u64) + P2 (-1075)) as B2.
  { rewrite Vp. eapply Rle_trans; [apply RE; apply Rp|]. apply Rplus_le_compat_r, Rmult_le_compat_r; lra. }
  assert (B2R n <= (B2R y1 - B2R y0) * (1 + u64)) as B3.
  { rewrite Vn. pose proof (rnd_add_err (B2R y1) (- B2R y0) (B2R_format y1) (generic_format_opp _ _ _ (B2R_format y0))) as E.
    fold (B2R y1 - B2R y0) in E. rewrite (Rabs_pos_eq (B2R y1 - B2R y0)) in E by lra. apply Rabs_le_inv in E. lra. }
  assert (0 <= B2R p) as P0 by (rewrite Vp; apply rnd_nn; lra).
  set (q := 1 + u64) in *. assert (1 <= q <= 1 + 1111 / 10 ^ 19) as Rq by (unfold q; lra).
  assert (B2R p <= (B2R y1 - B2R y0) * (q * q * q) + 3 * P2 (-1075)) as B4.
  { eapply Rle_trans; [exact B2|]. assert (B2R n * q <= (B2R y1 - B2R y0) * q * q) by (apply Rmult_le_compat_r; lra). nra. }
  assert (0 <= u64 * u64 <= u64 / 1024) as U2. { pose proof (u_le u64 ltac:(lra)). lra. }
  assert (q * q <= 1 + 3 * u64) as QQ by (unfold q; nra). assert (q * q * q <= 1 + 5 * u64) as QQQ.
  { apply Rle_trans with ((1 + 3 * u64) * q); [apply Rmult_le_compat_r; lra|]. unfold q. nra. }
  assert (B2R p + B2R y0 <= B2R y1 * (1 + 5 * u64) + 3 * P2 (-1075)) as B5.
  { assert ((B2R y1 - B2R y0) * (q * q * q) <= (B2R y1 - B2R y0) * (1 + 5 * u64)) by (apply Rmult_le_compat_l; lra). nra. }
  assert (0 <= B2R y1 * u64 <= u64) as Yu by (split; [apply Rmult_le_pos; lra|nra]).
  destruct (fadd_correct p y0 Np (proj1 M0)) as [Vv Nv]; [apply no_ovf, abs_nn; lra|]. fold v in Nv, Vv.
  split; [exact Nv|]. split; [rewrite Vv; apply rnd64_ge; [apply B2R_format|lra]|].
  rewrite Vv. pose proof (rnd_add_err (B2R p) (B2R y0) (B2R_format p) (B2R_format y0)) as E. rewrite (Rabs_pos_eq (B2R p + B2R y0)) in E by lra. apply Rabs_le_inv in E.
  assert (rnd64 (B2R p + B2R y0) <= (B2R p + B2R y0) * q) as B6 by (unfold q; lra).
  eapply Rle_trans; [exact B6|]. apply Rle_trans with ((B2R y1 * (1 + 5 * u64) + 3 * P2 (-1075)) * q); [apply Rmult_le_compat_r; lra|].
  assert (P2 (-50) = 8 * u64) as E50 by (unfold MeanProofs.u64; change 8 with (P2 3); rewrite <- bpow_plus; reflexivity).
  assert (P2 (-1000) = P2 75 * P2 (-1075)) as E1000 by (rewrite <- bpow_plus; reflexivity).
  assert (4 <= P2 75) as F4 by (change 4 with (P2 2); apply bpow_le; lia).
  assert (4 * P2 (-1075) <= P2 75 * P2 (-1075)) as F5 by (apply Rmult_le_compat_r; lra). rewrite E50, E1000.
  assert (0 <= B2R y1 * u64 * u64 <= B2R y1 * u64 / 1024) as Yuu by (rewrite (Rmult_comm (B2R y1 * u64) u64); apply u_le; lra).
  assert (P2 (-1075) * q <= P2 (-1075) * (4 / 3)) as Tq by (apply Rmult_le_compat_l; lra).
  replace ((B2R y1 * (1 + 5 * u64) + 3 * P2 (-1075)) * q) with (B2R y1 + 6 * (B2R y1 * u64) + 5 * (B2R y1 * u64 * u64) + 3 * (P2 (-1075) * q)) by (unfold q; ring).
  lra.
Qed.

(** ** The axes *)
Definition rates (l : list f64) : Prop := unit_axis l /\ Forall nn l /\ Forall spaced l.

Lemma rate_rates l : l <> [] -> Forall sane l -> StronglySorted rle (f0 :: l) -> 0 < B2R (last l f0) -> rates (div_last (f0 :: l)).
Proof.
  intros Ne Sn So P. split; [now apply rate_axis|].
  assert (lastn (f0 :: l) = last l f0) as EL by (unfold lastn; cbn [n0 f64_num]; now apply last_cons_f0).
  assert (forall x, In x (f0 :: l) -> sane x /\ B2R x <= B2R (last l f0)) as B.
  { intros x Hx. split.
    - destruct Hx as [<-|Hx]; [apply sane_f0|]. eapply Forall_forall in Sn; eauto.
    - pose proof (sorted_last_ge (f0 :: l) x So Hx) as Q. rewrite last_cons_f0 in Q by auto. exact Q. }
  assert (sane (last l f0)) as SL by (apply B; right; now apply last_in). pose proof (sane_ub _ SL) as UL.
  assert (forall x, In x (f0 :: l) -> nn (fdiv x (last l f0)) /\ spaced (fdiv x (last l f0))) as H.
  { intros x Hx. destruct (B x Hx) as [Sx Lx]. destruct (ratio x (last l f0) (sane_nn _ Sx) (sane_nn _ SL) P Lx) as (N & V & _). split; [exact N|].
    destruct Sx as [Nx [Zx|Bx]]; [left|right]; rewrite V.
    - rewrite Zx. unfold Rdiv. rewrite Rmult_0_l. apply rnd64_0.
    - apply rnd64_ge; [apply format64_pow; lia|]. apply (Rmult_le_reg_r (B2R (last l f0))); [exact P|]. unfold Rdiv. rewrite Rmult_assoc, Rinv_l by lra.
      rewrite Rmult_1_r. apply Rle_trans with (P2 (-400) * P2 200); [apply Rmult_le_compat_l; [apply bpow_ge_0|exact UL]|]. rewrite <- bpow_plus. apply Bx. }
  unfold div_last. rewrite EL. split; apply Forall_map, Forall_forall; intros x Hx; apply H; auto.
Qed.

Definition near_unit (v : f64) : Prop := fisfin v = true /\ 0 <= B2R v <= 1 + P2 (-49).

Lemma interp_rates x y g v : rates x -> rates y -> length x = length y -> fleb f0 g = true -> fleb g (f_of_Z 1) = true ->
  np_interp x y g = Ok v -> near_unit v.
Proof.
  intros (Ux & Nx & Sx) (Uy & Ny & _) L G0 G1. destruct f1_val as [V1 [F1 _]].
  assert (fisfin g = true) as Fg. { destruct g as [s|[|]| |s m e H]; try reflexivity; try discriminate. }
  apply fleb_fin in G0; [|reflexivity|exact Fg]. apply fleb_fin in G1; [|exact Fg|exact F1]. change (B2R64 f0) with 0 in G0. rewrite V1 in G1.
  assert (1 <= 1 + P2 (-49)) as P49 by (pose proof (bpow_ge_0 radix2 (-49)); lra).
  pose proof (axis_in01 _ Uy) as Iy. pose proof (axis_in01 _ Ux) as Ix.
  unfold np_interp. cbn [nisnan f64_num]. rewrite (fisfin_notnan g Fg).
  destruct (searchsorted_last (NT := f64_num) x g) as (i & (a & Ha & La & Hl) & ->).
  { eapply Forall_impl; [|exact (ua_fin _ Ux)]. intros; now apply fisfin_notnan. }
  { exact (ua_sorted _ Ux). }
  { now apply fisfin_notnan. }
  { assert (x <> []) as Nex by (intros ->; pose proof (ua_last _ Ux) as E; apply (f_equal (fun z : f64 => B2R z)) in E; change (0 = B2R (f_of_Z 1)) in E; rewrite V1 in E; lra).
    exists (hd f0 x). split; [destruct x; [congruence|now left]|]. rewrite (ua_hd _ Ux). apply fleb_fin; auto. }
  assert (i < length x)%nat as B by (apply nth_error_Some; congruence).
  destruct (nth_error y i) as [b|] eqn:Eb; [|apply nth_error_None in Eb; lia].
  assert (In b y) as Ib by (eapply nth_error_In; eauto). assert (in01f b) as Jb by (rewrite Forall_forall in Iy; auto).
  destruct (Z.of_nat i =? Z.of_nat (length x) - 1)%Z eqn:Q.
  - rewrite (py_index_nat _ i b Eb). intros E. apply Ok_inj in E. subst v. destruct Jb as [Fb Bb]. split; [exact Fb|]. lra.
  - apply Z.eqb_neq in Q. replace (Z.of_nat i + 1)%Z with (Z.of_nat (Datatypes.S i)) by lia.
    destruct (nth_error x (Datatypes.S i)) as [a'|] eqn:E1; [|apply nth_error_None in E1; lia].
    destruct (nth_error y (Datatypes.S i)) as [b'|] eqn:E3; [|apply nth_error_None in E3; lia].
    rewrite (py_index_nat _ i a Ha), (py_index_nat _ _ a' E1), (py_index_nat _ i b Eb), (py_index_nat _ _ b' E3). cbn [bind]. intros E. apply Ok_inj in E. subst v.
    assert (In a x) as Ia by (eapply nth_error_In; eauto). assert (In a' x) as Ia' by (eapply nth_error_In; eauto). assert (In b' y) as Ib' by (eapply nth_error_In; eauto).
    rewrite Forall_forall in Nx, Ny, Sx, Ix, Iy.
    destruct (Ix a Ia) as [Fa Ba]. destruct (Ix a' Ia') as [Fa' Ba']. destruct Jb as [Fb Bb]. destruct (Iy b' Ib') as [Fb' Bb'].
    apply fleb_fin in La; [|exact Fa|exact Fg].
    assert (B2R g < B2R a') as Lt.
    { destruct (Rle_or_lt (B2R a') (B2R g)) as [H|H]; [|exact H]. exfalso. specialize (Hl (Datatypes.S i) a' ltac:(lia) E1).
      change (fleb a' g = false) in Hl. assert (fleb a' g = true); [now apply fleb_fin|congruence]. }
    assert (B2R b <= B2R b') as Lb.
    { assert (fleb b b' = true) as H by (apply (SSorted_nth _ y (ua_sorted _ Uy) i (Datatypes.S i) b b' ltac:(lia) Eb E3)). now apply fleb_fin in H. }
    destruct (segment a a' b b' g (Nx a Ia) (Nx a' Ia') (Ny b Ib) (Ny b' Ib') Fg ltac:(lra) ltac:(lra) (spaced_gap a a' (Sx a Ia) (Sx a' Ia') ltac:(lra)) Lb ltac:(lra)) as [Fv Bv].
    cbv zeta in *. split; [exact Fv|]. split; [|].
    + eapply Rle_trans; [|apply Bv]. lra.
    + eapply Rle_trans; [apply Bv|]. assert (P2 (-1000) <= P2 (-50)) as T1 by (apply bpow_le; lia).
      assert (P2 (-49) = P2 (-50) + P2 (-50)) as T2 by (rewrite P2_dbl; reflexivity). pose proof (bpow_ge_0 radix2 (-50)) as T3. nra.
Qed.

(** ** The area *)
Definition near_area (v : f64) : Prop := fisfin v = true /\ 0 <= B2R v <= 1 + P2 (-35).

Lemma steps_sum x : Forall (fun v => fisfin v = true /\ 0 <= B2R v <= 1) x -> StronglySorted (fun a b => fleb a b = true) x -> forall a,
  fisfin a = true /\ 0 <= B2R a <= 1 -> Forall (fun b => fleb a b = true) x ->
  Rsum (vals (diff (a :: x))) <= (1 + u64) * (B2R (last (a :: x) f0) - B2R a).
Proof.
  pose proof u64_pos as Up. induction x as [|b x IH]; intros R S a Ha Fa.
  - cbn [diff vals map last]. unfold Rsum. cbn [fold_right]. lra.
  - rewrite diff_cons. cbn [vals map]. rewrite Rsum_cons. fold (vals (diff (b :: x))).
    inversion R as [|? ? Hb R']; subst. inversion S as [|? ? S' Fb]; subst. inversion Fa as [|? ? Lab _]; subst.
    specialize (IH R' S' b Hb Fb). replace (last (a :: b :: x) f0) with (last (b :: x) f0) by reflexivity.
    destruct Ha as [Fia Ba]. destruct Hb as [Fib Bb]. apply fleb_fin in Lab; auto.
    destruct (fsub_correct b a Fib Fia) as [V _].
    { apply no_ovf, abs_nn. assert (2 <= P2 1000) by (change 2 with (P2 1); apply bpow_le; lia). lra. }
    change (nsub b a) with (fsub b a). rewrite V.
    pose proof (rnd_add_err (B2R b) (- B2R a) (B2R_format b) (generic_format_opp _ _ _ (B2R_format a))) as E.
    fold (B2R b - B2R a) in E. rewrite (Rabs_pos_eq (B2R b - B2R a)) in E by lra. apply Rabs_le_inv in E. lra.
Qed.

Lemma axis_sum x : unit_axis x -> Rsum (vals (diff x)) <= 1 + u64.
Proof.
  intros U. pose proof (axis_in01 _ U) as I. destruct x as [|a x].
  - unfold Rsum. cbn [diff vals map fold_right]. pose proof u64_pos. lra.
  - inversion I as [|? ? Ha I']; subst. pose proof (ua_sorted _ U) as S. inversion S as [|? ? S' Fa]; subst.
    eapply Rle_trans; [apply (steps_sum x I' S' a Ha Fa)|].
    assert (B2R (last (a :: x) f0) <= 1) as L by (assert (In (last (a :: x) f0) (a :: x)) as Q by (apply last_in; discriminate); rewrite Forall_forall in I; apply (I _ Q)).
    pose proof u64_pos as Up. destruct Ha as [_ Ba]. replace (1 + u64) with ((1 + u64) * 1) at 2 by ring. apply Rmult_le_compat_l; lra.
Qed.

Definition under (t d : f64) : Prop := fisfin t = true /\ 0 <= B2R t <= B2R d.

Lemma under_sum ts : forall ds, (length ts <= length ds)%nat -> Forall step01 ds -> (forall i t d, nth_error ts i = Some t -> nth_error ds i = Some d -> under t d) ->
  Forall (fun a => fisfin a = true) ts /\ abs_sum ts = Rsum (vals ts) /\ 0 <= Rsum (vals ts) <= Rsum (vals ds).
Proof.
  induction ts as [|t ts IH]; intros ds L Fd H.
  - split; [constructor|]. split; [reflexivity|]. unfold Rsum at 1 2. cbn [vals map fold_right]. split; [lra|]. clear H L.
    induction Fd as [|d ds [_ Bd] _ IH]; unfold vals; cbn [map]; [unfold Rsum; cbn; lra|]. rewrite Rsum_cons. fold (vals ds). lra.
  - destruct ds as [|d ds]; [cbn in L; lia|]. inversion Fd as [|? ? Sd Fd']; subst. destruct (H 0%nat t d eq_refl eq_refl) as [Ft Bt].
    destruct (IH ds) as (A & B & C); [cbn in L; lia|exact Fd'|intros i; apply (H (Datatypes.S i))|].
    split; [constructor; auto|]. unfold abs_sum in *. unfold vals in *. cbn [map]. rewrite !Rsum_cons, B, Rabs_pos_eq by lra. split; [reflexivity|]. lra.
Qed.

Lemma area_near n ts x : unit_axis x -> (length ts <= length (diff x))%nat -> (Z.of_nat (length x) <= 100001)%Z ->
  (forall i t d, nth_error ts i = Some t -> nth_error (diff x) i = Some d -> under t d) -> near_area (row_sum n ts).
Proof.
  intros U L N H. destruct (under_sum ts (diff x) L (axis_step x U) H) as (F & A & B). pose proof (axis_sum x U) as S.
  pose proof u64_pos as Up. pose proof u64_dec as Du.
  assert (INR (length ts) <= 100001) as Nl.
  { rewrite INR_IZR_INZ. apply IZR_le. rewrite (diff_length x) in L. lia. }
  assert (1000000 <= MAXN) as TM. { unfold MAXN. apply Rle_trans with (P2 20); [change (P2 20) with 1048576; lra|apply bpow_le; lia]. }
  assert (2 <= P2 990) as T9 by (change 2 with (P2 1); apply bpow_le; lia).
  destruct (sums_err ts _ (row_sums n ts) F) as [Fv E]; [lra|rewrite A; lra|]. split; [exact Fv|].
  set (k := Nat.pred (length ts)) in *. assert (INR k <= 100001) as Nk. { eapply Rle_trans; [|exact Nl]. apply le_INR. unfold k. lia. }
  pose proof (pos_INR k) as Pk0.
  assert (INR k * u64 <= / 2) as Hk by nra.
  pose proof (pow_up k Hk) as Pk. rewrite A in E. apply Rabs_le_inv in E. set (g := (1 + u64) ^ k) in *. set (z := Rsum (vals ts)) in *.
  assert (g <= 2) as G2 by nra. assert (1 <= g) as G1 by (unfold g; apply pow_R1_Rle; lra).
  split; [nra|]. 
  assert (P2 (-35) = 262144 * u64) as E35 by (unfold MeanProofs.u64; change 262144 with (P2 18); rewrite <- bpow_plus; reflexivity).
  assert (g <= 1 + 2 * 100001 * u64) as G3 by nra. assert (B2R (row_sum n ts) <= g * z) by lra.
  apply Rle_trans with (g * (1 + u64)); [apply Rle_trans with (g * z); [lra|apply Rmult_le_compat_l; lra]|]. rewrite E35. nra.
Qed.

Lemma format64_dbl x : format64 x -> format64 (2 * x).
Proof.
  intros H. apply FLT_format_generic in H; [|reflexivity]. destruct H as [[m e] E M Ex]. apply generic_format_FLT.
  exists (Float radix2 m (e + 1)); cbn [Fnum Fexp] in *; [|exact M|lia]. rewrite E. unfold F2R. cbn [Fnum Fexp]. rewrite bpow_plus. change (bpow radix2 1) with 2. ring.
Qed.

Lemma trap_under d s : step01 d -> fisfin s = true -> 0 <= B2R s <= 2 -> under (fdiv (fmul d s) (f_of_Z 2)) d.
Proof.
  intros [Fd Bd] Fs Bs. destruct (f_of_Z_correct 2) as [V2 _]; [lia|].
  assert (2 <= P2 1000) as T. { change 2 with (P2 1). apply bpow_le. lia. }
  assert (0 <= B2R d * B2R s <= 2 * B2R d) as M by nra.
  destruct (fmul_correct d s Fd Fs) as [V F]. { apply no_ovf. apply abs_nn. lra. }
  assert (0 <= B2R (fmul d s) <= 2 * B2R d) as B. { rewrite V. split; [apply rnd_nn; lra|apply rnd64_le; [apply format64_dbl, B2R_format|lra]]. }
  destruct (fdiv_correct (fmul d s) (f_of_Z 2) F) as [W G].
  - rewrite V2. lra.
  - rewrite V2. apply no_ovf. apply abs_nn. lra.
  - split; auto. rewrite W, V2. split; [apply rnd_nn; lra|]. apply rnd64_le; [apply B2R_format|]. lra.
Qed.

Lemma prod_under v d : in01f v -> step01 d -> under (fmul v d) d.
Proof.
  intros [Fv Bv] [Fd Bd]. assert (2 <= P2 1000) as T. { change 2 with (P2 1). apply bpow_le. lia. }
  assert (0 <= B2R v * B2R d <= B2R d) as M by nra.
  destruct (fmul_correct v d Fv Fd) as [V F]. { apply no_ovf. apply abs_nn. lra. }
  split; auto. rewrite V. split; [apply rnd_nn; lra|]. apply rnd64_le; [apply B2R_format|]. lra.
Qed.

Lemma map2_nth {A B C} (g : A -> B -> C) l : forall m i c, nth_error (map2 g l m) i = Some c -> exists a b, nth_error l i = Some a /\ nth_error m i = Some b /\ c = g a b.
Proof.
  induction l as [|a l IH]; intros [|b m] [|i] c; cbn [map2 nth_error]; try discriminate.
  - intros E. injection E as <-. eauto.
  - apply IH.
Qed.

Lemma map2_len_le2 {A B C} (g : A -> B -> C) l : forall m, (length (map2 g l m) <= length m)%nat.
Proof. induction l as [|a l IH]; intros [|b m]; cbn [map2 length]; try lia. specialize (IH m). lia. Qed.

Lemma lin_near n x y : unit_axis x -> Forall in01f y -> (Z.of_nat (length x) <= 100001)%Z -> near_area (area_linear n x y).
Proof.
  intros U P L. unfold area_linear. rewrite Forall_forall in P. apply (area_near n _ x U); [apply map2_len_le|exact L|].
  intros i t d Ht Hd. apply map2_nth in Ht as (d' & s & Hd' & Hs & ->).
  assert (d' = d) as -> by congruence. apply nth_error_In in Hs. destruct (map2_in _ _ _ _ Hs) as (a & b & Ha & Hb & ->). apply removelast_incl in Hb.
  assert (In a y) as Ha' by (destruct y; [contradiction|right; exact Ha]).
  destruct (P a Ha') as [Fa Ba]. destruct (P b Hb) as [Fb Bb]. destruct (fadd_unit a b Fa Fb Ba Bb) as [F B].
  pose proof (axis_step x U) as S. rewrite Forall_forall in S. apply nth_error_In in Hd. exact (trap_under _ _ (S _ Hd) F B).
Qed.

Lemma prev_near n x y : unit_axis x -> Forall in01f y -> (Z.of_nat (length x) <= 100001)%Z -> near_area (area_previous n x y).
Proof.
  intros U P L. unfold area_previous, nansum. rewrite Forall_forall in P.
  assert (length (map2 nmul (removelast y) (diff x)) <= length (diff x))%nat as L2 by apply map2_len_le2.
  apply (area_near n _ x U); [now rewrite map_length|exact L|].
  intros i t d Ht Hd. rewrite nth_error_map in Ht. destruct (nth_error (map2 nmul (removelast y) (diff x)) i) as [t'|] eqn:E; [|discriminate]. injection Ht as <-.
  apply map2_nth in E as (a & d' & Ha & Hd' & ->). assert (d' = d) as -> by congruence. apply nth_error_In in Ha, Hd. apply removelast_incl in Ha.
  pose proof (axis_step x U) as S. rewrite Forall_forall in S. pose proof (prod_under a d (P a Ha) (S d Hd)) as Ud.
  change (nmul a d) with (fmul a d). change (nisnan (fmul a d)) with (fisnan (fmul a d)). rewrite (fisfin_notnan _ (proj1 Ud)). exact Ud.
Qed.

(** ** Sums with terms that may be very negative or -inf *)
Definition pos_part (l : list f64) : R := Rsum (map (fun a : f64 => Rmax 0 (B2R a)) l).
Lemma pos_part_pos l : 0 <= pos_part l.
Proof. unfold pos_part. induction l as [|a l IH]; cbn [map]; [unfold Rsum; cbn; lra|]. rewrite Rsum_cons. pose proof (Rmax_l 0 (B2R a)). lra. Qed.
Lemma pos_part_app l m : pos_part (l ++ m) = pos_part l + pos_part m.
Proof. unfold pos_part. now rewrite map_app, Rsum_app. Qed.

Lemma sums_up l v : sums_to l v -> Forall (low 1) l -> (Z.of_nat (length l) <= 2 ^ 53)%Z ->
  v = fninf \/ (fisfin v = true /\ B2R v <= (1 + u64) ^ Nat.pred (length l) * pos_part l).
Proof.
  pose proof u64_pos as Up. induction 1 as [|a|l m v w Hv IHv Hw IHw|l m v P _ IH]; intros F L.
  - right. split; [reflexivity|]. change (B2R f0) with 0. cbn. lra.
  - inversion F as [|? ? Ha _]; subst. destruct Ha as [->|[Fa Ba]]; [now left|right]. split; [exact Fa|]. cbn [length Nat.pred pow]. unfold pos_part. cbn [map].
    rewrite Rsum_cons. unfold Rsum. cbn [fold_right]. pose proof (Rmax_r 0 (B2R a)). lra.
  - assert (low (IZR (Z.of_nat (length (l ++ m)))) (fadd v w)) as Lo.
    { apply sums_to_low; auto. exact (SumProofs.st_add (NT := f64_num) l m v w Hv Hw). }
    apply Forall_app in F as [F1 F2]. rewrite app_length, Nat2Z.inj_add in L. specialize (IHv F1 ltac:(lia)). specialize (IHw F2 ltac:(lia)).
    change (nadd v w) with (fadd v w). destruct Lo as [E|[Fs _]]; [now left|right]. split; [exact Fs|].
    destruct IHv as [->|[Fv Bv]]. { exfalso. destruct IHw as [->|[Fw _]]; [discriminate|]. destruct w; discriminate. }
    destruct IHw as [->|[Fw Bw]]. { exfalso. destruct v; discriminate. }
    assert (B2R (fadd v w) = rnd64 (B2R v + B2R w)) as V.
    { destruct (Rlt_le_dec (Rabs (rnd64 (B2R v + B2R w))) (bpow radix2 emax64)) as [O|O]; [now apply fadd_correct|].
      exfalso. pose proof (Bplus_correct prec64 emax64 _ _ mode_NE v w Fv Fw) as C. simpl (round_mode mode_NE) in C.
      match type of C with if ?c then _ else _ => destruct c eqn:Ec end.
      { destruct (Rlt_bool_spec (Rabs (rnd64 (B2R v + B2R w))) (bpow radix2 emax64)); [lra|]. congruence. }
      destruct C as [C _]. fold (fadd v w) in C. destruct (fadd v w); discriminate. }
    rewrite V. pose proof (pos_part_pos l) as Pl. pose proof (pos_part_pos m) as Pm. rewrite pos_part_app, app_length.
    assert (forall n : nat, 1 <= (1 + u64) ^ n) as P1 by (intros n; apply pow_R1_Rle; lra).
    destruct (Rle_or_lt (B2R v + B2R w) 0) as [Neg|Pos].
    { apply Rle_trans with 0; [apply rnd64_le; [apply format64_0|exact Neg]|]. apply Rmult_le_pos; [specialize (P1 (Nat.pred (length l + length m))); lra|lra]. }
    destruct l as [|a l]; [|destruct m as [|b m]].
    + apply sums_nil in Hv. subst v. change (B2R f0) with 0 in *. rewrite Rplus_0_l, rnd64_id by apply B2R_format. cbn [length Nat.add].
      replace (pos_part []) with 0 by reflexivity. rewrite Rplus_0_l. exact Bw.
    + apply sums_nil in Hw. subst w. change (B2R f0) with 0 in *. rewrite Rplus_0_r, rnd64_id by apply B2R_format. rewrite Nat.add_0_r.
      replace (pos_part []) with 0 by reflexivity. rewrite Rplus_0_r. exact Bv.
    + pose proof (rnd_add_err (B2R v) (B2R w) (B2R_format v) (B2R_format w)) as E. rewrite (Rabs_pos_eq (B2R v + B2R w)) in E by lra. apply Rabs_le_inv in E.
      set (i := length (a :: l)) in *. set (j := length (b :: m)) in *. assert (1 <= i)%nat as I by (unfold i; cbn; lia). assert (1 <= j)%nat as J by (unfold j; cbn; lia).
      set (k := Nat.pred (Nat.max i j)). 
      assert (forall n, (1 <= n <= Nat.max i j)%nat -> (1 + u64) ^ Nat.pred n <= (1 + u64) ^ k) as Mo.
      { intros n Hn. apply Rle_pow; [lra|unfold k; lia]. }
      pose proof (Mo i ltac:(lia)) as Mi. pose proof (Mo j ltac:(lia)) as Mj. set (A := pos_part (a :: l)) in *. set (B := pos_part (b :: m)) in *.
      assert (B2R v <= (1 + u64) ^ k * A) as Bv' by (eapply Rle_trans; [exact Bv|apply Rmult_le_compat_r; lra]).
      assert (B2R w <= (1 + u64) ^ k * B) as Bw' by (eapply Rle_trans; [exact Bw|apply Rmult_le_compat_r; lra]).
      apply Rle_trans with ((1 + u64) ^ Datatypes.S k * (A + B)).
      * cbn [pow]. apply Rle_trans with ((1 + u64) * (B2R v + B2R w)); [lra|]. rewrite Rmult_assoc. apply Rmult_le_compat_l; lra.
      * apply Rmult_le_compat_r; [lra|]. apply Rle_pow; [lra|unfold k; lia].
  - assert (pos_part l = pos_part m) as E1 by (apply Rsum_perm, Permutation_map, P).
    rewrite <- E1, <- (Permutation_length P) in *. apply IH; auto. now apply (Permutation_Forall (Permutation_sym P)).
Qed.

Definition gain_area (v : f64) : Prop := low (1 + P2 (-35)) v.

Lemma gain_term a d : pgain a -> step01 d -> let t := (if nisnan (nmul a d) then n0 else nmul a d) : f64 in low 1 t /\ Rmax 0 (B2R t) <= B2R d.
Proof.
  intros Pa Sd t. assert (low 1 (fmul a d) \/ fisnan (fmul a d) = true) as Lo by now apply fmul_low. split; [exact (clean_nan _ Lo)|].
  destruct Sd as [Fd Bd]. unfold t. change (nmul a d) with (fmul a d). change (nisnan (fmul a d)) with (fisnan (fmul a d)).
  destruct (fisnan (fmul a d)) eqn:N; [change (B2R n0) with 0; rewrite Rmax_left; lra|]. clear t.
  destruct Pa as [->|[Fa Ba]].
  - destruct d as [sd|sd| |sd md ed Hd]; try discriminate. cbn. rewrite Rmax_left; [|lra]. exact (proj1 Bd).
  - assert (Rabs (B2R a * B2R d) <= P2 1000) as M.
    { assert (P2 800 <= P2 1000) by (apply bpow_le; lia). assert (1 <= P2 800) by (change 1 with (P2 0); apply bpow_le; lia). apply Rabs_le. split; nra. }
    destruct (fmul_correct a d Fa Fd (no_ovf _ M)) as [V _]. rewrite V. apply Rmax_lub; [lra|]. apply rnd64_le; [apply B2R_format|]. nra.
Qed.

Lemma part_sum ts : forall ds, (length ts <= length ds)%nat -> Forall step01 ds ->
  (forall i t d, nth_error ts i = Some t -> nth_error ds i = Some d -> low 1 t /\ Rmax 0 (B2R t) <= B2R d) ->
  Forall (low 1) ts /\ pos_part ts <= Rsum (vals ds).
Proof.
  induction ts as [|t ts IH]; intros ds L Fd H.
  - split; [constructor|]. unfold pos_part, Rsum at 1. cbn [map fold_right]. clear H L.
    induction Fd as [|d ds [_ Bd] _ IH]; unfold vals; cbn [map]; [unfold Rsum; cbn; lra|]. rewrite Rsum_cons. fold (vals ds). lra.
  - destruct ds as [|d ds]; [cbn in L; lia|]. inversion Fd as [|? ? Sd Fd']; subst. destruct (H 0%nat t d eq_refl eq_refl) as [Lt Bt].
    destruct (IH ds) as (A & C); [cbn in L; lia|exact Fd'|intros i; apply (H (Datatypes.S i))|].
    split; [constructor; auto|]. unfold pos_part in *. unfold vals in *. cbn [map]. rewrite !Rsum_cons. lra.
Qed.

Lemma prg_area n x y : unit_axis x -> Forall pgain y -> (Z.of_nat (length x) <= 100001)%Z -> gain_area (area_previous n x y).
Proof.
  intros U P L. unfold area_previous, nansum. rewrite Forall_forall in P.
  set (ts := map (fun x0 : f64 => if nisnan x0 then n0 else x0) (map2 nmul (removelast y) (diff x))).
  assert (length ts <= length (diff x))%nat as L2 by (unfold ts; rewrite map_length; apply map2_len_le2).
  destruct (part_sum ts (diff x) L2 (axis_step x U)) as [F B].
  { intros i t d Ht Hd. unfold ts in Ht. rewrite nth_error_map in Ht. destruct (nth_error (map2 nmul (removelast y) (diff x)) i) as [t'|] eqn:E; [|discriminate]. injection Ht as <-.
    apply map2_nth in E as (a & d' & Ha & Hd' & ->). assert (d' = d) as -> by congruence. apply nth_error_In in Ha, Hd. apply removelast_incl in Ha.
    pose proof (axis_step x U) as S. rewrite Forall_forall in S. exact (gain_term a d (P a Ha) (S d Hd)). }
  assert (Z.of_nat (length ts) <= 100001)%Z as Lt by (rewrite (diff_length x) in L2; lia).
  destruct (sums_up ts _ (row_sums n ts) F) as [E|[Fv Bv]]; [lia|left; exact E|right]. split; [exact Fv|]. pose proof (axis_sum x U) as S.
  pose proof u64_pos as Up. pose proof u64_dec as Du.
  assert (INR (length ts) <= 100001) as Nl by (rewrite INR_IZR_INZ; apply IZR_le; exact Lt).
  set (k := Nat.pred (length ts)) in *. assert (INR k <= 100001) as Nk. { eapply Rle_trans; [|exact Nl]. apply le_INR. unfold k. lia. }
  pose proof (pos_INR k) as Pk0. assert (INR k * u64 <= / 2) as Hk by nra. pose proof (pow_up k Hk) as Pk.
  set (g := (1 + u64) ^ k) in *. assert (1 <= g) as G1 by (unfold g; apply pow_R1_Rle; lra).
  assert (P2 (-35) = 262144 * u64) as E35 by (unfold MeanProofs.u64; change 262144 with (P2 18); rewrite <- bpow_plus; reflexivity).
  assert (g <= 1 + 2 * 100001 * u64) as G3 by nra.
  apply Rle_trans with (g * (1 + u64)); [eapply Rle_trans; [exact Bv|apply Rmult_le_compat_l; lra]|]. rewrite E35. nra.
Qed.

(** ** The three curves, with bounds *)
Definition works2 (QA QG : f64 -> Prop) (f : curve_fun f64) y s sw (n : nat) : Prop := exists rows k th areas,
  f y s sw = Ok ((rows, k), th) /\ check_curve ((rows, k), th) None = Ok (rows, k) /\
  curve_area (rows, k) = Ok areas /\ Forall QA areas /\ length areas = n /\
  forall g, g <> [] -> grid64 g -> check_curve ((rows, k), th) (Some g) = Ok (rows, k) /\
    exists out, interp1d g rows k = Ok out /\ length out = n /\ Forall (fun v => length v = length g /\ Forall QG v) out.

Definition shape (QA QG : f64 -> Prop) (k : ikind) (n : nat) (c : list f64 * list f64) : Prop :=
  fine k n c /\ (forall m, QA (row_area k m c)) /\
  forall g out, grid64 g -> _interp1d g (fst c) (snd c) k = Ok out -> Forall QG out.

Lemma shape_works QA QG (f : curve_fun f64) y s sw rows k th : f y s sw = Ok ((rows, k), th) -> rows <> [] -> Forall (shape QA QG k (length th)) rows ->
  (2 <= length th)%nat -> (Z.of_nat (length th) <= 2 ^ 53)%Z -> works2 QA QG f y s sw (length rows).
Proof.
  intros E Ne Fr N2 NB.
  assert (forall g, grid64 g -> Forall (nice g) rows) as NI.
  { intros g G. eapply Forall_impl; [|exact Fr]. intros c [Hc _]. pose proof (fine_pgain _ _ _ Hc) as P. destruct Hc as (U & Lx & Ly & _). destruct c as [xx yy].
    cbn [fst snd] in *. apply nice_unit; auto; [congruence|lia|]. eapply Forall_impl; [|exact P]. intros; now apply pgain_lt. }
  assert (k <> Next) as KN.
  { intros ->. destruct rows as [|c rows]; [congruence|]. inversion Fr as [|? ? [Hc _] _]; subst. apply Hc. }
  set (V := map (row_area k (length rows)) rows).
  assert (Forall2 (area_row k (length th) (length rows)) rows V) as FA.
  { unfold V. generalize (length rows). intros m. clear -Fr N2 NB. induction Fr as [|? ? [Hc _]]; cbn [map]; constructor; auto. now apply fine_area. }
  assert (Forall QA V) as QV.
  { unfold V. generalize (length rows). intros m. clear -Fr. induction Fr as [|? ? [_ [Hc _]]]; cbn [map]; constructor; auto. }
  assert (length V = length rows) as LV by apply map_length. clearbody V.
  assert (curve_area (rows, k) = Ok V) as EA.
  { unfold curve_area. cbn [fst snd]. destruct rows as [|c rows]; [congruence|]. inversion Fr as [|? ? [Hc _] _]; subst. destruct Hc as (_ & Lx & _).
    rewrite Lx. apply area_rows_m; [exact FA|discriminate]. }
  exists rows, k, th, V. split; [exact E|]. split.
  { apply check_nice_none. apply NI. intros x []. }
  split; [exact EA|]. split; [exact QV|]. split; [exact LV|]. intros g Ng G. split; [apply check_nice; auto|].
  destruct (interp_rows g rows k (NI g G) KN) as (out & EV & FV). exists out. split; [exact EV|]. split; [symmetry; eapply Forall2_len; exact FV|].
  clear -FV Fr G. induction FV as [|c o rows out [H Lo] _ IH]; [constructor|]. inversion Fr as [|? ? (_ & _ & Hc) Fr']; subst. constructor; auto. split; [exact Lo|].
  exact (Hc g o G H).
Qed.

Lemma interp_prev_in (c : list f64 * list f64) n g out k : k = Previous -> fine k n c -> (2 <= n)%nat -> grid64 g -> _interp1d g (fst c) (snd c) k = Ok out -> Forall (fun v => In v (snd c)) out.
Proof.
  intros -> Hc N2 G E. pose proof (fine_pgain _ _ _ Hc) as P. destruct Hc as (U & Lx & Ly & _). destruct c as [xx yy]. cbn [fst snd] in *.
  assert (nice g (xx, yy)) as NI. { apply nice_unit; auto; [congruence|lia|]. eapply Forall_impl; [|exact P]. intros; now apply pgain_lt. }
  destruct (nice_interp_prev g (xx, yy) NI) as (o & Eo & _ & I). cbn [fst snd] in *. rewrite E in Eo. apply Ok_inj in Eo. now subst o.
Qed.

Lemma interp_lin_near (c : list f64 * list f64) n g out : rates (fst c) -> rates (snd c) -> length (fst c) = n -> length (snd c) = n -> (2 <= n)%nat -> grid64 g ->
  _interp1d g (fst c) (snd c) Linear = Ok out -> Forall near_unit out.
Proof.
  intros Rx Ry Lx Ly N2 G E. destruct c as [xx yy]. cbn [fst snd] in *.
  assert (nice g (xx, yy)) as NI.
  { apply nice_unit; [apply Rx|congruence|lia| |exact G]. pose proof (axis_in01 _ (proj1 Ry)) as I. eapply Forall_impl; [|exact I]. intros; now apply pgain_lt, in01_pgain. }
  pose proof NI as (L & L2 & F & S & _ & Gr). cbn [fst snd] in *.
  unfold _interp1d in E. rewrite L, Nat.eqb_refl, <- L, (proj2 (Nat.leb_le _ _) L2), diff_sorted_nonneg in E by auto. cbn [py_assert bind] in E.
  assert (xx <> []) as Nx by (intros ->; cbn in *; lia).
  revert out E. clear NI. induction g as [|v g IH]; intros out E; cbn [mapM] in E; [apply Ok_inj in E; subst; constructor|].
  destruct (interp_linear xx yy v) as [r|] eqn:Er; [|discriminate]. cbn [bind] in E. destruct (mapM (interp_linear xx yy) g) as [rs|] eqn:Em; [|discriminate].
  cbn [bind] in E. apply Ok_inj in E. subst out. constructor.
  - unfold interp_linear in Er. destruct (Gr v (or_introl eq_refl)) as [A B]. rewrite (py_index_hd _ n0 Nx), (py_index_m1 _ n0 Nx) in Er. cbn [bind] in Er.
    rewrite (le_not_lt_ _ _ A) in Er. unfold lastn in B. rewrite (le_not_lt_ _ _ B) in Er. cbn [orb] in Er.
    destruct (G v (or_introl eq_refl)) as [G0 G1]. eapply interp_rates; [exact Rx|exact Ry|exact L|exact G0|exact G1|exact Er].
  - apply IH; auto. intros x Hx. apply G. now right. intros x Hx. apply Gr. now right.
Qed.

Lemma roc_rates y s sw F T th : _binary_clf_curve y s sw = Ok (F, T, th) -> good_rows F T (length th) ->
  exists rows, roc_curve y s sw = Ok ((rows, Linear), th) /\ length rows = length F /\
    Forall (fun c => rates (fst c) /\ rates (snd c) /\ length (fst c) = length th /\ length (snd c) = length th) rows.
Proof.
  intros E G. unfold roc_curve. rewrite E. cbn [bind]. eexists. split; [reflexivity|]. clear E.
  induction G as [|a b F T (f & t & -> & -> & G & K) _ IH]; [split; [reflexivity|constructor]|].
  destruct IH as [IH1 IH2]. cbn [map combine length]. split; [congruence|]. constructor; auto. cbn [fst snd].
  destruct (good_facts f t G) as (Nt & _). destruct G as [L N Sf St Ff Ft Fl Tl Z].
  destruct (rate_axis f) as [U1 L1]; auto. destruct (rate_axis t) as [U2 L2]; auto.
  split; [now apply rate_rates|]. split; [now apply rate_rates|]. split; [etransitivity; [exact L1|exact K]|]. etransitivity; [exact L2|]. now rewrite <- L.
Qed.

Theorem curves_work2 y s sw F T th : _binary_clf_curve y s sw = Ok (F, T, th) -> good_rows F T (length th) -> F <> [] ->
  (2 <= length th)%nat -> (Z.of_nat (length th) <= 100001)%Z ->
  works2 near_area near_unit roc_curve y s sw (length F) /\ works2 near_area in01f recall_precision_curve y s sw (length F) /\
  works2 gain_area pgain prg_curve y s sw (length F).
Proof.
  intros E G Ne N2 NB. assert (length F <> 0%nat) as LF by (destruct F; [congruence|discriminate]).
  split; [|split].
  - destruct (roc_rates _ _ _ _ _ _ E G) as (rows & ER & L & H). rewrite <- L. eapply shape_works; eauto; [intros ->; cbn in L; lia| |lia].
    eapply Forall_impl; [|exact H]. intros c (U & V & A & B). split; [|split].
    + repeat split; auto; try apply U. apply axis_in01, V.
    + intros m. unfold row_area. apply lin_near; [apply U|apply axis_in01, V|lia].
    + intros g out Gg. now apply (interp_lin_near c (length th)).
  - destruct (rp_f64 _ _ _ _ _ _ E G) as (rows & ER & L & H). rewrite <- L. eapply shape_works; eauto; [intros ->; cbn in L; lia| |lia].
    eapply Forall_impl; [|exact H]. intros c (U & V & A & B).
    assert (fine Previous (length th) c) as Fc by (repeat split; auto; try apply U; eapply Forall_impl; [|exact V]; intros; now apply in01_pgain).
    split; [exact Fc|]. split.
    + intros m. unfold row_area. apply prev_near; [apply U|exact V|lia].
    + intros g out Gg Eo. pose proof (interp_prev_in c _ g out _ eq_refl Fc N2 Gg Eo) as I. rewrite Forall_forall in *. auto.
  - destruct (prg_f64 _ _ _ _ _ _ E G) as (rows & ER & L & H). rewrite <- L. eapply shape_works; eauto; [intros ->; cbn in L; lia| |lia].
    eapply Forall_impl; [|exact H]. intros c (U & V & _ & A & B).
    assert (fine Previous (length th) c) as Fc by (repeat split; auto; try apply U).
    split; [exact Fc|]. split.
    + intros m. unfold row_area. apply prg_area; [apply U|exact V|lia].
    + intros g out Gg Eo. pose proof (interp_prev_in c _ g out _ eq_refl Fc N2 Gg Eo) as I. rewrite Forall_forall in *. auto.
Qed.

(** ** With no weights and with bootstrap weights *)
Definition curve_kind (QA QG : f64 -> Prop) (f : curve_fun f64) : Prop :=
  forall y s, Forall (fun x => fisfin x = true) s -> length s = length y -> s <> [] -> (Z.of_nat (length y) <= 100000)%Z ->
  works2 QA QG f y s None 1 /\
  forall KS, KS <> [] -> Forall (draws y) KS -> works2 QA QG f y s (Some (map (map W) KS)) (length KS).

Lemma thr_len (s : list f64) : (length (thr s) <= length s)%nat.
Proof.
  unfold thr. assert (forall m (l : list f64), (length (mask m l) <= length l)%nat) as H.
  { induction m as [|b m IH]; intros [|a l]; cbn [mask length]; try lia; destruct b; cbn [length]; specialize (IH l); lia. }
  etransitivity; [apply H|]. rewrite (Permutation_length (sorted_scores_perm s)). lia.
Qed.

Theorem kinds : curve_kind near_area near_unit roc_curve /\ curve_kind near_area in01f recall_precision_curve /\ curve_kind gain_area pgain prg_curve.
Proof.
  assert (forall y s, Forall (fun x => fisfin x = true) s -> length s = length y -> s <> [] -> (Z.of_nat (length y) <= 100000)%Z ->
    forall sw n, (sw = None /\ n = 1%nat) \/ (exists KS, sw = Some (map (map W) KS) /\ n = length KS /\ KS <> [] /\ Forall (draws y) KS) ->
    works2 near_area near_unit roc_curve y s sw n /\ works2 near_area in01f recall_precision_curve y s sw n /\ works2 gain_area pgain prg_curve y s sw n) as H.
  { intros y s F L N B sw n C.
    assert (exists P Q th, _binary_clf_curve y s sw = Ok (P, Q, th) /\ good_rows P Q (length th) /\ length P = n /\ (2 <= Z.of_nat (length th) <= 100001)%Z) as (P & Q & th & E & G & Ln & Lt).
    { assert (2 <= Z.of_nat (length (finf :: thr s)) <= 100001)%Z as Lt.
      { cbn [length]. pose proof (thr_len s). pose proof (thr_nonempty s N) as Nt. destruct (thr s); [congruence|]. cbn [length] in *. lia. }
      destruct C as [[-> ->]|(KS & -> & -> & NK & D)].
      - destruct (clf_unweighted_f64 s y F L N) as (f & t & E & G); [lia|]. exists [f0 :: f], [f0 :: t], (finf :: thr s). auto.
      - destruct (clf_boot s y KS F L N B NK D) as (P & Q & E & G & Lp). exists P, Q, (finf :: thr s). auto. }
    subst n. apply (curves_work2 _ _ _ P Q th E G); [|lia|lia]. intros ->. cbn in *. 
    destruct C as [[_ C]|(KS & _ & C & NK & _)]; [discriminate|]. destruct KS; [congruence|discriminate]. }
  split; [|split]; intros y s F L N B; (split; [apply (H y s F L N B None 1%nat); now left|intros KS NK D; apply (H y s F L N B (Some (map (map W) KS)) (length KS)); right; eauto]).
Qed.
