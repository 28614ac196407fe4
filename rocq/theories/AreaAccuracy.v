(** How far the areas of unweighted curves computed in doubles are from the
    exact areas. *)
From Coq Require Import Reals Lra Lia List Permutation Sorted.
From Flocq Require Import Core BinarySingleNaN.
From Verif Require Import PyBase ListLemmas F64 Num F64Lemmas NumOk SumProofs Util UtilProofs UtilProofs3 BootUtil BootProofs2 PerfCurves PerfProofs4 MLPaper MLProofs
  SwapProofs MeanProofs DoublesProofs DoublesProofs2 AccuracyProofs.
Open Scope R_scope.

(** ** A double standing for a number between 0 and 1 *)
Definition u1 : R := u64 * (1 + / 1024).
Definition near1 (a : f64) (r : R) : Prop := fisfin a = true /\ 0 <= B2R a <= 1 /\ 0 <= r <= 1 /\ Rabs (B2R a - r) <= u1.

Lemma eta_u : 0 < eta /\ eta <= u64 * / 1024.
Proof.
  split; [apply bpow_gt_0|]. replace (u64 * / 1024) with (P2 (-63)); [apply bpow_le; lia|].
  replace (-63)%Z with (-53 + -10)%Z by lia. rewrite bpow_plus. unfold u64. f_equal.
Qed.
Lemma u_tiny : 0 < u64 /\ u64 <= / 1024 /\ 0 < u1 /\ u1 <= / 1000 /\ u1 <= u64 * (1 + / 1024).
Proof. pose proof u64_pos. pose proof u64_small. unfold u1. repeat split; nra. Qed.

Lemma rnd_unit r : 0 <= r <= 1 -> 0 <= rnd64 r <= 1 /\ Rabs (rnd64 r - r) <= u1.
Proof.
  intros H. pose proof (rnd_err r) as E. destruct eta_u as [_ T]. pose proof u64_pos. split.
  - split; [apply rnd64_ge; [apply format64_0|lra]|]. change 1 with (P2 0). apply rnd64_le; [|cbn; lra]. apply generic_format_bpow. unfold FLT_exp. cbn. lia.
  - rewrite (Rabs_pos_eq r) in E by lra. unfold u1. nra.
Qed.
Lemma fin1 r : Rabs r <= 4 -> Rabs r <= P2 1000.
Proof. intros H. eapply Rle_trans; [exact H|]. replace 4 with (P2 2) by (cbn; lra). apply bpow_le. lia. Qed.

(** a quotient of two counts *)
Lemma near1_quot k n : (0 <= k <= n)%Z -> (1 <= n <= 2 ^ 53)%Z -> near1 (fdiv (f_of_Z k) (f_of_Z n)) (IZR k / IZR n).
Proof.
  intros K N. destruct (f_of_Z_correct k) as [Vk Fk]; [lia|]. destruct (f_of_Z_correct n) as [Vn Fn]; [lia|].
  assert (1 <= IZR n) as Pn by (apply IZR_le; lia). assert (0 <= IZR k <= IZR n) as Pk by (split; apply IZR_le; lia).
  assert (0 <= IZR k / IZR n <= 1) as Q.
  { split; [apply Rle_mult_inv_pos; lra|]. apply (Rmult_le_reg_r (IZR n)); [lra|]. unfold Rdiv. rewrite Rmult_assoc, Rinv_l by lra. lra. }
  assert (v64 (fdiv (f_of_Z k) (f_of_Z n)) = Fin (rnd64 (IZR k / IZR n))) as E.
  { rewrite v64_div_fin; [|exact Fk|rewrite Vn; lra]. rewrite Vk, Vn. apply xround_ok. apply fin1. rewrite Rabs_pos_eq; lra. }
  apply v64_Fin in E as [E1 E2]. destruct (rnd_unit _ Q) as [A B]. unfold near1. rewrite E2. auto.
Qed.

(** one strip *)
Lemma strip_diff x0 x1 X0 X1 : near1 x0 X0 -> near1 x1 X1 -> X0 <= X1 ->
  fisfin (fsub x1 x0) = true /\ Rabs (B2R (fsub x1 x0)) <= 1 /\ Rabs (B2R (fsub x1 x0) - (X1 - X0)) <= 3 * u1.
Proof.
  intros (F0 & A0 & B0 & E0) (F1 & A1 & B1 & E1) L. destruct u_tiny as (U & U1 & V & V1 & _).
  assert (Rabs (B2R x1 - B2R x0) <= 1) as Ab by (apply Rabs_le; lra).
  assert (v64 (fsub x1 x0) = Fin (rnd64 (B2R x1 - B2R x0))) as E.
  { rewrite v64_sub, (v64_fin _ F0), (v64_fin _ F1). cbn [xr2]. apply xround_ok. apply fin1. lra. }
  apply v64_Fin in E as [E2 E3]. split; [exact E2|]. rewrite E3. pose proof (rnd_err (B2R x1 - B2R x0)) as R. destruct eta_u as [_ T].
  assert (Rabs (rnd64 (B2R x1 - B2R x0) - (B2R x1 - B2R x0)) <= u1) as R1 by (unfold u1; pose proof (Rabs_pos (B2R x1 - B2R x0)); nra).
  split.
  - assert (format64 1) as F by (change 1 with (P2 0); apply generic_format_bpow; unfold FLT_exp; cbn; lia).
    apply Rabs_le_inv in Ab. apply Rabs_le. split; [|apply rnd64_le; [exact F|lra]].
    apply rnd64_ge; [apply generic_format_opp; exact F|lra].
  - apply Rabs_le_inv in R1. apply Rabs_le_inv in E0. apply Rabs_le_inv in E1. apply Rabs_le. lra.
Qed.

Lemma rnd_abs r b : Rabs r <= b -> b <= 4 -> Rabs (rnd64 r - r) <= u64 * b + u64 * / 1024.
Proof. intros H B. pose proof (rnd_err r) as E. destruct eta_u as [_ T]. pose proof u64_pos. nra. Qed.

Lemma strip_linear x0 x1 X0 X1 y0 y1 Y0 Y1 : near1 x0 X0 -> near1 x1 X1 -> near1 y0 Y0 -> near1 y1 Y1 -> X0 <= X1 ->
  let q := fdiv (fmul (fsub x1 x0) (fadd y1 y0)) (f_of_Z 2) in
  fisfin q = true /\ Rabs (B2R q - (X1 - X0) * ((Y0 + Y1) / 2)) <= 8 * u64.
Proof.
  intros Hx0 Hx1 Hy0 Hy1 L q. destruct (strip_diff _ _ _ _ Hx0 Hx1 L) as (Fd & Bd & Ed).
  destruct Hx0 as (_ & _ & Bx0 & _). destruct Hx1 as (_ & _ & Bx1 & _).
  destruct Hy0 as (F0 & A0 & B0 & E0). destruct Hy1 as (F1 & A1 & B1 & E1). destruct u_tiny as (U & U1 & V & V1 & V2).
  set (d := B2R (fsub x1 x0)) in *. set (D := X1 - X0) in *.
  assert (v64 (fadd y1 y0) = Fin (rnd64 (B2R y1 + B2R y0))) as E.
  { rewrite v64_add, (v64_fin _ F0), (v64_fin _ F1). cbn [xr2]. apply xround_ok. apply fin1. rewrite Rabs_pos_eq; lra. }
  apply v64_Fin in E as [Fs Es]. set (s := B2R (fadd y1 y0)) in *. set (S := Y0 + Y1).
  assert (Rabs (s - S) <= 4 * u1) as Rs.
  { rewrite Es. pose proof (rnd_abs (B2R y1 + B2R y0) 2) as Q. rewrite (Rabs_pos_eq (B2R y1 + B2R y0)) in Q by lra. specialize (Q ltac:(lra) ltac:(lra)).
    apply Rabs_le_inv in Q. apply Rabs_le_inv in E0. apply Rabs_le_inv in E1. apply Rabs_le. unfold S, u1 in *. lra. }
  assert (0 <= s <= 2) as Bs.
  { rewrite Es. split; [apply rnd64_ge; [apply format64_0|lra]|]. apply rnd64_le; [|lra]. replace 2 with (P2 1) by (cbn; lra). apply generic_format_bpow. unfold FLT_exp. cbn. lia. }
  assert (Rabs (d * s) <= 2) as Bp by (rewrite Rabs_mult, (Rabs_pos_eq s) by lra; pose proof (Rabs_pos d); nra).
  assert (v64 (fmul (fsub x1 x0) (fadd y1 y0)) = Fin (rnd64 (d * s))) as Ep.
  { rewrite v64_mul, (v64_fin _ Fd), (v64_fin _ Fs). cbn [xr2]. apply xround_ok. apply fin1. fold d s. lra. }
  apply v64_Fin in Ep as [Fp Vp]. pose proof (rnd_abs (d * s) 2 Bp ltac:(lra)) as Rp. rewrite <- Vp in Rp. set (p := B2R (fmul (fsub x1 x0) (fadd y1 y0))) in *.
  assert (Rabs (p / 2) <= 2) as Bq by (apply Rabs_le_inv in Rp; apply Rabs_le_inv in Bp; apply Rabs_le; lra).
  destruct (f_of_Z_correct 2 ltac:(lia)) as [V2z _].
  assert (v64 q = Fin (rnd64 (p / 2))) as Eq.
  { unfold q. rewrite v64_div_fin; [|exact Fp|rewrite V2z; lra]. rewrite V2z. apply xround_ok. apply fin1. fold p. lra. }
  apply v64_Fin in Eq as [Fq Vq]. split; [exact Fq|]. rewrite Vq.
  assert (Rabs (p / 2) <= 1 + / 100) as Bq' by (apply Rabs_le_inv in Rp; apply Rabs_le_inv in Bp; apply Rabs_le; nra).
  pose proof (rnd_abs (p / 2) _ Bq' ltac:(lra)) as Rq.
  assert (Rabs (d * s - D * S) <= 10 * u1) as Rds.
  { replace (d * s - D * S) with ((d - D) * s + D * (s - S)) by ring. eapply Rle_trans; [apply Rabs_triang|]. rewrite !Rabs_mult, (Rabs_pos_eq s), (Rabs_pos_eq D) by (unfold D; lra).
    assert (0 <= D <= 1) by (unfold D; lra). pose proof (Rabs_pos (d - D)). pose proof (Rabs_pos (s - S)). nra. }
  replace (D * (S / 2)) with (D * S / 2) by field. generalize (rnd64 (p / 2)) Rq. intros z Rz. apply Rabs_le_inv in Rz. apply Rabs_le_inv in Rp. apply Rabs_le_inv in Rds. clearbody d s p.
  generalize (d * s) (D * S) Rp Rds. intros ds DS G1 G2. apply Rabs_le. unfold u1 in *. lra.
Qed.

Lemma strip_previous x0 x1 X0 X1 y0 Y0 : near1 x0 X0 -> near1 x1 X1 -> near1 y0 Y0 -> X0 <= X1 ->
  let q := fmul y0 (fsub x1 x0) in fisfin q = true /\ Rabs (B2R q - (X1 - X0) * Y0) <= 8 * u64.
Proof.
  intros Hx0 Hx1 Hy0 L q. destruct (strip_diff _ _ _ _ Hx0 Hx1 L) as (Fd & Bd & Ed).
  destruct Hx0 as (_ & _ & Bx0 & _). destruct Hx1 as (_ & _ & Bx1 & _).
  destruct Hy0 as (F0 & A0 & B0 & E0). destruct u_tiny as (U & U1 & V & V1 & V2).
  set (d := B2R (fsub x1 x0)) in *. set (D := X1 - X0) in *. set (y := B2R y0) in *.
  assert (Rabs (y * d) <= 1) as Bp by (rewrite Rabs_mult, (Rabs_pos_eq y) by lra; pose proof (Rabs_pos d); nra).
  assert (v64 q = Fin (rnd64 (y * d))) as Ep.
  { unfold q. rewrite v64_mul, (v64_fin _ Fd), (v64_fin _ F0). cbn [xr2]. apply xround_ok. apply fin1. fold d y. lra. }
  apply v64_Fin in Ep as [Fp Vp]. split; [exact Fp|]. rewrite Vp. pose proof (rnd_abs (y * d) 1 Bp ltac:(lra)) as Rp.
  assert (Rabs (y * d - D * Y0) <= 4 * u1) as Rds.
  { replace (y * d - D * Y0) with ((d - D) * y + D * (y - Y0)) by ring. eapply Rle_trans; [apply Rabs_triang|]. rewrite !Rabs_mult, (Rabs_pos_eq y), (Rabs_pos_eq D) by (unfold D; lra).
    assert (0 <= D <= 1) by (unfold D; lra). pose proof (Rabs_pos (d - D)). pose proof (Rabs_pos (y - Y0)). nra. }
  apply Rabs_le_inv in Rp. apply Rabs_le_inv in Rds. apply Rabs_le. unfold u1 in *. lra.
Qed.

(** ** Adding the strips *)
Definition strip (q : f64) (t : R) : Prop := fisfin q = true /\ 0 <= t /\ Rabs (B2R q - t) <= 8 * u64.

Lemma strips_sum qs ts (v : f64) : Forall2 strip qs ts -> sums_to qs v -> INR (length qs) <= MAXN -> Rsum ts <= 1 ->
  fisfin v = true /\ Rabs (B2R v - Rsum ts) <= 12 * INR (length qs) * u64.
Proof.
  intros H S N T. assert (Forall (fun a => fisfin a = true) qs) as F.
  { clear -H. induction H as [|? ? ? ? [A _] _ IH]; constructor; auto. }
  assert (Rabs (Rsum (vals qs) - Rsum ts) <= 8 * INR (length qs) * u64 /\ abs_sum qs <= Rsum ts + 8 * INR (length qs) * u64 /\ 0 <= Rsum ts) as (A & B & P).
  { clear -H. induction H as [|q t qs ts (_ & P & E) _ (A & B & C)].
    - cbn. unfold abs_sum, vals, Rsum. cbn. rewrite Rminus_0_r, Rabs_R0. lra.
    - unfold abs_sum, vals in *. cbn [map length]. rewrite !Rsum_cons, S_INR. apply Rabs_le_inv in A. pose proof E as E'. apply Rabs_le_inv in E'.
      split; [apply Rabs_le; lra|]. split; [|lra]. assert (Rabs (B2R q) <= t + 8 * u64) by (apply Rabs_le; lra). lra. }
  set (n := INR (length qs)) in *. pose proof (maxn_u (length qs) N) as M. fold n in M. pose proof p23 as P8. pose proof u64_pos as U. pose proof (pos_INR (length qs)) as Pn. fold n in Pn.
  assert (8 * n * u64 <= 1) as S1 by (clearbody n; lra).
  assert (abs_sum qs <= 2) as B2 by lra.
  destruct (sums_err qs v S F N) as [Fv E]; [eapply Rle_trans; [exact B2|]; replace 2 with (P2 1) by (cbn; lra); apply bpow_le; lia|].
  split; [exact Fv|]. pose proof (pow_up (Nat.pred (length qs))) as PU.
  assert (INR (Nat.pred (length qs)) <= n) as Np by (apply le_INR; lia). pose proof (pos_INR (Nat.pred (length qs))) as Pm. set (m := INR (Nat.pred (length qs))) in *.
  assert (m * u64 <= n * u64) as Mn by (apply Rmult_le_compat_r; lra). specialize (PU ltac:(lra)).
  assert (((1 + u64) ^ Nat.pred (length qs) - 1) * abs_sum qs <= 2 * (n * u64) * 2) as G.
  { apply Rmult_le_compat; try lra; [|apply abs_sum_pos]. assert (1 <= (1 + u64) ^ Nat.pred (length qs)) by (apply pow_R1_Rle; lra). lra. }
  replace (B2R v - Rsum ts) with ((B2R v - Rsum (vals qs)) + (Rsum (vals qs) - Rsum ts)) by ring. eapply Rle_trans; [apply Rabs_triang|]. lra.
Qed.

Definition strips (k : ikind) (x y : list f64) : list f64 :=
  match k with
  | Previous => map2 fmul (removelast y) (diff x)
  | _ => map2 (fun d s => fdiv (fmul d s) (f_of_Z 2)) (diff x) (map2 fadd (tl y) (removelast y))
  end.
Fixpoint rstrips (k : ikind) (xs ys : list R) : list R :=
  match xs, ys with
  | x0 :: ((x1 :: _) as xs'), y0 :: ((y1 :: _) as ys') =>
      (x1 - x0) * match k with Previous => y0 | _ => (y0 + y1) / 2 end :: rstrips k xs' ys'
  | _, _ => []
  end.
Lemma rstrips_area k xs : forall ys, Rsum (rstrips k xs ys) = rarea k xs ys.
Proof.
  induction xs as [|x0 [|x1 xs] IH]; intros [|y0 [|y1 ys]]; try reflexivity. rewrite rarea_cons, <- IH. cbn [rstrips]. apply Rsum_cons.
Qed.
Lemma strips_near k : k <> Next -> forall x X y Y, Forall2 near1 x X -> Forall2 near1 y Y -> length x = length y -> StronglySorted Rle X ->
  Forall2 strip (strips k x y) (rstrips k X Y).
Proof.
  intros K. induction x as [|x0 [|x1 x] IH]; intros X y Y Hx Hy L S.
  - destruct y; try discriminate. inversion Hx; subst. inversion Hy; subst. destruct k; cbn; constructor.
  - inversion Hx as [|? ? ? ? A B]; subst. inversion B; subst. destruct y as [|b0 [|b1 b]]; try discriminate. inversion Hy as [|? ? ? ? C D]; subst. inversion D; subst. destruct k; cbn; constructor.
  - destruct y as [|y0 [|y1 y]]; try discriminate. inversion Hx as [|? X0 ? X' A B]; subst. inversion B as [|? X1 ? X'' A1 B1]; subst.
    inversion Hy as [|? Y0 ? Y' C D]; subst. inversion D as [|? Y1 ? Y'' C1 D1]; subst. inversion S as [|? ? S' F]; subst. inversion F as [|? ? LX _]; subst.
    specialize (IH _ (y1 :: y) _ B D ltac:(cbn in *; lia) S'). cbn [rstrips].
    assert (0 <= X1 - X0) as P by lra. pose proof C as (_ & _ & C4 & _). pose proof C1 as (_ & _ & G4 & _).
    destruct k; [|congruence|].
    + change (strips Previous (x0 :: x1 :: x) (y0 :: y1 :: y)) with (fmul y0 (fsub x1 x0) :: strips Previous (x1 :: x) (y1 :: y)).
      constructor; [|exact IH]. destruct (strip_previous x0 x1 X0 X1 y0 Y0 A A1 C LX) as [Q1 Q2]. split; [exact Q1|]. split; [apply Rmult_le_pos; lra|exact Q2].
    + change (strips Linear (x0 :: x1 :: x) (y0 :: y1 :: y)) with (fdiv (fmul (fsub x1 x0) (fadd y1 y0)) (f_of_Z 2) :: strips Linear (x1 :: x) (y1 :: y)).
      constructor; [|exact IH]. destruct (strip_linear x0 x1 X0 X1 y0 y1 Y0 Y1 A A1 C C1 LX) as [Q1 Q2]. split; [exact Q1|]. split; [apply Rmult_le_pos; lra|exact Q2].
Qed.
Lemma rstrips_len k : forall X Y, length X = length Y -> length (rstrips k X Y) = (length X - 1)%nat.
Proof. induction X as [|x0 [|x1 X] IH]; intros [|y0 [|y1 Y]] L; try discriminate; try reflexivity. change (Datatypes.S (length (rstrips k (x1 :: X) (y1 :: Y))) = (length (x0 :: x1 :: X) - 1)%nat). rewrite IH by (cbn in *; lia). cbn. lia. Qed.
Lemma near1_nan x X : Forall2 near1 x X -> existsb fisnan x = false.
Proof. induction 1 as [|a r x X (F & _) _ IH]; [reflexivity|]. cbn. rewrite (fisfin_notnan a F). exact IH. Qed.

Lemma area_near k x X y Y n : k <> Next -> Forall2 near1 x X -> Forall2 near1 y Y -> length x = n -> length y = n -> (2 <= n)%nat ->
  INR (n - 1) <= MAXN -> StronglySorted Rle X -> rarea k X Y <= 1 ->
  exists a : f64, area n [(x, y)] k = Ok [a] /\ fisfin a = true /\ Rabs (B2R a - rarea k X Y) <= 12 * INR (n - 1) * u64.
Proof.
  intros K Hx Hy Lx Ly N2 M S A1. pose proof (strips_near k K x X y Y Hx Hy ltac:(congruence) S) as H.
  pose proof (Forall2_len _ _ _ Hx) as LX. pose proof (Forall2_len _ _ _ Hy) as LY. pose proof (Forall2_len _ _ _ H) as LS. rewrite rstrips_len in LS by congruence.
  rewrite <- LX, Lx in LS. rewrite <- (rstrips_area k X Y) in A1 |- *. set (v := row_sum 1 (strips k x y)).
  destruct (strips_sum _ _ v H (row_sums 1 _)) as [F E]; [rewrite LS; exact M|exact A1|]. rewrite LS in E. exists v. split; [|auto].
  unfold area. replace (2 <=? n)%nat with true by (symmetry; apply Nat.leb_le; exact N2). cbn [py_assert bind existsb fst snd forallb].
  change (@nisnan f64 f64_num) with fisnan. rewrite (near1_nan _ _ Hx), (near1_nan _ _ Hy). cbn [orb negb py_assert bind]. rewrite Lx, Ly, Nat.eqb_refl. cbn [andb py_assert bind length map].
  assert ((match k with Previous => area_previous 1 x y | _ => area_linear 1 x y end) = v) as E'.
  { destruct k; [|congruence|reflexivity]. unfold area_previous, nansum. unfold v. f_equal.
    clear -H. cbn [strips] in *. revert H. generalize (rstrips Previous X Y). change (@nmul f64 f64_num) with fmul. generalize (map2 fmul (removelast y) (diff x)). intros l m H.
    induction H as [|q t l m (Q & _) _ IH]; [reflexivity|]. cbn [map]. rewrite IH. change (@nisnan f64 f64_num q) with (fisnan q). now rewrite (fisfin_notnan q Q). }
  destruct k; [|congruence|]; cbn [bind map fst snd length]; rewrite E'; cbn [existsb]; rewrite (fisfin_notnan v F); reflexivity.
Qed.
