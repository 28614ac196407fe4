(** Error bars and p-values in doubles; the exact-arithmetic versions. *)
From Coq Require Import Reals Lra Permutation Sorted.
From Flocq Require Import Core BinarySingleNaN.
From Verif Require Import PyBase F64 F64Lemmas Num NumOk Util UtilProofs ListLemmas UtilProofs2 BootUtil
  BootProofs BootProofs2 BootProofs3.
Open Scope R_scope.

(** ** Subtraction of doubles is monotone *)

Definition clampM (x : R) : R := Rmax (- bpow radix2 emax64) (Rmin (bpow radix2 emax64) x).
Lemma clampM_mono x y : x <= y -> clampM x <= clampM y.
Proof.
  intros H. unfold clampM. apply Rmax_case_strong; intros.
  - apply Rmax_l.
  - eapply Rle_trans; [|apply Rmax_r]. apply Rmin_glb; [apply Rmin_l|]. eapply Rle_trans; [apply Rmin_r|auto].
Qed.

Lemma fsub_key x y : fisfin x = true -> fisfin y = true ->
  fisnan (fsub x y) = false /\ fkey (fsub x y) = clampM (rnd64 (B2R x - B2R y)).
Proof.
  intros Fx Fy. pose proof (Bminus_correct prec64 emax64 _ _ mode_NE x y Fx Fy) as C.
  simpl (round_mode mode_NE) in C. pose proof bpow_emax_pos as MP. destruct (Rlt_bool _ _) eqn:O in C.
  - destruct C as (V & F & _). fold (fsub x y) in V, F. fold (fisfin (fsub x y)) in F.
    split; [now apply fisfin_notnan|]. rewrite fkey_fin, V by auto.
    apply Rlt_bool_true_inv in O || (destruct (Rlt_bool_spec (Rabs (rnd64 (B2R x - B2R y))) (bpow radix2 emax64)) as [L|L]; [|discriminate]).
    apply Rabs_def2 in L. unfold clampM. rewrite Rmin_right by lra. rewrite Rmax_right by lra. reflexivity.
  - destruct C as [C _]. fold (fsub x y) in C.
    assert (fsub x y = B754_infinity (Bsign x)) as E.
    { apply B2SF_inj. rewrite C. unfold binary_overflow, overflow_to_inf. reflexivity. }
    destruct (fsub_sign y x Fy Fx) as [S _]. rewrite E in *. split; [reflexivity|].
    destruct (Rlt_bool_spec (Rabs (rnd64 (B2R x - B2R y))) (bpow radix2 emax64)) as [L|L]; [discriminate|].
    destruct (Rle_lt_dec 0 (B2R x - B2R y)) as [P|P].
    + assert (0 <= rnd64 (B2R x - B2R y)) by (apply rnd64_ge; [apply format64_0|auto]).
      rewrite Rabs_pos_eq in L by auto.
      assert (B2R y < B2R x) as Lt.
      { destruct (Rle_lt_or_eq_dec _ _ P) as [|Z]; [lra|]. rewrite <- Z, rnd64_0 in L. lra. }
      apply S in Lt. destruct (Bsign x); [discriminate|]. cbn [fkey].
      unfold clampM. rewrite Rmin_left by lra. rewrite Rmax_right by lra. reflexivity.
    + assert (rnd64 (B2R x - B2R y) <= 0) by (apply rnd64_le; [apply format64_0|lra]).
      rewrite Rabs_left1 in L by auto.
      destruct (Bsign x).
      * cbn [fkey]. unfold clampM. rewrite Rmin_right by lra. rewrite Rmax_left by lra. reflexivity.
      * exfalso. assert (B2R y < B2R x) by (apply S; reflexivity). lra.
Qed.

Lemma fsub_mono_l x x' e : fleb x x' = true -> fisnan (fsub x e) = false -> fisnan (fsub x' e) = false ->
  fleb (fsub x e) (fsub x' e) = true.
Proof.
  intros L N N'. destruct (fleb_notnan _ _ L) as [Nx Nx'].
  destruct (fisfin e) eqn:Fe; [destruct (fisfin x) eqn:Fx; [destruct (fisfin x') eqn:Fx'|]|].
  - apply fleb_key; auto. destruct (fsub_key x e Fx Fe) as [_ ->]. destruct (fsub_key x' e Fx' Fe) as [_ ->].
    apply fleb_fin in L; auto. apply clampM_mono, rnd64_mono. lra.
  - destruct x' as [|[]| |]; try discriminate.
    + destruct x as [|[]| |]; try discriminate; destruct s; discriminate.
    + assert (fsub (B754_infinity false) e = finf) as -> by (destruct e as [|[]| |]; try discriminate; reflexivity).
      destruct (fsub x e) as [[]|[]| |[]]; try discriminate; reflexivity.
  - destruct x as [|[]| |]; try discriminate.
    + assert (fsub (B754_infinity true) e = fninf) as -> by (destruct e as [|[]| |]; try discriminate; reflexivity).
      destruct (fsub x' e) as [[]|[]| |[]]; try discriminate; reflexivity.
    + destruct x' as [|[]| |[]]; try discriminate. apply fleb_refl; auto.
  - destruct e as [|[]| |]; try discriminate.
    + (* e = -inf: both are +inf *)
      destruct x as [|[]| |], x' as [|[]| |]; try discriminate; reflexivity.
    + destruct x as [|[]| |], x' as [|[]| |]; try discriminate; reflexivity.
    + destruct x as [|[]| |]; discriminate.
Qed.
Lemma fsub_mono_r x x' e : fleb x x' = true -> fisnan (fsub e x) = false -> fisnan (fsub e x') = false ->
  fleb (fsub e x') (fsub e x) = true.
Proof.
  intros L N N'. destruct (fleb_notnan _ _ L) as [Nx Nx'].
  destruct (fisfin e) eqn:Fe; [destruct (fisfin x) eqn:Fx; [destruct (fisfin x') eqn:Fx'|]|].
  - apply fleb_key; auto. destruct (fsub_key e x Fe Fx) as [_ ->]. destruct (fsub_key e x' Fe Fx') as [_ ->].
    apply fleb_fin in L; auto. apply clampM_mono, rnd64_mono. lra.
  - destruct x' as [|[]| |]; try discriminate.
    + destruct x as [|[]| |]; try discriminate; destruct s; discriminate.
    + assert (fsub e (B754_infinity false) = fninf) as -> by (destruct e as [|[]| |]; try discriminate; reflexivity).
      destruct (fsub e x) as [[]|[]| |[]]; try discriminate; reflexivity.
  - destruct x as [|[]| |]; try discriminate.
    + assert (fsub e (B754_infinity true) = finf) as -> by (destruct e as [|[]| |]; try discriminate; reflexivity).
      destruct (fsub e x') as [[]|[]| |[]]; try discriminate; reflexivity.
    + destruct x' as [|[]| |[]]; try discriminate. apply fleb_refl; auto.
  - destruct e as [|[]| |]; try discriminate.
    + destruct x as [|[]| |], x' as [|[]| |]; try discriminate; reflexivity.
    + destruct x as [|[]| |], x' as [|[]| |]; try discriminate; reflexivity.
Qed.

Lemma fsub_notnan_l x e : fisfin e = true -> fisnan x = false -> fisnan (fsub x e) = false.
Proof.
  intros Fe Nx. destruct (fisfin x) eqn:Fx; [now apply fsub_key|].
  destruct x as [|[]| |]; try discriminate; destruct e as [|[]| |]; try discriminate; reflexivity.
Qed.
Lemma fsub_notnan_r x e : fisfin e = true -> fisnan x = false -> fisnan (fsub e x) = false.
Proof.
  intros Fe Nx. destruct (fisfin x) eqn:Fx; [now apply fsub_key|].
  destruct x as [|[]| |]; try discriminate; destruct e as [|[]| |]; try discriminate; reflexivity.
Qed.
Lemma fsub_nan_cases x y : fisnan x = false -> fisnan y = false -> fisnan (fsub x y) = true ->
  (x = finf /\ y = finf) \/ (x = fninf /\ y = fninf).
Proof.
  intros Nx Ny H. destruct (fisfin y) eqn:Fy; [rewrite fsub_notnan_l in H by auto; discriminate|].
  destruct (fisfin x) eqn:Fx; [rewrite fsub_notnan_r in H by auto; discriminate|].
  destruct x as [|[]| |], y as [|[]| |]; try discriminate; auto.
Qed.
Lemma fsub_neg x y : fisnan x = false -> fisnan y = false -> fltb (fsub y x) f0 = true -> fltb y x = true.
Proof.
  intros Nx Ny H. destruct (fltb_notnan _ _ H) as [Nd _].
  assert (fleb f0 (fsub y x) = false) as E.
  { apply fleb_false_lt; auto. apply fltb_key in H; auto. }
  destruct (fisfin x) eqn:Fx; [destruct (fisfin y) eqn:Fy|].
  - apply fltb_fin; auto. destruct (fsub_sign x y Fx Fy) as [_ S].
    apply Rnot_le_lt. intros C. apply S in C. congruence.
  - destruct y as [|[]| |]; try discriminate; destruct x as [[]|[]| |[]]; try discriminate; reflexivity.
  - destruct x as [|[]| |]; try discriminate; destruct y as [[]|[]| |[]]; try discriminate; reflexivity.
Qed.

(** ** error_bar in doubles *)

Definition ebar (lb ub e : f64) : f64 := nfmax (fsub ub e) (fsub e lb).

Lemma ebar_nonneg lb ub e : fleb lb ub = true -> fltb (ebar lb ub e) f0 = false.
Proof.
  intros L. destruct (fleb_notnan _ _ L) as [Nl Nu]. destruct (fltb (ebar lb ub e) f0) eqn:E; auto. exfalso.
  unfold ebar, nfmax in E. cbn [nleb nisnan f64_num] in E.
  assert (fisnan e = false) as Ne.
  { destruct (fleb (fsub e lb) (fsub ub e) || fisnan (fsub e lb)) in E; apply fltb_notnan in E as [E _];
      destruct e as [|[]| |]; auto; destruct lb as [|[]| |], ub as [|[]| |]; discriminate. }
  destruct (fleb (fsub e lb) (fsub ub e) || fisnan (fsub e lb)) eqn:B in E.
  - apply fsub_neg in E as E'; auto.
    assert (fltb lb e = true) as Lt by exact (le_lt_trans (NT := f64_num) lb ub e L E').
    assert (fltb f0 (fsub e lb) = true) as P by (rewrite <- Lt; exact (diff_pos_ (NT := f64_num) lb e Nl Ne)).
    destruct (fltb_notnan _ _ P) as [_ Nd]. rewrite Nd, orb_false_r in B.
    assert (fltb f0 (fsub ub e) = true) as Q by exact (lt_le_trans (NT := f64_num) f0 _ _ P B).
    apply fltb_fin_l in Q. congruence.
  - apply fsub_neg in E as E'; auto.
    assert (fltb e ub = true) as Lt by exact (lt_le_trans (NT := f64_num) e lb ub E' L).
    assert (fltb f0 (fsub ub e) = true) as P by (rewrite <- Lt; exact (diff_pos_ (NT := f64_num) e ub Ne Nu)).
    apply orb_false_iff in B as [B _].
    assert (fltb (fsub e lb) (fsub ub e) = true) as Q by exact (lt_trans (NT := f64_num) _ f0 _ E P).
    apply fltb_fleb in Q. congruence.
Qed.

Lemma ebar_notnan lb ub e : fisnan lb = false -> fisnan ub = false -> fisfin e = true -> fisnan (ebar lb ub e) = false.
Proof.
  intros. unfold ebar, nfmax. cbn [nleb nisnan f64_num].
  destruct (_ || _); [now apply fsub_notnan_l|now apply fsub_notnan_r].
Qed.

Lemma error_bar_eq b e c lb ub : percentile b c = Ok (lb, ub) -> fleb lb ub = true ->
  error_bar b e c = Ok (ebar lb ub e).
Proof.
  intros P L. unfold error_bar. rewrite P. cbn [bind fst snd].
  change (nfmax (nsub ub e) (nsub e lb)) with (ebar lb ub e).
  cbn [nltb nisfin nisnan n0 f64_num]. rewrite ebar_nonneg by auto. cbn [negb py_assert bind].
  destruct (fleb_notnan _ _ L). destruct (fisfin e) eqn:F; [|reflexivity]. now rewrite ebar_notnan by auto.
Qed.

Lemma nfmax_mono (a b a' b' : f64) : (fisnan a = false -> fleb a a' = true) -> (fisnan b = false -> fleb b b' = true) ->
  fisnan (nfmax a b) = true \/ fleb (nfmax a b) (nfmax a' b') = true.
Proof.
  intros Ha Hb. unfold nfmax. cbn [nleb nisnan f64_num].
  destruct (fisnan b) eqn:Nb.
  - rewrite orb_true_r. destruct (fisnan a) eqn:Na; [now left|]. right. specialize (Ha eq_refl).
    destruct (fleb_notnan _ _ Ha) as [_ Na']. destruct (fleb b' a' || fisnan b') eqn:E; auto.
    apply orb_false_iff in E as [E Nb']. destruct (fleb_total b' a' Nb' Na') as [X|X]; [congruence|].
    eapply fleb_trans; eauto.
  - specialize (Hb eq_refl). destruct (fleb_notnan _ _ Hb) as [_ Nb']. rewrite Nb', !orb_false_r.
    destruct (fisnan a) eqn:Na.
    + right. assert (fleb b a = false) as -> by (destruct a as [|[]| |]; try discriminate; destruct b as [|[]| |]; reflexivity).
      destruct (fleb b' a') eqn:E; auto. eapply fleb_trans; eauto.
    + specialize (Ha eq_refl). destruct (fleb_notnan _ _ Ha) as [_ Na']. right.
      destruct (fleb b a) eqn:E1; destruct (fleb b' a') eqn:E2; auto.
      * destruct (fleb_total b' a' Nb' Na') as [X|X]; [congruence|]. eapply fleb_trans; eauto.
      * eapply fleb_trans; eauto.
Qed.

Lemma ebar_mono lb ub lb' ub' e : fleb lb' lb = true -> fleb lb ub = true -> fleb ub ub' = true ->
  fisnan (ebar lb ub e) = true \/ fleb (ebar lb ub e) (ebar lb' ub' e) = true.
Proof.
  intros L1 L2 L3. destruct (fleb_notnan _ _ L1) as [Nl' Nl]. destruct (fleb_notnan _ _ L3) as [Nu Nu'].
  assert (fisnan e = true \/ fisfin e = true \/ e = finf \/ e = fninf) as [N|[F|[E|E]]].
  { destruct e as [|[]| |]; auto. }
  - left. destruct e as [|[]| |]; try discriminate. unfold ebar, nfmax. cbn [nleb nisnan f64_num].
    destruct (_ || _); [destruct ub as [|[]| |]|destruct lb as [|[]| |]]; reflexivity.
  - apply nfmax_mono; intros _.
    + apply fsub_mono_l; auto using fsub_notnan_l.
    + apply fsub_mono_r; auto using fsub_notnan_r.
  - subst e. destruct (fisfin lb) eqn:Fl.
    + right. assert (fsub finf lb' = finf) as E'.
      { destruct lb' as [|[]| |]; try discriminate; try reflexivity.
        destruct lb as [|[]| |]; try discriminate; destruct s; discriminate. }
      unfold ebar. rewrite E'. unfold nfmax at 2. cbn [nleb nisnan f64_num].
      assert (forall z : f64, fisnan z = false -> fleb z finf = true) as Top by (intros [[]|[]| |[]]; try discriminate; reflexivity).
      assert (fisnan (nfmax (fsub ub finf) (fsub finf lb)) = false) as NN.
      { unfold nfmax. cbn [nleb nisnan f64_num]. assert (fsub finf lb = finf) as -> by (destruct lb as [|[]| |]; try discriminate; reflexivity).
        cbn [fisnan]. destruct (fleb finf (fsub ub finf)) eqn:Q; cbn [orb]; [|reflexivity]. apply fleb_notnan in Q. apply Q. }
      destruct (fleb finf (fsub ub' finf) || fisnan finf) eqn:Q; [|now apply Top].
      cbn in Q. rewrite orb_false_r in Q. eapply fleb_trans; [apply Top; exact NN|exact Q].
    + destruct lb as [|[]| |]; try discriminate.
      * (* lb = -inf *) assert (lb' = fninf) as -> by (destruct lb' as [|[]| |[]]; try discriminate; reflexivity).
        right. unfold ebar, nfmax. cbn [nleb nisnan f64_num].
        destruct ub as [|[]| |], ub' as [|[]| |]; try discriminate; reflexivity.
      * (* lb = inf *) left. assert (ub = finf) as -> by (destruct ub as [[]|[]| |[]]; try discriminate; reflexivity). reflexivity.
  - subst e. destruct (fisfin ub) eqn:Fu.
    + right. assert (fsub ub' fninf = finf) as E'.
      { destruct ub' as [|[]| |]; try discriminate; try reflexivity.
        destruct ub as [|[]| |]; try discriminate; destruct s; discriminate. }
      assert (fsub ub fninf = finf) as E'' by (destruct ub as [|[]| |]; try discriminate; reflexivity).
      unfold ebar. rewrite E', E''.
      assert (fsub fninf lb = fninf \/ fisnan (fsub fninf lb) = true) as Hl by (destruct lb as [|[]| |]; try discriminate; auto).
      assert (fsub fninf lb' = fninf \/ fisnan (fsub fninf lb') = true) as Hl' by (destruct lb' as [|[]| |]; try discriminate; auto).
      unfold nfmax. cbn [nleb nisnan f64_num].
      destruct Hl as [->|Hl], Hl' as [->|Hl']; rewrite ?Hl, ?Hl', ?orb_true_r; reflexivity.
    + destruct ub as [|[]| |]; try discriminate.
      * left. assert (lb = fninf) as -> by (destruct lb as [|[]| |[]]; try discriminate; reflexivity). reflexivity.
      * assert (ub' = finf) as -> by (destruct ub' as [|[]| |[]]; try discriminate; reflexivity). right.
        unfold ebar. assert (fsub fninf lb = fninf \/ fisnan (fsub fninf lb) = true) as Hl by (destruct lb as [|[]| |]; try discriminate; auto).
        assert (fsub fninf lb' = fninf \/ fisnan (fsub fninf lb') = true) as Hl' by (destruct lb' as [|[]| |]; try discriminate; auto).
        unfold nfmax. cbn [nleb nisnan f64_num].
        destruct Hl as [->|Hl], Hl' as [->|Hl']; rewrite ?Hl, ?Hl', ?orb_true_r; reflexivity.
Qed.
