(** General facts about IEEE doubles: comparisons through an order embedding
    into the reals, and correctness of the elementary operations when no
    overflow occurs. *)
From Coq Require Import ZArith Reals Lia Lra Bool.
From Flocq Require Import Core BinarySingleNaN.
From Verif Require Import F64.
Open Scope R_scope.

Notation fexp64 := (SpecFloat.fexp prec64 emax64).
Notation rnd64 := (round radix2 fexp64 ZnearestE).
Notation format64 := (generic_format radix2 fexp64).

Global Instance fexp64_valid : Valid_exp fexp64.
Proof. apply (FLT_exp_valid (SpecFloat.emin prec64 emax64) prec64). Qed.
Global Instance fexp64_mono : Monotone_exp fexp64.
Proof. apply (FLT_exp_monotone (SpecFloat.emin prec64 emax64) prec64). Qed.

(** ** Order embedding *)

Definition fkey (x : f64) : R :=
  match x with
  | B754_infinity s => if s then - bpow radix2 emax64 else bpow radix2 emax64
  | _ => B2R x
  end.

Lemma fkey_fin x : fisfin x = true -> fkey x = B2R x.
Proof. destruct x; try discriminate; reflexivity. Qed.

Lemma fisfin_notnan x : fisfin x = true -> fisnan x = false.
Proof. destruct x; try discriminate; reflexivity. Qed.

Lemma abs_lt_emax (x : f64) : - bpow radix2 emax64 < B2R x < bpow radix2 emax64.
Proof.
  pose proof (abs_B2R_lt_emax prec64 emax64 x) as H.
  apply Rabs_def2 in H. lra.
Qed.

Lemma bpow_emax_pos : 0 < bpow radix2 emax64.
Proof. apply bpow_gt_0. Qed.

Lemma fcompare_key x y : fisnan x = false -> fisnan y = false ->
  @Bcompare prec64 emax64 x y = Some (Rcompare (fkey x) (fkey y)).
Proof.
  intros Nx Ny.
  destruct (fisfin x) eqn:Fx; destruct (fisfin y) eqn:Fy.
  - rewrite !fkey_fin by assumption. now apply Bcompare_correct.
  - destruct y as [?|sy| |]; try discriminate. rewrite (fkey_fin x) by assumption.
    pose proof (abs_lt_emax x). pose proof bpow_emax_pos.
    destruct x as [sx|sx| |sx mx ex Hx]; try discriminate;
      destruct sy; unfold fkey; symmetry; unfold Bcompare; simpl SpecFloat.SFcompare;
      try (destruct sx; apply f_equal); try apply f_equal;
      try apply Rcompare_Gt; try apply Rcompare_Lt; lra.
  - destruct x as [?|sx| |]; try discriminate. rewrite (fkey_fin y) by assumption.
    pose proof (abs_lt_emax y). pose proof bpow_emax_pos.
    destruct y as [sy|sy| |sy my ey Hy]; try discriminate;
      destruct sx; unfold fkey; symmetry; unfold Bcompare; simpl SpecFloat.SFcompare;
      apply f_equal;
      try apply Rcompare_Gt; try apply Rcompare_Lt; lra.
  - pose proof bpow_emax_pos.
    destruct x as [?|[|]| |]; try discriminate; destruct y as [?|[|]| |]; try discriminate;
      unfold fkey, Bcompare; simpl SpecFloat.SFcompare; symmetry; apply f_equal;
      try apply Rcompare_Gt; try apply Rcompare_Lt; try apply Rcompare_Eq; lra.
Qed.

Lemma fleb_key x y : fisnan x = false -> fisnan y = false ->
  (fleb x y = true <-> fkey x <= fkey y).
Proof.
  intros Nx Ny. pose proof (fcompare_key x y Nx Ny) as H.
  unfold fleb, Bleb, SpecFloat.SFleb. unfold Bcompare in H. rewrite H.
  destruct (Rcompare_spec (fkey x) (fkey y)); split; intros; try lra; try reflexivity; discriminate.
Qed.

Lemma fltb_key x y : fisnan x = false -> fisnan y = false ->
  (fltb x y = true <-> fkey x < fkey y).
Proof.
  intros Nx Ny. pose proof (fcompare_key x y Nx Ny) as H.
  unfold fltb, Bltb, SpecFloat.SFltb. unfold Bcompare in H. rewrite H.
  destruct (Rcompare_spec (fkey x) (fkey y)); split; intros; try lra; try reflexivity; discriminate.
Qed.

Lemma feqb_key x y : fisnan x = false -> fisnan y = false ->
  (feqb x y = true <-> fkey x = fkey y).
Proof.
  intros Nx Ny. pose proof (fcompare_key x y Nx Ny) as H.
  unfold feqb, Beqb, SpecFloat.SFeqb. unfold Bcompare in H. rewrite H.
  destruct (Rcompare_spec (fkey x) (fkey y)); split; intros; try lra; try reflexivity; discriminate.
Qed.

(** A comparison that answers [true] has no NaN operand. *)
Lemma fleb_notnan x y : fleb x y = true -> fisnan x = false /\ fisnan y = false.
Proof. destruct x as [|[]| |[]], y as [|[]| |[]]; cbn; intros; try discriminate; auto. Qed.
Lemma fltb_notnan x y : fltb x y = true -> fisnan x = false /\ fisnan y = false.
Proof. destruct x as [|[]| |[]], y as [|[]| |[]]; cbn; intros; try discriminate; auto. Qed.
Lemma feqb_notnan x y : feqb x y = true -> fisnan x = false /\ fisnan y = false.
Proof. destruct x as [|[]| |[]], y as [|[]| |[]]; cbn; intros; try discriminate; auto. Qed.

Lemma fleb_fin x y : fisfin x = true -> fisfin y = true -> (fleb x y = true <-> B2R x <= B2R y).
Proof.
  intros Fx Fy. rewrite fleb_key, !fkey_fin by auto using fisfin_notnan. reflexivity.
Qed.
Lemma fltb_fin x y : fisfin x = true -> fisfin y = true -> (fltb x y = true <-> B2R x < B2R y).
Proof.
  intros Fx Fy. rewrite fltb_key, !fkey_fin by auto using fisfin_notnan. reflexivity.
Qed.
Lemma feqb_fin x y : fisfin x = true -> fisfin y = true -> (feqb x y = true <-> B2R x = B2R y).
Proof.
  intros Fx Fy. rewrite feqb_key, !fkey_fin by auto using fisfin_notnan. reflexivity.
Qed.

Lemma fleb_refl x : fisnan x = false -> fleb x x = true.
Proof. intros H. apply fleb_key; auto. lra. Qed.

Lemma fleb_trans x y z : fleb x y = true -> fleb y z = true -> fleb x z = true.
Proof.
  intros H1 H2. destruct (fleb_notnan _ _ H1). destruct (fleb_notnan _ _ H2).
  apply fleb_key in H1; auto. apply fleb_key in H2; auto. apply fleb_key; auto. lra.
Qed.

Lemma fltb_fleb x y : fltb x y = true -> fleb x y = true.
Proof.
  intros H. destruct (fltb_notnan _ _ H). apply fltb_key in H; auto. apply fleb_key; auto. lra.
Qed.

Lemma fleb_total x y : fisnan x = false -> fisnan y = false -> fleb x y = true \/ fleb y x = true.
Proof. intros. rewrite !fleb_key by auto. lra. Qed.

Lemma fleb_false_lt x y : fisnan x = false -> fisnan y = false ->
  (fleb x y = false <-> fkey y < fkey x).
Proof.
  intros Nx Ny. pose proof (fleb_key x y Nx Ny). destruct (fleb x y).
  - split; [discriminate|]. intros. destruct H as [H _]. specialize (H eq_refl). lra.
  - split; auto. intros _. destruct (Rlt_le_dec (fkey y) (fkey x)); auto.
    destruct H as [_ H]. specialize (H r). discriminate.
Qed.

Lemma fltb_false_le x y : fisnan x = false -> fisnan y = false ->
  (fltb x y = false <-> fkey y <= fkey x).
Proof.
  intros Nx Ny. pose proof (fltb_key x y Nx Ny). destruct (fltb x y).
  - split; [discriminate|]. intros. destruct H as [H _]. specialize (H eq_refl). lra.
  - split; auto. intros _. destruct (Rlt_le_dec (fkey x) (fkey y)); auto.
    destruct H as [_ H]. specialize (H r). discriminate.
Qed.

(** ** Rounding *)

Lemma rnd64_mono x y : x <= y -> rnd64 x <= rnd64 y.
Proof. apply round_le; auto with typeclass_instances. Qed.

Lemma rnd64_id x : format64 x -> rnd64 x = x.
Proof. apply round_generic; auto with typeclass_instances. Qed.

Lemma B2R_format (x : f64) : format64 (B2R x).
Proof. apply generic_format_B2R. Qed.

Lemma rnd64_ge x y : format64 x -> x <= y -> x <= rnd64 y.
Proof. intros. apply round_ge_generic; auto with typeclass_instances. Qed.
Lemma rnd64_le x y : format64 y -> x <= y -> rnd64 x <= y.
Proof. intros. apply round_le_generic; auto with typeclass_instances. Qed.

Lemma format64_IZR n : (Z.abs n <= 2 ^ 53)%Z -> format64 (IZR n).
Proof.
  intros H. apply (generic_format_FLT radix2 (SpecFloat.emin prec64 emax64) prec64).
  destruct (Z.eq_dec (Z.abs n) (2 ^ 53)) as [E|E].
  - apply FLT_spec with (Float radix2 (Z.sgn n * 2 ^ 52) 1).
    + unfold F2R; simpl Fnum; simpl Fexp. rewrite <- (IZR_Zpower radix2) by lia.
      rewrite <- mult_IZR. f_equal.
      change (radix2 ^ 1)%Z with 2%Z. change (2 ^ 53)%Z with 9007199254740992%Z in E.
      change (2 ^ 52)%Z with 4503599627370496%Z. lia.
    + simpl Fnum. rewrite Z.abs_mul. change (radix2 ^ prec64)%Z with (2 ^ 53)%Z.
      change (2 ^ 53)%Z with 9007199254740992%Z. change (2 ^ 52)%Z with 4503599627370496%Z. lia.
    + simpl. unfold SpecFloat.emin. unfold emax64, prec64. lia.
  - apply FLT_spec with (Float radix2 n 0).
    + unfold F2R; simpl. ring.
    + simpl Fnum. change (radix2 ^ prec64)%Z with (2 ^ 53)%Z. lia.
    + simpl. unfold SpecFloat.emin. unfold emax64, prec64. lia.
Qed.

Lemma format64_0 : format64 0.
Proof. apply generic_format_0. Qed.
Lemma format64_1 : format64 1.
Proof. apply (format64_IZR 1). lia. Qed.

Lemma rnd64_0 : rnd64 0 = 0.
Proof. apply round_0; auto with typeclass_instances. Qed.
Lemma rnd64_1 : rnd64 1 = 1.
Proof. apply rnd64_id, format64_1. Qed.

Lemma bpow_emax_big : 2 ^ 60 <= bpow radix2 emax64.
Proof.
  replace (2 ^ 60) with (bpow radix2 60) by (simpl; lra).
  apply bpow_le. unfold emax64. lia.
Qed.

Lemma f_of_Z_correct n : (Z.abs n <= 2 ^ 53)%Z -> B2R (f_of_Z n) = IZR n /\ fisfin (f_of_Z n) = true.
Proof.
  intros H. pose proof (binary_normalize_correct prec64 emax64 _ _ mode_NE n 0 false) as C.
  cbv zeta in C. unfold F2R in C. simpl Fnum in C. simpl Fexp in C. simpl (bpow radix2 0) in C.
  rewrite Rmult_1_r in C. simpl (round_mode mode_NE) in C.
  rewrite rnd64_id in C by now apply format64_IZR.
  rewrite Rlt_bool_true in C.
  - destruct C as (C1 & C2 & _). now split.
  - rewrite <- abs_IZR. apply Rle_lt_trans with (IZR (2 ^ 53)); [now apply IZR_le|].
    apply Rlt_le_trans with (bpow radix2 60).
    + rewrite <- (IZR_Zpower radix2 60) by lia. apply IZR_lt. reflexivity.
    + apply bpow_le. unfold emax64; lia.
Qed.

Lemma fmul_correct x y : fisfin x = true -> fisfin y = true ->
  Rabs (rnd64 (B2R x * B2R y)) < bpow radix2 emax64 ->
  B2R (fmul x y) = rnd64 (B2R x * B2R y) /\ fisfin (fmul x y) = true.
Proof.
  intros Fx Fy H. pose proof (Bmult_correct prec64 emax64 _ _ mode_NE x y) as C.
  simpl (round_mode mode_NE) in C. rewrite Rlt_bool_true in C by assumption.
  destruct C as (C1 & C2 & _). split; [exact C1|]. unfold fisfin, fmul in *. rewrite C2, Fx, Fy. reflexivity.
Qed.

Lemma fadd_correct x y : fisfin x = true -> fisfin y = true ->
  Rabs (rnd64 (B2R x + B2R y)) < bpow radix2 emax64 ->
  B2R (fadd x y) = rnd64 (B2R x + B2R y) /\ fisfin (fadd x y) = true.
Proof.
  intros Fx Fy H. pose proof (Bplus_correct prec64 emax64 _ _ mode_NE x y Fx Fy) as C.
  simpl (round_mode mode_NE) in C. rewrite Rlt_bool_true in C by assumption.
  destruct C as (C1 & C2 & _). now split.
Qed.

Lemma fsub_correct x y : fisfin x = true -> fisfin y = true ->
  Rabs (rnd64 (B2R x - B2R y)) < bpow radix2 emax64 ->
  B2R (fsub x y) = rnd64 (B2R x - B2R y) /\ fisfin (fsub x y) = true.
Proof.
  intros Fx Fy H. pose proof (Bminus_correct prec64 emax64 _ _ mode_NE x y Fx Fy) as C.
  simpl (round_mode mode_NE) in C. rewrite Rlt_bool_true in C by assumption.
  destruct C as (C1 & C2 & _). now split.
Qed.

Lemma fdiv_correct x y : fisfin x = true -> B2R y <> 0 ->
  Rabs (rnd64 (B2R x / B2R y)) < bpow radix2 emax64 ->
  B2R (fdiv x y) = rnd64 (B2R x / B2R y) /\ fisfin (fdiv x y) = true.
Proof.
  intros Fx Fy H. pose proof (Bdiv_correct prec64 emax64 _ _ mode_NE x y Fy) as C.
  simpl (round_mode mode_NE) in C. rewrite Rlt_bool_true in C by assumption.
  destruct C as (C1 & C2 & _). split; [exact C1|]. unfold fisfin, fdiv in *. rewrite C2, Fx. reflexivity.
Qed.

(** A finite sum of two finite doubles is never NaN. *)
Lemma fadd_fin_notnan x y : fisfin x = true -> fisfin y = true -> fisnan (fadd x y) = false.
Proof.
  intros Fx Fy. pose proof (Bplus_correct prec64 emax64 _ _ mode_NE x y Fx Fy) as C.
  destruct (Rlt_bool _ _).
  - destruct C as (_ & C & _). now apply fisfin_notnan.
  - destruct C as (C & _). unfold fisnan. rewrite <- is_nan_SF_B2SF. unfold fadd. rewrite C.
    apply is_nan_binary_overflow.
Qed.

(** ** Integer valued doubles *)

Lemma Btrunc_spec (x : f64) : Btrunc x = Ztrunc (B2R x).
Proof.
  apply eq_IZR. rewrite Btrunc_correct by auto with typeclass_instances.
  unfold round, F2R, scaled_mantissa, cexp, FIX_exp. simpl. rewrite !Rmult_1_r. reflexivity.
Qed.

Lemma fceil_spec x : B2R (fceil x) = IZR (Zceil (B2R x)) /\ fisfin (fceil x) = fisfin x.
Proof.
  destruct (Bnearbyint_correct prec64 emax64 _ mode_UP x) as (H1 & H2 & _). split; [|exact H2].
  unfold fceil. rewrite H1. unfold round, F2R, scaled_mantissa, cexp, FIX_exp. simpl. rewrite !Rmult_1_r. reflexivity.
Qed.

Lemma ffloor_spec x : B2R (ffloor x) = IZR (Zfloor (B2R x)) /\ fisfin (ffloor x) = fisfin x.
Proof.
  destruct (Bnearbyint_correct prec64 emax64 _ mode_DN x) as (H1 & H2 & _). split; [|exact H2].
  unfold ffloor. rewrite H1. unfold round, F2R, scaled_mantissa, cexp, FIX_exp. simpl. rewrite !Rmult_1_r. reflexivity.
Qed.
