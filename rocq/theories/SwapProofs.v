(** Lemmas for C89: exchanging the two methods that are compared negates the
    differences of their losses, and negation commutes with all of the
    arithmetic, rounding included. *)
From Coq Require Import Reals Lra Lia Permutation Sorted.
From Flocq Require Import Core BinarySingleNaN.
From Verif Require Import PyBase ListLemmas F64 F64Lemmas Num NumOk Util UtilProofs BootUtil PerfCurves CurveBoot MLPaper CompareProofs SumProofs.
Open Scope R_scope.

(** ** Doubles as rounded extended reals (the sign of zero is forgotten) *)
Definition v64 (x : f64) : xr :=
  match x with B754_nan => NaN | B754_infinity true => NInf | B754_infinity false => PInf | _ => Fin (B2R x) end.
Definition xround (r : R) : xr :=
  if Rlt_bool (Rabs (rnd64 r)) (bpow radix2 emax64) then Fin (rnd64 r) else if Rltb r 0 then NInf else PInf.

Lemma v64_fin x : fisfin x = true -> v64 x = Fin (B2R x).
Proof. now destruct x as [s|s| |s m e B]. Qed.
Lemma rnd64_opp r : rnd64 (- r) = - rnd64 r.
Proof. apply round_NE_opp. Qed.
Lemma xround_opp r : r <> 0 -> xround (- r) = xopp (xround r).
Proof.
  intros N. unfold xround. rewrite rnd64_opp, Rabs_Ropp. destruct (Rlt_bool _ _); [reflexivity|].
  destruct (Rltb (- r) 0) eqn:E1, (Rltb r 0) eqn:E2; try reflexivity;
    try (apply Rltb_spec in E1); try (apply Rltb_spec in E2); try (apply Rltb_false in E1); try (apply Rltb_false in E2); lra.
Qed.
Lemma xround_0 : xround 0 = Fin 0.
Proof. unfold xround. rewrite rnd64_0, Rabs_R0, Rlt_bool_true by apply bpow_gt_0. reflexivity. Qed.
Lemma xround_odd r : xround (- r) = xopp (xround r).
Proof.
  destruct (Req_dec r 0) as [->|N]; [|now apply xround_opp]. rewrite Ropp_0, xround_0. cbn. f_equal. lra.
Qed.
Lemma sign_neg (x : f64) : Bsign x = true -> B2R x <= 0.
Proof. destruct x as [s|s| |s m e B]; cbn [Bsign B2R]; intros H; try lra; try discriminate. subst s. apply F2R_le_0. cbn. lia. Qed.
Lemma sign_pos (x : f64) : Bsign x = false -> 0 <= B2R x.
Proof. destruct x as [s|s| |s m e B]; cbn [Bsign B2R]; intros H; try lra. subst s. apply F2R_ge_0. cbn. lia. Qed.
Lemma v64_overflow (x : f64) s r : B2SF x = binary_overflow prec64 emax64 mode_NE s -> r <> 0 -> (s = true -> r <= 0) -> (s = false -> 0 <= r) ->
  v64 x = if Rltb r 0 then NInf else PInf.
Proof.
  intros H N S1 S2. destruct x as [t|t| |t m e B]; try discriminate. cbn in H. injection H as ->.
  destruct s; cbn [v64]; destruct (Rltb r 0) eqn:E; try reflexivity.
  - apply Rltb_false in E. specialize (S1 eq_refl). lra.
  - apply Rltb_spec in E. specialize (S2 eq_refl). lra.
Qed.
Lemma not_small r : Rlt_bool (Rabs (rnd64 r)) (bpow radix2 emax64) = false -> r <> 0.
Proof. intros H ->. rewrite rnd64_0, Rabs_R0, Rlt_bool_true in H by apply bpow_gt_0. discriminate. Qed.

Definition xr2 (f : xr -> xr -> xr) (g : R -> R -> R) (a b : xr) : xr :=
  match a, b with Fin x, Fin y => xround (g x y) | _, _ => f a b end.

Lemma v64_add x y : v64 (fadd x y) = xr2 xadd Rplus (v64 x) (v64 y).
Proof.
  destruct (fisfin x) eqn:Fx; [destruct (fisfin y) eqn:Fy|].
  - rewrite (v64_fin x Fx), (v64_fin y Fy). cbn [xr2]. unfold xround.
    pose proof (Bplus_correct prec64 emax64 _ _ mode_NE x y Fx Fy) as C. fold (fadd x y) in C. simpl (round_mode mode_NE) in C.
    destruct (Rlt_bool _ _) eqn:E.
    + destruct C as (V & F & _). rewrite v64_fin by exact F. now rewrite V.
    + destruct C as (C & S). apply not_small in E. eapply v64_overflow; [exact C|exact E| |]; intros Q.
      * pose proof (sign_neg x Q). rewrite S in Q. pose proof (sign_neg y Q). lra.
      * pose proof (sign_pos x Q). rewrite S in Q. pose proof (sign_pos y Q). lra.
  - destruct y as [?|[]| |?]; try discriminate; destruct x as [[]|?| |[]]; try discriminate; reflexivity.
  - destruct x as [?|[]| |?]; try discriminate; destruct y as [[]|[]| |[]]; reflexivity.
Qed.
Lemma v64_opp x : v64 (fopp x) = xopp (v64 x).
Proof.
  destruct (fisfin x) eqn:F.
  - rewrite (v64_fin x F), v64_fin by (destruct x; auto). cbn [xopp]. f_equal. apply B2R_Bopp.
  - destruct x as [?|[]| |?]; try discriminate; reflexivity.
Qed.
Lemma v64_sub x y : v64 (fsub x y) = xr2 xsub Rminus (v64 x) (v64 y).
Proof.
  destruct (fisfin x) eqn:Fx; [destruct (fisfin y) eqn:Fy|].
  - rewrite (v64_fin x Fx), (v64_fin y Fy). cbn [xr2]. unfold xround.
    pose proof (Bminus_correct prec64 emax64 _ _ mode_NE x y Fx Fy) as C. fold (fsub x y) in C. simpl (round_mode mode_NE) in C.
    destruct (Rlt_bool _ _) eqn:E.
    + destruct C as (V & F & _). rewrite v64_fin by exact F. now rewrite V.
    + destruct C as (C & S). apply not_small in E. eapply v64_overflow; [exact C|exact E| |]; intros Q.
      * pose proof (sign_neg x Q). rewrite S in Q. apply negb_true_iff in Q. pose proof (sign_pos y Q). lra.
      * pose proof (sign_pos x Q). rewrite S in Q. apply negb_false_iff in Q. pose proof (sign_neg y Q). lra.
  - destruct y as [?|[]| |?]; try discriminate; destruct x as [[]|?| |[]]; try discriminate; reflexivity.
  - destruct x as [?|[]| |?]; try discriminate; destruct y as [[]|[]| |[]]; reflexivity.
Qed.
Lemma Bsign_mul_neg (x y : f64) : xorb (Bsign x) (Bsign y) = true -> B2R x * B2R y <= 0.
Proof.
  intros H. destruct (Bsign x) eqn:Sx, (Bsign y) eqn:Sy; try discriminate.
  - pose proof (sign_neg x Sx). pose proof (sign_pos y Sy). nra.
  - pose proof (sign_pos x Sx). pose proof (sign_neg y Sy). nra.
Qed.
Lemma Bsign_mul_pos (x y : f64) : xorb (Bsign x) (Bsign y) = false -> 0 <= B2R x * B2R y.
Proof.
  intros H. destruct (Bsign x) eqn:Sx, (Bsign y) eqn:Sy; try discriminate.
  - pose proof (sign_neg x Sx). pose proof (sign_neg y Sy). nra.
  - pose proof (sign_pos x Sx). pose proof (sign_pos y Sy). nra.
Qed.
Lemma fin_nz s m e B : let x : f64 := B754_finite s m e B in B2R x <> 0 /\ (s = true -> B2R x < 0) /\ (s = false -> 0 < B2R x).
Proof.
  intros x. assert (B2R x <> 0) as N.
  { cbn. intros Q. apply eq_0_F2R in Q. destruct s; discriminate. }
  split; [exact N|]. split; intros ->.
  - pose proof (sign_neg x eq_refl). lra.
  - pose proof (sign_pos x eq_refl). lra.
Qed.
Lemma Reqb_ne r : r <> 0 -> Reqb r 0 = false.
Proof. intros N. apply not_true_iff_false. now rewrite Reqb_spec. Qed.
Lemma v64_mul x y : v64 (fmul x y) = xr2 xmul Rmult (v64 x) (v64 y).
Proof.
  destruct (fisfin x) eqn:Fx; [destruct (fisfin y) eqn:Fy|].
  - rewrite (v64_fin x Fx), (v64_fin y Fy). cbn [xr2]. unfold xround.
    pose proof (Bmult_correct prec64 emax64 _ _ mode_NE x y) as C. fold (fmul x y) in C. simpl (round_mode mode_NE) in C.
    destruct (Rlt_bool _ _) eqn:E.
    + destruct C as (V & F & _). rewrite v64_fin by (unfold fisfin in *; rewrite F; now rewrite Fx, Fy). now rewrite V.
    + apply not_small in E. eapply v64_overflow; [exact C|exact E|apply Bsign_mul_neg|apply Bsign_mul_pos].
  - assert (forall t s m e B, v64 (fmul (B754_finite s m e B) (B754_infinity t)) = xr2 xmul Rmult (v64 (B754_finite s m e B)) (v64 (B754_infinity t))) as G.
    { intros t s m e B. pose proof (fin_nz s m e B) as (N & S1 & S2). set (x' := B754_finite s m e B : f64) in *.
      change (v64 x') with (Fin (B2R x')). destruct t; cbn [v64 xr2 xmul]; unfold xinf_mul; rewrite (Reqb_ne _ N);
      destruct s; [specialize (S1 eq_refl)|specialize (S2 eq_refl)|specialize (S1 eq_refl)|specialize (S2 eq_refl)]; destruct (Rltb 0 (B2R x')) eqn:Q; try reflexivity;
        try (apply Rltb_spec in Q; lra); apply Rltb_false in Q; lra. }
    destruct y as [?|t| |?]; try discriminate; destruct x as [[]|?| |s m e B]; try discriminate; try apply G; try reflexivity;
      destruct t; cbn; unfold xinf_mul; now rewrite Reqb00.
  - assert (forall t s m e B, v64 (fmul (B754_infinity t) (B754_finite s m e B)) = xr2 xmul Rmult (v64 (B754_infinity t)) (v64 (B754_finite s m e B))) as G.
    { intros t s m e B. pose proof (fin_nz s m e B) as (N & S1 & S2). set (x' := B754_finite s m e B : f64) in *.
      change (v64 x') with (Fin (B2R x')). destruct t; cbn [v64 xr2 xmul]; unfold xinf_mul; rewrite (Reqb_ne _ N);
      destruct s; [specialize (S1 eq_refl)|specialize (S2 eq_refl)|specialize (S1 eq_refl)|specialize (S2 eq_refl)]; destruct (Rltb 0 (B2R x')) eqn:Q; try reflexivity;
        try (apply Rltb_spec in Q; lra); apply Rltb_false in Q; lra. }
    destruct x as [?|t| |?]; try discriminate; destruct y as [[]|[]| |s m e B]; try apply G; try reflexivity;
      destruct t; cbn; unfold xinf_mul; now rewrite ?Reqb00.
Qed.
Lemma v64_nan x : fisnan x = xisnan (v64 x).
Proof. destruct x as [?|[]| |?]; reflexivity. Qed.
Lemma v64_isfin x : fisfin x = xisfin (v64 x).
Proof. destruct x as [?|[]| |?]; reflexivity. Qed.
Lemma v64_leb x y : fleb x y = xleb (v64 x) (v64 y).
Proof.
  destruct (fisfin x) eqn:Fx; [destruct (fisfin y) eqn:Fy|].
  - rewrite (v64_fin x Fx), (v64_fin y Fy). cbn [xleb]. apply eq_true_iff_eq. rewrite Rleb_spec. now apply fleb_fin.
  - destruct y as [?|[]| |?]; try discriminate; destruct x as [[]|?| |[]]; try discriminate; reflexivity.
  - destruct x as [?|[]| |?]; try discriminate; destruct y as [[]|[]| |[]]; reflexivity.
Qed.
(** the value and a cleared sign determine a double *)
Lemma v64_inj x y : v64 x = v64 y -> Bsign x = Bsign y -> x = y.
Proof.
  intros V S. destruct (fisfin x) eqn:Fx; destruct (fisfin y) eqn:Fy.
  - rewrite (v64_fin x Fx), (v64_fin y Fy) in V. injection V as V. now apply B2R_Bsign_inj.
  - rewrite v64_isfin, V, <- v64_isfin in Fx. congruence.
  - rewrite v64_isfin, V, <- v64_isfin in Fx. congruence.
  - destruct x as [?|[]| |?], y as [?|[]| |?]; try discriminate; reflexivity.
Qed.

(** ** The laws of negation that the computations need *)
Class swap_laws {T} (NT : num T) (rel : T -> T -> Prop) : Prop := {
  sw_sub : forall a b, rel (nsub a b) (nsub b a);
  sw_opp : forall a, rel (nopp a) a;
  sw_sym : forall a b, rel a b -> rel b a;
  sw_zero : rel n0 n0;
  sw_add : forall a b c d, rel a b -> rel c d -> rel (nadd a c) (nadd b d);
  sw_minus : forall a b c d, rel a b -> rel c d -> rel (nsub a c) (nsub b d);
  sw_mul : forall a b w, rel a b -> rel (nmul a w) (nmul b w);
  sw_div : forall a b w, rel a b -> rel (ndiv a w) (ndiv b w);
  sw_sq : forall a b, rel a b -> nmul a a = nmul b b;
  sw_abs : forall a b, rel a b -> nabs a = nabs b;
  sw_nan : forall a b, rel a b -> nisnan a = nisnan b;
  sw_fin : forall a b, rel a b -> nisfin a = nisfin b;
  sw_le : forall a b c d, rel a b -> rel c d -> nleb a c = nleb d b;
  (** proportions of a finite number of trials *)
  sw_ratio : forall j k n, (0 <= j <= n)%Z -> (0 <= k <= n)%Z -> (1 <= n)%Z -> nisfin (nofZ n : T) = true ->
    nmin (ndiv (nofZ j) (nofZ n)) (ndiv (nofZ k) (nofZ n)) = (nmin (ndiv (nofZ k) (nofZ n)) (ndiv (nofZ j) (nofZ n)) : T)
}.

(** *** exact numbers *)
Definition xrel (a b : xr) : Prop := b = xopp a.
Lemma xopp_opp a : xopp (xopp a) = a.
Proof. destruct a; cbn; try reflexivity. f_equal. lra. Qed.
Lemma xopp_add a b : xopp (xadd a b) = xadd (xopp a) (xopp b).
Proof. destruct a, b; cbn; try reflexivity. f_equal. lra. Qed.
Lemma xopp_sub a b : xopp (xsub a b) = xsub b a.
Proof. unfold xsub. rewrite xopp_add, xopp_opp. destruct a, b; cbn; try reflexivity. f_equal. lra. Qed.
Lemma xinf_mul_opp p x : xinf_mul p (- x) = xopp (xinf_mul p x).
Proof.
  unfold xinf_mul. destruct (Req_dec x 0) as [->|N]; [rewrite Ropp_0, Reqb00; reflexivity|].
  rewrite !Reqb_ne by lra. destruct (Rltb 0 (- x)) eqn:E1, (Rltb 0 x) eqn:E2, p; cbn; try reflexivity;
    try (apply Rltb_spec in E1); try (apply Rltb_spec in E2); try (apply Rltb_false in E1); try (apply Rltb_false in E2); lra.
Qed.
Lemma xinf_mul_neg p x : xinf_mul (negb p) x = xopp (xinf_mul p x).
Proof. unfold xinf_mul. destruct (Reqb x 0); [reflexivity|]. destruct (Rltb 0 x), p; reflexivity. Qed.
Lemma xopp_mul a w : xopp (xmul a w) = xmul (xopp a) w.
Proof.
  destruct a, w; cbn; try reflexivity; try (f_equal; lra); try (rewrite xinf_mul_opp; reflexivity).
  - symmetry. apply (xinf_mul_neg true).
  - symmetry. apply (xinf_mul_neg false).
Qed.
Lemma xopp_div a w : xopp (xdiv a w) = xdiv (xopp a) w.
Proof.
  destruct a as [x| | |], w as [y| | |]; cbn; try reflexivity.
  - destruct (Reqb y 0) eqn:E; [|cbn; f_equal; unfold Rdiv; lra].
    destruct (Req_dec x 0) as [->|N]; [rewrite Ropp_0, Reqb00; reflexivity|]. rewrite !Reqb_ne by lra.
    destruct (Rltb 0 (- x)) eqn:E1, (Rltb 0 x) eqn:E2; cbn; try reflexivity;
    try (apply Rltb_spec in E1); try (apply Rltb_spec in E2); try (apply Rltb_false in E1); try (apply Rltb_false in E2); lra.
  - f_equal. lra.
  - f_equal. lra.
  - destruct (Rltb y 0); reflexivity.
  - destruct (Rltb y 0); reflexivity.
Qed.
Lemma xabs_opp a : nabs (xopp a) = nabs a.
Proof.
  destruct a as [x| | |]; try reflexivity. unfold nabs. cbn. destruct (Rleb (- x) 0) eqn:E1, (Rleb x 0) eqn:E2; unfold xsub; cbn; f_equal;
    try (apply Rleb_spec in E1); try (apply Rleb_spec in E2); try (apply Rleb_false in E1); try (apply Rleb_false in E2); lra.
Qed.
Lemma xleb_opp a b : xleb (xopp a) (xopp b) = xleb b a.
Proof. destruct a, b; cbn; try reflexivity. apply eq_true_iff_eq. rewrite !Rleb_spec. split; intros; lra. Qed.
Lemma xmin_comm (a b : xr) : nisnan a = false -> nisnan b = false -> nmin a b = nmin b a.
Proof.
  intros A B. unfold nmin. rewrite A, B, !orb_false_r. cbn [nleb xr_num].
  destruct a as [x| | |], b as [y| | |]; try discriminate; try reflexivity. cbn.
  destruct (Rleb x y) eqn:E1, (Rleb y x) eqn:E2; try reflexivity;
    try (apply Rleb_spec in E1); try (apply Rleb_spec in E2); try (apply Rleb_false in E1); try (apply Rleb_false in E2); try lra; f_equal; lra.
Qed.
Global Instance xr_swap : swap_laws xr_num xrel.
Proof.
  constructor; unfold xrel; cbn [nsub nadd nmul ndiv n0 n1 nofZ nisnan nisfin nleb xr_num nopp].
  - intros a b. symmetry. apply xopp_sub.
  - intros a. unfold nopp. cbn [nsub n0 xr_num]. rewrite xopp_sub. unfold xsub. destruct a; cbn; try reflexivity. f_equal. lra.
  - intros a b ->. symmetry. apply xopp_opp.
  - cbn. f_equal. lra.
  - intros a b c d -> ->. symmetry. apply xopp_add.
  - intros a b c d -> ->. unfold xsub. now rewrite xopp_add.
  - intros a b w ->. symmetry. apply xopp_mul.
  - intros a b w ->. symmetry. apply xopp_div.
  - intros a b ->. destruct a; cbn; try reflexivity. f_equal. lra.
  - intros a b ->. symmetry. apply xabs_opp.
  - intros a b ->. now destruct a.
  - intros a b ->. now destruct a.
  - intros a b c d -> ->. symmetry. apply xleb_opp.
  - intros j k n J K N _. cbn. rewrite xr_ofZ_ne by exact N. now apply xmin_comm.
Qed.

(** *** doubles *)
Definition frel (a b : f64) : Prop := v64 b = xopp (v64 a).

Lemma xr2_odd f g a b c d :
  (forall x y, xopp (f x y) = f (xopp x) (xopp y)) -> (forall x y, g (- x) (- y) = - g x y) ->
  c = xopp a -> d = xopp b -> xr2 f g c d = xopp (xr2 f g a b).
Proof.
  intros F G -> ->. destruct a, b; cbn [xr2 xopp]; try (symmetry; apply F). rewrite G. apply xround_odd.
Qed.
Lemma frel_cases a b : frel a b -> (fisfin a = true /\ fisfin b = true /\ B2R b = - B2R a) \/ (a = B754_nan /\ b = B754_nan) \/
  exists s, a = B754_infinity s /\ b = B754_infinity (negb s).
Proof.
  unfold frel. intros H. destruct (fisfin a) eqn:Fa.
  - left. rewrite (v64_fin a Fa) in H. assert (fisfin b = true) as Fb by (rewrite v64_isfin, H; reflexivity).
    rewrite (v64_fin b Fb) in H. cbn in H. injection H as H. auto.
  - right. destruct a as [?|s| |?]; try discriminate.
    + right. exists s. split; [reflexivity|]. destruct b as [?|[]| |?], s; try discriminate; reflexivity.
    + left. split; [reflexivity|]. destruct b as [?|[]| |?]; try discriminate; reflexivity.
Qed.
Lemma v64_div_fin x y : fisfin x = true -> B2R y <> 0 -> v64 (fdiv x y) = xround (B2R x / B2R y).
Proof.
  intros Fx N. unfold xround. pose proof (Bdiv_correct prec64 emax64 _ _ mode_NE x y N) as C. fold (fdiv x y) in C.
  simpl (round_mode mode_NE) in C. destruct (Rlt_bool _ _) eqn:E.
  - destruct C as (V & F & _). rewrite v64_fin by (unfold fisfin in *; now rewrite F). now rewrite V.
  - apply not_small in E. assert (B2R x / B2R y = (B2R x * B2R y) * (/ B2R y * / B2R y)) as Q by (field; exact N).
    assert (0 <= / B2R y * / B2R y) as SQ by apply Rle_0_sqr.
    eapply v64_overflow; [exact C|exact E| |]; intros S; rewrite Q.
    + pose proof (Bsign_mul_neg x y S). nra.
    + pose proof (Bsign_mul_pos x y S). now apply Rmult_le_pos.
Qed.
Lemma frel_div a b w : frel a b -> frel (fdiv a w) (fdiv b w).
Proof.
  intros H. pose proof (frel_cases a b H) as [(Fa & Fb & V)|[(-> & ->)|(s & -> & ->)]].
  - destruct w as [sw|sw| |sw mw ew Bw].
    + destruct a as [sa|sa| |sa ma ea Ba]; try discriminate; destruct b as [sb|sb| |sb mb eb Bb]; try discriminate.
      * reflexivity.
      * exfalso. destruct (fin_nz sb mb eb Bb) as (N & _). cbn [B2R] in *. lra.
      * exfalso. destruct (fin_nz sa ma ea Ba) as (N & _). cbn [B2R] in *. lra.
      * destruct (fin_nz sa ma ea Ba) as (_ & A1 & A2). destruct (fin_nz sb mb eb Bb) as (_ & B1 & B2).
        assert (sb = negb sa) as ->.
        { destruct sa, sb; try reflexivity; [specialize (A1 eq_refl); specialize (B1 eq_refl)|specialize (A2 eq_refl); specialize (B2 eq_refl)]; lra. }
        destruct sa, sw; reflexivity.
    + destruct a; try discriminate; destruct b; try discriminate; cbn; unfold frel; cbn; f_equal; lra.
    + destruct a; try discriminate; destruct b; try discriminate; reflexivity.
    + destruct (fin_nz sw mw ew Bw) as (N & _). unfold frel. rewrite !v64_div_fin by assumption. rewrite V.
      replace (- B2R a / _) with (- (B2R a / B2R (B754_finite sw mw ew Bw : f64))) by (unfold Rdiv; lra). apply xround_odd.
  - destruct w; reflexivity.
  - destruct w as [[]|[]| |[]], s; reflexivity.
Qed.
Lemma nabs_fabs (x : f64) : nabs x = fabs x.
Proof. destruct x as [[]|[]| |[] m e B]; reflexivity. Qed.
Lemma sign_fabs x : Bsign (fabs x) = false.
Proof. now destruct x. Qed.
Definition xabs (a : xr) : xr := match a with Fin x => Fin (Rabs x) | NInf => PInf | _ => a end.
Lemma v64_abs x : v64 (fabs x) = xabs (v64 x).
Proof.
  destruct (fisfin x) eqn:F.
  - rewrite (v64_fin x F), v64_fin by (destruct x; auto). cbn. f_equal. apply B2R_Babs.
  - destruct x as [?|[]| |?]; try discriminate; reflexivity.
Qed.
Lemma sign_sq (x : f64) : Bsign (fmul x x) = false.
Proof.
  pose proof (Bmult_correct prec64 emax64 _ _ mode_NE x x) as C. fold (fmul x x) in C. rewrite xorb_nilpotent in C.
  destruct (fisnan (fmul x x)) eqn:N; [now destruct (fmul x x)|]. destruct (Rlt_bool _ _).
  - apply C, N.
  - destruct (fmul x x) as [?|s| |?]; try discriminate. cbn in C. now injection C as ->.
Qed.
Lemma fofZ_mono_fin j n : (0 <= j <= n)%Z -> fisfin (f_of_Z n) = true ->
  fisfin (f_of_Z j) = true /\ Bsign (f_of_Z j) = false.
Proof.
  intros J F. assert (forall k, (0 <= k)%Z -> let C := Rlt_bool (Rabs (rnd64 (IZR k))) (bpow radix2 emax64) in
    fisfin (f_of_Z k) = C /\ (C = true -> B2R (f_of_Z k) = rnd64 (IZR k) /\ Bsign (f_of_Z k) = false)) as G.
  { intros k K. pose proof (binary_normalize_correct prec64 emax64 _ _ mode_NE k 0 false) as C. cbv zeta in C.
    fold (f_of_Z k) in C. simpl (round_mode mode_NE) in C. assert (F2R (Float radix2 k 0) = IZR k) as E by (unfold F2R; cbn; lra).
    rewrite E in C. cbv zeta. destruct (Rlt_bool _ _).
    - destruct C as (V & G & S). split; [exact G|]. intros _. split; [exact V|]. rewrite S. apply IZR_le in K.
      destruct (Rcompare_spec (IZR k) 0); try reflexivity. lra.
    - split; [|discriminate]. destruct (f_of_Z k); try discriminate; reflexivity. }
  destruct (G n) as [Gn _]; [lia|]. destruct (G j) as [Gj Hj]; [lia|]. rewrite Gn in F.
  assert (Rlt_bool (Rabs (rnd64 (IZR j))) (bpow radix2 emax64) = true) as Q.
  { apply Rlt_bool_true. eapply Rle_lt_trans; [|]. 2:{ destruct (Rlt_bool_spec (Rabs (rnd64 (IZR n))) (bpow radix2 emax64)); [eassumption|discriminate]. }
    assert (0 <= IZR j) by (apply IZR_le; lia). assert (IZR j <= IZR n) by (apply IZR_le; lia).
    assert (0 <= rnd64 (IZR j)) by (apply rnd64_ge; [apply format64_0|lra]). assert (rnd64 (IZR j) <= rnd64 (IZR n)) by now apply rnd64_mono.
    rewrite !Rabs_pos_eq by lra. lra. }
  rewrite Q in Gj. split; [exact Gj|]. now apply Hj.
Qed.
Lemma fmin_comm_nn (a b : f64) : fisnan a = false -> fisnan b = false -> Bsign a = false -> Bsign b = false -> nmin a b = nmin b a.
Proof.
  intros Na Nb Sa Sb. unfold nmin. cbn [nleb nisnan f64_num]. rewrite Na, Nb, !orb_false_r.
  destruct (fleb a b) eqn:E1, (fleb b a) eqn:E2; try reflexivity.
  - apply v64_inj; [|congruence]. rewrite v64_leb in *. rewrite v64_nan in *.
    destruct (v64 a) as [x| | |], (v64 b) as [y| | |]; try discriminate; try reflexivity. cbn in *. apply Rleb_spec in E1. apply Rleb_spec in E2. f_equal. lra.
  - destruct (fleb_total a b Na Nb); congruence.
Qed.
Lemma fratio_nn j n : (0 <= j <= n)%Z -> (1 <= n)%Z -> fisfin (f_of_Z n) = true ->
  fisnan (fdiv (f_of_Z j) (f_of_Z n)) = false /\ Bsign (fdiv (f_of_Z j) (f_of_Z n)) = false.
Proof.
  intros J N F. pose proof (fofZ_ge1 n N F) as G. destruct (fofZ_mono_fin j n J F) as [Fj Sj]. destruct (fofZ_mono_fin n n ltac:(lia) F) as [_ Sn].
  pose proof (Bdiv_correct prec64 emax64 _ _ mode_NE (f_of_Z j) (f_of_Z n)) as C. cbv zeta in C. specialize (C ltac:(lra)). fold (fdiv (f_of_Z j) (f_of_Z n)) in C.
  rewrite Sj, Sn in C. cbn [xorb] in C. destruct (Rlt_bool _ _).
  - destruct C as (_ & D & S). unfold fisfin in Fj. rewrite Fj in D. assert (fisnan (fdiv (f_of_Z j) (f_of_Z n)) = false) as NN by now apply fisfin_notnan.
    split; [exact NN|]. apply S, NN.
  - destruct (fdiv (f_of_Z j) (f_of_Z n)) as [?|s| |?]; try discriminate. cbn in C. injection C as ->. split; reflexivity.
Qed.
Global Instance f64_swap : swap_laws f64_num frel.
Proof.
  constructor; cbn [nsub nadd nmul ndiv n0 n1 nofZ nisnan nisfin nleb f64_num].
  - intros a b. unfold frel. rewrite !v64_sub. destruct (v64 a), (v64 b); cbn [xr2]; try reflexivity.
    replace (r0 - r) with (- (r - r0)) by lra. apply xround_odd.
  - intros a. unfold frel, nopp. cbn [nsub n0 f64_num]. rewrite v64_sub. change (v64 f0) with (Fin 0). destruct (fisfin a) eqn:F.
    + rewrite (v64_fin a F). cbn [xr2]. unfold xround. replace (0 - B2R a) with (- B2R a) by lra. rewrite rnd64_opp, rnd64_id by apply B2R_format.
      rewrite Rabs_Ropp, Rlt_bool_true by apply abs_B2R_lt_emax. cbn. f_equal. lra.
    + destruct a as [?|[]| |?]; try discriminate; reflexivity.
  - unfold frel. intros a b ->. symmetry. apply xopp_opp.
  - unfold frel. cbn. f_equal. lra.
  - intros a b c d H1 H2. unfold frel in *. rewrite !v64_add. apply xr2_odd; auto; [intros; apply xopp_add|intros; lra].
  - intros a b c d H1 H2. unfold frel in *. rewrite !v64_sub. apply xr2_odd; auto; [|intros; lra].
    intros. unfold xsub. now rewrite xopp_add.
  - intros a b w H. unfold frel in *. rewrite !v64_mul, H. destruct (v64 a), (v64 w); cbn [xr2 xopp]; try reflexivity.
    + replace (- r * r0) with (- (r * r0)) by lra. apply xround_odd.
    + cbn. apply xinf_mul_opp.
    + cbn. apply xinf_mul_opp.
    + cbn. apply (xinf_mul_neg true).
    + cbn. apply (xinf_mul_neg false).
  - intros a b w. apply frel_div.
  - intros a b H. apply v64_inj; [|now rewrite !sign_sq]. unfold frel in H. rewrite !v64_mul, H. destruct (v64 a); cbn [xr2 xopp]; try reflexivity.
    f_equal. lra.
  - intros a b H. rewrite !nabs_fabs. apply v64_inj; [|now rewrite !sign_fabs]. unfold frel in H. rewrite !v64_abs, H.
    destruct (v64 a); cbn; try reflexivity. now rewrite Rabs_Ropp.
  - intros a b H. rewrite !v64_nan, H. now destruct (v64 a).
  - intros a b H. rewrite !v64_isfin, H. now destruct (v64 a).
  - intros a b c d H1 H2. rewrite !v64_leb, H1, H2. symmetry. apply xleb_opp.
  - intros j k n J K N F. destruct (fratio_nn j n J N F). destruct (fratio_nn k n K N F). now apply fmin_comm_nn.
Qed.

Section Swap.
  Context {T : Type} {NT : num T} {OK : num_ok NT} {rel : T -> T -> Prop} {SW : swap_laws NT rel} {FT : fn T}.
  Notation rels := (Forall2 rel).

  Lemma swap_deltas (x y : list T) : length x = length y -> rels (map2 nsub x y) (map2 nsub y x).
  Proof.
    revert y. induction x as [|a x IH]; intros [|b y] H; try discriminate; cbn; constructor; [apply sw_sub|]. apply IH. now injection H.
  Qed.
  Lemma swap_sum x y : rels x y -> rel (psum x) (psum y).
  Proof. apply psum_rel; [apply sw_zero|]. intros. now apply sw_add. Qed.
  Lemma rels_length x y : rels x y -> length x = length y.
  Proof. induction 1; cbn; congruence. Qed.
  Lemma swap_mean x y : rels x y -> rel (nmean x) (nmean y).
  Proof. intros F. unfold nmean. rewrite (rels_length _ _ F). apply sw_div. now apply swap_sum. Qed.
  Lemma swap_var d x y : rels x y -> nvar d x = nvar d y.
  Proof.
    intros F. unfold nvar. rewrite (rels_length _ _ F). f_equal. f_equal. pose proof (swap_mean _ _ F) as M.
    revert M. generalize (nmean x) (nmean y). intros m m' M. induction F; cbn; [reflexivity|]. rewrite IHF. f_equal.
    apply sw_sq. now apply sw_minus.
  Qed.
  Lemma swap_nan x y : rels x y -> existsb nisnan x = existsb nisnan y.
  Proof. induction 1; cbn; [reflexivity|]. now rewrite (sw_nan _ _ H), IHForall2. Qed.
  Lemma swap_degenerate x y : rels x y -> degenerate x = degenerate y.
  Proof.
    intros F. unfold degenerate. rewrite (rels_length _ _ F). f_equal. f_equal. induction F; cbn; [reflexivity|]. now rewrite (sw_fin _ _ H), IHF.
  Qed.
  Lemma swap_eq0 a b : rel a b -> neqb a n0 = neqb b n0.
  Proof.
    intros R. rewrite !eqb_leb_. rewrite (sw_le a b n0 n0 R sw_zero), (sw_le n0 n0 a b sw_zero R). apply andb_comm.
  Qed.
  Lemma swap_within r x y : rels x y -> within (nopp r) r x = within (nopp r) r y.
  Proof.
    intros F. unfold within.
    assert (forallb (fun a => nleb (nopp r) a) x = forallb (fun a => nleb a r) y) as ->.
    { induction F as [|a b x y R F IH]; cbn; [reflexivity|]. rewrite IH. f_equal. apply sw_le; [apply sw_opp|exact R]. }
    assert (forallb (fun a => nleb a r) x = forallb (fun a => nleb (nopp r) a) y) as ->; [|apply andb_comm].
    induction F as [|a b x y R F IH]; cbn; [reflexivity|]. rewrite IH. f_equal.
    apply sw_le; [exact R|]. apply sw_sym, sw_opp.
  Qed.

  Lemma swap_t_test x y : rels x y -> t_test x = t_test y.
  Proof.
    intros F. unfold t_test, ttest_1samp, lenT. rewrite (swap_nan _ _ F), (swap_degenerate _ _ F), (swap_var 1 _ _ F), (rels_length _ _ F).
    pose proof (swap_mean _ _ F) as M. rewrite (swap_eq0 _ _ M).
    rewrite (sw_abs _ _ (sw_div _ _ (nsqrt (ndiv (nvar 1 y) (nofZ (Z.of_nat (length y))))) (sw_minus _ _ _ _ M sw_zero))). reflexivity.
  Qed.
  Lemma swap_t_EB x y c : rels x y -> t_EB x c = t_EB y c.
  Proof.
    intros F. unfold t_EB, nstd, lenT. now rewrite (swap_nan _ _ F), (swap_degenerate _ _ F), (swap_var 1 _ _ F), (rels_length _ _ F).
  Qed.
  Lemma swap_bernstein_test r x y : rels x y -> bernstein_test x (nopp r) r = bernstein_test y (nopp r) r.
  Proof.
    intros F. unfold bernstein_test, nstd, lenT. rewrite (swap_nan _ _ F), (swap_within r _ _ F), (swap_degenerate _ _ F), (swap_var 0 _ _ F), (rels_length _ _ F).
    now rewrite (sw_abs _ _ (swap_mean _ _ F)).
  Qed.
  Lemma swap_bernstein_EB r x y c : rels x y -> bernstein_EB x (nopp r) r c = bernstein_EB y (nopp r) r c.
  Proof.
    intros F. unfold bernstein_EB, nstd, lenT. now rewrite (swap_nan _ _ F), (swap_within r _ _ F), (swap_degenerate _ _ F), (swap_var 0 _ _ F), (rels_length _ _ F).
  Qed.

  (** *** bootstrap *)
  Lemma swap_weighted x y w : rels x y -> rel (weighted_mean x w) (weighted_mean y w).
  Proof.
    intros F. apply swap_mean. revert w. induction F; intros [|v w]; cbn; constructor; [now apply sw_mul|apply IHF].
  Qed.
  Lemma swap_boot_means x y ws : rels x y -> rels (map (weighted_mean x) ws) (map (weighted_mean y) ws).
  Proof. intros F. induction ws; cbn; constructor; [now apply swap_weighted|exact IHws]. Qed.
  Lemma mean_bool_count (l : list bool) : exists k, (0 <= k <= Z.of_nat (length l))%Z /\ (mean_bool l : T) = ndiv (nofZ k) (nofZ (Z.of_nat (length l))).
  Proof.
    exists (Z.of_nat (length (filter (fun x => x) l))). split; [|reflexivity]. split; [lia|]. apply inj_le. induction l as [|[] l IH]; cbn; lia.
  Qed.
  Lemma mean_bool_comm (l m : list bool) : length l = length m -> l <> [] -> nisfin (nofZ (Z.of_nat (length l)) : T) = true ->
    nmin (mean_bool l : T) (mean_bool m) = nmin (mean_bool m) (mean_bool l).
  Proof.
    intros L NE F. destruct (mean_bool_count l) as (j & J & ->). destruct (mean_bool_count m) as (k & K & ->). rewrite <- L in *.
    apply sw_ratio; auto. destruct l; [contradiction|]. cbn. lia.
  Qed.
  (** the paired bootstrap test, any data *)
  Lemma swap_significance_paired (a b : list T) : length a = length b -> a <> [] -> nisfin (nofZ (Z.of_nat (length a)) : T) = true ->
    significance a (Paired b) = significance b (Paired a).
  Proof.
    intros L NE F. unfold significance. cbn [ref_values]. rewrite L, Nat.eqb_refl. cbn [py_assert bind].
    assert (forall f : T -> T -> bool, length (map2 f a b) = length b) as LM.
    { intros f. clear - L. revert b L. induction a; intros [|? b] L; try discriminate; cbn; auto. }
    rewrite mean_bool_comm.
    - destruct (existsb nisnan a), (existsb nisnan b); reflexivity.
    - rewrite LM. clear - L. revert b L. induction a; intros [|? b] L; try discriminate; cbn; auto.
    - destruct a, b; try discriminate; contradiction.
    - rewrite LM, <- L. exact F.
  Qed.
  Lemma map2_repeat_r {A B C} (f : A -> B -> C) v l n : length l = n -> map2 f l (repeat v n) = map (fun a => f a v) l.
  Proof. intros <-. induction l; cbn; congruence. Qed.
  Lemma map2_repeat_l {A B C} (f : A -> B -> C) v l n : length l = n -> map2 f (repeat v n) l = map (fun a => f v a) l.
  Proof. intros <-. induction l; cbn; congruence. Qed.
  Lemma swap_significance (a b : list T) : rels a b -> a <> [] -> nisfin (nofZ (Z.of_nat (length a)) : T) = true ->
    significance a (Scalar n0) = significance b (Scalar n0).
  Proof.
    intros F NE FN. unfold significance. cbn [ref_values]. rewrite (swap_nan _ _ F). cbn [py_assert bind].
    rewrite !map2_repeat_r, !map2_repeat_l by reflexivity.
    assert (map (fun v => nleb v n0) a = map (nleb n0) b) as E1.
    { clear NE FN. induction F; cbn; [reflexivity|]. rewrite IHF. f_equal. apply sw_le; [assumption|apply sw_zero]. }
    assert (map (nleb n0) a = map (fun v => nleb v n0) b) as E2.
    { clear NE FN E1. induction F; cbn; [reflexivity|]. rewrite IHF. f_equal. apply sw_le; [apply sw_zero|assumption]. }
    change (map (fun a0 : T => nleb n0 a0) a) with (map (nleb n0) a). change (map (fun a0 : T => nleb n0 a0) b) with (map (nleb n0) b).
    rewrite E1, E2. rewrite mean_bool_comm; [reflexivity| | |].
    - now rewrite !map_length.
    - inversion F; subst; [contradiction|discriminate].
    - rewrite map_length, <- (rels_length _ _ F). exact FN.
  Qed.
  Lemma swap_boot_core counts x y c nb : rels x y -> counts <> [] -> nisfin (nofZ (Z.of_nat (length counts)) : T) = true ->
    boot_test counts x nb = boot_test counts y nb /\
    forall EB p CI EB' p' CI', _boot_EB_and_test counts x c nb true true false = Ok (EB, p, CI) ->
      _boot_EB_and_test counts y c nb true true false = Ok (EB', p', CI') -> p = p'.
  Proof.
    intros F NE FN. unfold boot_test, _boot_EB_and_test. rewrite (swap_nan _ _ F), (swap_degenerate _ _ F), (rels_length _ _ F).
    destruct (existsb nisnan y); cbn [negb py_assert bind]; [split; [reflexivity|discriminate]|].
    destruct (degenerate y); [split; [reflexivity|]; intros; congruence|].
    unfold boot_weights. destruct (1 <=? Z.of_nat (length y))%Z; cbn [py_assert bind]; [|split; [reflexivity|discriminate]].
    destruct (1 <=? nb)%Z; cbn [py_assert bind]; [|split; [reflexivity|discriminate]].
    set (ws := map (map (fun k => nmax n0 (nofZ k : T))) counts).
    assert (significance (map (weighted_mean x) ws) (Scalar n0) = significance (map (weighted_mean y) ws) (Scalar n0)) as S.
    { apply swap_significance.
      - now apply swap_boot_means.
      - unfold ws. destruct counts; [contradiction|discriminate].
      - unfold ws. now rewrite !map_length. }
    rewrite S. split; [reflexivity|]. intros EB p CI EB' p' CI' H H'.
    apply bind_ok in H as (q & Q & H). apply bind_ok in H as (e & _ & H). apply Ok_inj in H. injection H as <- <- <-.
    apply bind_ok in H' as (q' & Q' & H'). apply bind_ok in H' as (e' & _ & H'). apply Ok_inj in H'. injection H' as <- <- <-. congruence.
  Qed.

  (** *** clipping the error bar of a difference *)
  Definition sim (a b : T) : Prop := exists c, rel a c /\ rel b c.
  Lemma rel_ex (x : T) : exists x', rel x x'.
  Proof. exists (nopp x). apply sw_sym, sw_opp. Qed.
  Lemma sim_leb a b x : sim a b -> nleb a x = nleb b x /\ nleb x a = nleb x b.
  Proof.
    intros (c & H1 & H2). destruct (rel_ex x) as (x' & X). split.
    - rewrite (sw_le _ _ _ _ H1 X), (sw_le _ _ _ _ H2 X). reflexivity.
    - rewrite (sw_le _ _ _ _ X H1), (sw_le _ _ _ _ X H2). reflexivity.
  Qed.
  Lemma sim_nan a b : sim a b -> nisnan a = nisnan b.
  Proof. intros (c & H1 & H2). now rewrite (sw_nan _ _ H1), (sw_nan _ _ H2). Qed.

  Lemma swap_lt a b c d : rel a b -> rel c d -> nltb a c = nltb d b.
  Proof.
    intros H1 H2. destruct (nisnan a) eqn:Na.
    - rewrite (sw_nan _ _ H1) in Na. destruct (nltb a c) eqn:E1.
      + apply ltb_notnan_ in E1 as [E1 _]. rewrite (sw_nan _ _ H1) in E1. congruence.
      + destruct (nltb d b) eqn:E2; [|reflexivity]. apply ltb_notnan_ in E2 as [_ E2]. congruence.
    - destruct (nisnan c) eqn:Nc.
      + rewrite (sw_nan _ _ H2) in Nc. destruct (nltb a c) eqn:E1.
        * apply ltb_notnan_ in E1 as [_ E1]. rewrite (sw_nan _ _ H2) in E1. congruence.
        * destruct (nltb d b) eqn:E2; [|reflexivity]. apply ltb_notnan_ in E2 as [E2 _]. congruence.
      + rewrite !ltb_leb_ by (rewrite <- ?(sw_nan _ _ H1), <- ?(sw_nan _ _ H2); assumption). f_equal. now apply sw_le.
  Qed.
  Lemma lt_le a b : nltb a b = true -> nleb a b = true.
  Proof.
    intros H. destruct (ltb_notnan_ _ _ H) as [Na Nb]. rewrite ltb_leb_ in H by assumption. apply negb_true_iff in H.
    destruct (leb_total_ _ _ Na Nb); congruence.
  Qed.
  Lemma le_lt_false a b : nleb a b = true -> nltb b a = false.
  Proof. intros H. destruct (leb_notnan_ _ _ H) as [Na Nb]. rewrite ltb_leb_, H by assumption. reflexivity. Qed.
  Lemma swap_clip r a b : nleb (nopp r) r = true -> rel a b -> rel (nclip a (nopp r) r) (nclip b (nopp r) r).
  Proof.
    intros O R. unfold nclip. rewrite (swap_lt a b (nopp r) r R (sw_opp r)), (swap_lt r (nopp r) a b (sw_sym _ _ (sw_opp r)) R).
    destruct (nltb r b) eqn:E1, (nltb b (nopp r)) eqn:E2.
    - apply lt_le in E1. pose proof (leb_trans_ _ _ _ O E1) as Q. apply le_lt_false in Q. congruence.
    - apply sw_opp.
    - apply sw_sym, sw_opp.
    - exact R.
  Qed.

  Definition ordeq (a b : T) : Prop := nisnan a = nisnan b /\ forall x, nleb a x = nleb b x /\ nleb x a = nleb x b.
  Lemma sim_ordeq a b : sim a b -> ordeq a b.
  Proof. intros H. split; [now apply sim_nan|]. intros x. now apply sim_leb. Qed.
  Lemma le_ordeq a b : nleb a b = true -> nleb b a = true -> ordeq a b.
  Proof.
    intros H1 H2. destruct (leb_notnan_ _ _ H1) as [Na Nb]. split; [congruence|]. intros x. split; apply eq_true_iff_eq; split; intros; eapply leb_trans_; eauto.
  Qed.
  Lemma ordeq_trans a b c : ordeq a b -> ordeq b c -> ordeq a c.
  Proof. intros [N1 H1] [N2 H2]. split; [congruence|]. intros x. destruct (H1 x), (H2 x). split; congruence. Qed.
  Lemma ordeq_sym a b : ordeq a b -> ordeq b a.
  Proof. intros [N H]. split; [auto|]. intros x. destruct (H x). auto. Qed.
  Lemma fmax_cross A B A' B' : ordeq A B' -> ordeq B A' -> ordeq (nfmax A B) (nfmax A' B').
  Proof.
    intros H1 H2. unfold nfmax. destruct (nleb B A || nisnan B) eqn:E1, (nleb B' A' || nisnan B') eqn:E2; auto.
    - apply orb_true_iff in E1 as [E1|E1]; apply orb_true_iff in E2 as [E2|E2].
      + apply ordeq_trans with B; [|exact H2]. apply le_ordeq; [|exact E1].
        destruct H1 as [_ H1], H2 as [_ H2]. rewrite (proj1 (H1 B)), (proj2 (H2 B')). exact E2.
      + apply leb_notnan_ in E1 as [_ E1]. rewrite (proj1 H1) in E1. congruence.
      + apply leb_notnan_ in E2 as [_ E2]. rewrite <- (proj1 H2) in E2. congruence.
      + assert (forall u v : T, nisnan u = true -> nisnan v = true -> ordeq u v) as G.
        { intros u v U V. split; [congruence|]. assert (forall p q : T, nisnan p = true \/ nisnan q = true -> nleb p q = false) as L.
          { intros p q D. destruct (nleb p q) eqn:Q; [|reflexivity]. apply leb_notnan_ in Q as [Q1 Q2]. destruct D; congruence. }
          intros x. rewrite !L by auto. auto. }
        apply G; [rewrite (proj1 H1); exact E2|rewrite <- (proj1 H2); exact E1].
    - apply orb_false_iff in E1 as [E1 E1']. apply orb_false_iff in E2 as [E2 E2'].
      destruct H1 as [N1 H1], H2 as [N2 H2]. rewrite N2 in E1'. rewrite <- N1 in E2'.
      destruct (leb_total_ B A) as [Q|Q]; try congruence.
      rewrite (proj1 (H1 B)), (proj2 (H2 B')) in Q. congruence.
  Qed.
  Lemma ordeq_lt a b x : ordeq a b -> nltb a x = nltb b x.
  Proof.
    intros [N H]. destruct (nisnan a) eqn:Na.
    - destruct (nltb a x) eqn:E1; [apply ltb_notnan_ in E1 as [E1 _]; congruence|]. destruct (nltb b x) eqn:E2; [apply ltb_notnan_ in E2 as [E2 _]; congruence|reflexivity].
    - destruct (nisnan x) eqn:Nx.
      + destruct (nltb a x) eqn:E1; [apply ltb_notnan_ in E1 as [_ E1]; congruence|]. destruct (nltb b x) eqn:E2; [apply ltb_notnan_ in E2 as [_ E2]; congruence|reflexivity].
      + rewrite !ltb_leb_ by congruence. f_equal. apply (H x).
  Qed.
  Lemma swap_clip_EB r a b E v v' : rel a b -> nisnan E = false -> nisnan (n0 : T) = false ->
    clip_EB a E (nopp r) r n0 = Ok v -> clip_EB b E (nopp r) r n0 = Ok v' -> neqb v v' = true.
  Proof.
    intros R NE N0 H H'. unfold clip_EB in H, H'.
    apply assert_ok in H as [_ H]. apply assert_ok in H as [_ H]. destruct (nltb a _ || _) in H; [discriminate|].
    destruct (nltb (nsub r (nopp r)) _) in H; [discriminate|]. apply assert_ok in H as [_ H]. apply Ok_inj in H.
    apply assert_ok in H' as [_ H']. apply assert_ok in H' as [_ H']. destruct (nltb b _ || _) in H'; [discriminate|].
    destruct (nltb (nsub r (nopp r)) _) in H'; [discriminate|]. apply assert_ok in H' as [_ H']. apply Ok_inj in H'.
    assert (ordeq (nfmax (nsub r a) (nsub a (nopp r))) (nfmax (nsub r b) (nsub b (nopp r)))) as O.
    { apply fmax_cross; apply sim_ordeq.
      - exists (nsub a r). split; [apply sw_sub|]. apply sw_minus; [now apply sw_sym|apply sw_opp].
      - exists (nsub b r). split; [|apply sw_sub]. apply sw_minus; [exact R|apply sw_opp]. }
    revert H H'. generalize dependent (nfmax (nsub r b) (nsub b (nopp r))). generalize (nfmax (nsub r a) (nsub a (nopp r))). intros t t' O H H'.
    unfold nclip in H, H'. rewrite <- (ordeq_lt _ _ E O) in H'. assert (forall u : T, nisnan u = false -> neqb u u = true) as RF.
    { intros u U. rewrite eqb_leb_, leb_refl_ by exact U. reflexivity. }
    destruct (nltb E n0); [subst; auto|]. destruct (nltb t E) eqn:Q; [|subst; auto]. subst v v'.
    apply ltb_notnan_ in Q as [Q _]. rewrite eqb_leb_. destruct O as [NO O]. rewrite <- (proj2 (O t)), <- (proj1 (O t)), leb_refl_ by exact Q. reflexivity.
  Qed.

  Lemma swap_get_test counts x y r m : rels x y ->
    (m = Mboot -> counts <> [] /\ nisfin (nofZ (Z.of_nat (length counts)) : T) = true) ->
    get_test counts x (nopp r) r m = get_test counts y (nopp r) r m.
  Proof.
    intros F B. destruct m; cbn [get_test]; [now apply swap_t_test|now apply swap_bernstein_test| |reflexivity].
    destruct (B eq_refl) as [B1 B2]. exact (proj1 (swap_boot_core counts x y n0 _ F B1 B2)).
  Qed.
  Lemma swap_get_mean_EB_test counts x y c r m mu e p mu' e' p' : nisnan (n0 : T) = false -> nisnan (ninf : T) = false -> rels x y ->
    (m = Mboot -> counts <> [] /\ nisfin (nofZ (Z.of_nat (length counts)) : T) = true) ->
    get_mean_EB_test counts x c n0 (nopp r) r m = Ok (mu, e, p) ->
    get_mean_EB_test counts y c n0 (nopp r) r m = Ok (mu', e', p') ->
    p = p' /\ (m <> Mboot -> neqb e e' = true).
  Proof.
    intros N0 NI F B H H'. unfold get_mean_EB_test in H, H'. apply assert_ok in H as [_ H]. apply assert_ok in H' as [_ H'].
    apply bind_ok in H as ([E q] & A & H). cbn [fst snd] in H. apply bind_ok in H as (u & C & H). apply bind_ok in H as (v & D & H).
    apply Ok_inj in H. injection H as <- <- <-.
    apply bind_ok in H' as ([E' q'] & A' & H'). cbn [fst snd] in H'. apply bind_ok in H' as (u' & C' & H'). apply bind_ok in H' as (v' & D' & H').
    apply Ok_inj in H'. injection H' as <- <- <-.
    assert (nleb (nopp r) r = true) as O.
    { unfold clip_EB in D. apply assert_ok in D as [D _]. now apply diff_nonneg_le_. }
    assert (rel u u') as R.
    { unfold clip_chk in C, C'. apply assert_ok in C as [_ C]. apply assert_ok in C' as [_ C']. apply Ok_inj in C. apply Ok_inj in C'. subst u u'.
      apply swap_clip; [exact O|now apply swap_mean]. }
    destruct m.
    - apply bind_ok in A as (a & A1 & A). apply bind_ok in A as (b & A2 & A). apply Ok_inj in A. injection A as <- <-.
      apply bind_ok in A' as (a' & A1' & A'). apply bind_ok in A' as (b' & A2' & A'). apply Ok_inj in A'. injection A' as <- <-.
      rewrite (swap_t_EB _ _ _ F), A1' in A1. apply Ok_inj in A1. subst a'. rewrite (swap_t_test _ _ F), A2' in A2. apply Ok_inj in A2. subst b'.
      split; [reflexivity|]. intros _. destruct (nisnan a) eqn:Na; [|eapply swap_clip_EB; eauto]. exfalso.
      unfold t_EB in A1'. apply assert_ok in A1' as [_ A1']. apply assert_ok in A1' as [K A1'].
      destruct (degenerate y).
      + apply Ok_inj in A1'. subst a. congruence.
      + apply assert_ok in A1' as [_ A1']. apply assert_ok in A1' as [Q A1']. apply Ok_inj in A1'. subst a. apply leb_notnan_ in Q as [_ Q]. congruence.
    - apply bind_ok in A as (a & A1 & A). apply bind_ok in A as (b & A2 & A). apply Ok_inj in A. injection A as <- <-.
      apply bind_ok in A' as (a' & A1' & A'). apply bind_ok in A' as (b' & A2' & A'). apply Ok_inj in A'. injection A' as <- <-.
      rewrite (swap_bernstein_EB _ _ _ _ F), A1' in A1. apply Ok_inj in A1. subst a'. rewrite (swap_bernstein_test _ _ _ F), A2' in A2. apply Ok_inj in A2. subst b'.
      split; [reflexivity|]. intros _. destruct (nisnan a) eqn:Na; [|eapply swap_clip_EB; eauto]. exfalso.
      unfold bernstein_EB in A1'. apply assert_ok in A1' as [_ A1']. apply assert_ok in A1' as [K A1']. apply assert_ok in A1' as [_ A1'].
      apply assert_ok in A1' as [_ A1']. destruct (degenerate y).
      + apply Ok_inj in A1'. subst a. apply leb_notnan_ in K as [_ K]. congruence.
      + apply assert_ok in A1' as [Q A1']. apply Ok_inj in A1'. subst a. apply leb_notnan_ in Q as [_ Q]. congruence.
    - split; [|intros X; contradiction]. destruct (B eq_refl) as [B1 B2].
      apply bind_ok in A as ([[a b] ci] & A & A2). apply Ok_inj in A2. cbn [fst] in A2. injection A2 as <- <-.
      apply bind_ok in A' as ([[a' b'] ci'] & A' & A2'). apply Ok_inj in A2'. cbn [fst] in A2'. injection A2' as <- <-.
      exact (proj2 (swap_boot_core counts x y c _ F B1 B2) _ _ _ _ _ _ A A').
    - discriminate.
  Qed.
End Swap.

(** ** The percentile bootstrap in exact arithmetic *)
Lemma sorted_perm_eq {A} (R : A -> A -> Prop) l m :
  (forall a b, In a l -> In b l -> R a b -> R b a -> a = b) ->
  StronglySorted R l -> StronglySorted R m -> Permutation l m -> l = m.
Proof.
  revert m. induction l as [|a l IH]; intros m AS Sl Sm P.
  - apply Permutation_nil in P. now subst.
  - destruct m as [|b m]; [apply Permutation_sym, Permutation_nil in P; discriminate|].
    inversion Sl as [|? ? Sl' Fl]; subst. inversion Sm as [|? ? Sm' Fm]; subst.
    assert (a = b) as ->.
    { assert (In b (a :: l)) as Ib by (eapply Permutation_in; [apply Permutation_sym, P|now left]).
      assert (In a (b :: m)) as Ia by (eapply Permutation_in; [apply P|now left]).
      destruct Ib as [Ib|Ib]; [exact Ib|]. destruct Ia as [Ia|Ia]; [now symmetry|].
      apply AS; [now left|now right| |].
      - rewrite Forall_forall in Fl. now apply Fl.
      - rewrite Forall_forall in Fm. now apply Fm. }
    f_equal. apply IH; auto.
    + intros c d Ic Id. apply AS; now right.
    + now apply Permutation_cons_inv in P.
Qed.
Lemma ssorted_snoc {A} (R : A -> A -> Prop) l a : StronglySorted R l -> Forall (fun b => R b a) l -> StronglySorted R (l ++ [a]).
Proof.
  induction 1 as [|b l S IH F]; cbn; intros G; [repeat constructor|]. inversion G; subst. constructor; [now apply IH|].
  apply Forall_app. split; [exact F|]. repeat constructor; assumption.
Qed.
Lemma ssorted_rev {A} (R : A -> A -> Prop) l : StronglySorted R l -> StronglySorted (fun a b => R b a) (rev l).
Proof.
  induction 1 as [|a l S IH F]; cbn; [constructor|]. apply ssorted_snoc; [exact IH|]. apply Forall_forall. intros b I. rewrite <- in_rev in I.
  rewrite Forall_forall in F. now apply F.
Qed.
Lemma sort_opp (b : list xr) : existsb nisnan b = false -> sort (map xopp b) = rev (map xopp (sort b)).
Proof.
  intros N. assert (okl b) as O.
  { apply Forall_forall. intros a I. apply not_true_iff_false. intros Q. rewrite <- not_true_iff_false in N. apply N, existsb_exists. eauto. }
  assert (okl (map xopp b)) as O'.
  { unfold okl in *. apply Forall_forall. intros a I. apply in_map_iff in I as (c & <- & I). rewrite Forall_forall in O. specialize (O c I). now destruct c. }
  apply (sorted_perm_eq le).
  - intros x y Ix Iy. unfold le. cbn [nleb xr_num].
    assert (nisnan x = false) as Nx by (unfold okl in O'; rewrite Forall_forall in O'; apply O'; eapply Permutation_in; [apply Permutation_sym, sort_perm|exact Ix]).
    destruct x as [p| | |], y as [q| | |]; cbn; try discriminate; try reflexivity. rewrite !Rleb_spec. intros. f_equal. lra.
  - now apply sort_sorted.
  - rewrite <- map_rev. pose proof (ssorted_rev _ _ (sort_sorted b O)) as S. induction S as [|a l S IH F]; cbn; [constructor|].
    constructor; [exact IH|]. apply Forall_forall. intros y I. apply in_map_iff in I as (c & <- & I). rewrite Forall_forall in F. specialize (F c I).
    unfold le in *. cbn [nleb xr_num] in *. now rewrite xleb_opp.
  - eapply Permutation_trans; [apply Permutation_sym, sort_perm|]. eapply Permutation_trans; [apply Permutation_map, sort_perm|]. apply Permutation_rev.
Qed.
Lemma nth_error_rev {A} (l : list A) i : (i < length l)%nat -> nth_error (rev l) i = nth_error l (length l - 1 - i).
Proof.
  revert i. induction l as [|a l IH] using rev_ind; intros i H; [cbn in H; lia|]. rewrite rev_app_distr. cbn [rev app]. rewrite app_length in *. cbn [length] in *.
  destruct i as [|i]; cbn [nth_error].
  - rewrite nth_error_app2 by lia. replace (length l + 1 - 1 - 0 - length l)%nat with 0%nat by lia. reflexivity.
  - rewrite IH by lia. rewrite nth_error_app1 by lia. f_equal. lia.
Qed.
Lemma percentile_form (b : list xr) c : 0 < c < 1 -> existsb nisnan b = false ->
  let i := Zfloor ((1 - c) / 2 * (INR (length b) - 1)) in
  let j := Zceil ((1 - (1 - c) / 2) * (INR (length b) - 1)) in
  percentile b (Fin c) = do lb <- py_index (sort b) i; do ub <- py_index (sort b) j; Ok (lb, ub).
Proof.
  intros C N i j. unfold percentile. rewrite N. cbn [negb py_assert bind]. unfold confidence_to_percentiles.
  assert (nltb n0 (Fin c) && nltb (Fin c) n1 = true) as ->.
  { cbn. rewrite (proj2 (Rltb_spec 0 c)), (proj2 (Rltb_spec c 1)) by lra. reflexivity. }
  cbn [py_assert bind fst snd].
  assert ((ndiv (nmul (nofZ 100) (nmul nhalf (nsub n1 (Fin c)))) (nofZ 100) : xr) = Fin ((1 - c) / 2)) as E1.
  { unfold nhalf. cbn -[IZR]. rewrite !xr_ofZ_ne by lia. cbn -[IZR]. rewrite xr_ofZ_ne by lia. f_equal. field. }
  assert ((ndiv (nmul (nofZ 100) (nsub n1 (nmul nhalf (nsub n1 (Fin c))))) (nofZ 100) : xr) = Fin (1 - (1 - c) / 2)) as E2.
  { unfold nhalf. cbn -[IZR]. rewrite !xr_ofZ_ne by lia. cbn -[IZR]. rewrite xr_ofZ_ne by lia. f_equal. field. }
  unfold np_percentile. rewrite E1, E2.
  assert (forall q, 0 <= q <= 1 -> nltb (Fin q) n0 || nltb n1 (Fin q) = false) as G.
  { intros q Q. cbn. rewrite (proj2 (Rltb_false q 0)), (proj2 (Rltb_false 1 q)) by lra. reflexivity. }
  rewrite !G by lra. cbn [nmul nofZ xr_num xmul nfloorZ nceilZ]. rewrite minus_IZR, <- INR_IZR_INZ. reflexivity.
Qed.
Lemma percentile_opp (b : list xr) c lb ub : 0 < c < 1 -> percentile b (Fin c) = Ok (lb, ub) ->
  percentile (map xopp b) (Fin c) = Ok (xopp ub, xopp lb).
Proof.
  intros C H. destruct (existsb nisnan b) eqn:N; [unfold percentile in H; rewrite N in H; discriminate|].
  assert (existsb nisnan (map xopp b) = false) as N'.
  { rewrite <- N. clear. induction b as [|a b IH]; cbn [map existsb]; [reflexivity|]. rewrite IH. now destruct a. }
  rewrite percentile_form in H by auto. rewrite percentile_form by auto. rewrite map_length, sort_opp by exact N.
  destruct b as [|b0 b']; [cbn in H; destruct (py_index [] _) eqn:Q in H; [|discriminate]; unfold py_index in Q; destruct (_ <? 0)%Z in Q; try discriminate; destruct (Z.to_nat _); discriminate|].
  set (b := b0 :: b') in *. assert (1 <= INR (length b)) as L1 by (unfold b; cbn [length]; rewrite S_INR; pose proof (pos_INR (length b')); lra).
  set (n1 := INR (length b) - 1) in *. set (al := (1 - c) / 2) in *. assert (0 < al < 1 / 2) as AL by (unfold al; lra).
  assert (Zceil ((1 - al) * n1) = Z.of_nat (length b) - 1 - Zfloor (al * n1))%Z as J.
  { unfold Zceil. replace (- ((1 - al) * n1)) with (al * n1 - IZR (Z.of_nat (length b) - 1)) by (rewrite minus_IZR, <- INR_IZR_INZ; unfold n1; ring).
    assert (Zfloor (al * n1 - IZR (Z.of_nat (length b) - 1)) = Zfloor (al * n1) - (Z.of_nat (length b) - 1))%Z as ->; [|lia].
    apply Zfloor_imp. pose proof (Zfloor_lb (al * n1)). pose proof (Zfloor_ub (al * n1)). rewrite plus_IZR, !minus_IZR. lra. }
  rewrite J in *. set (k := Zfloor (al * n1)) in *.
  assert (0 <= k <= Z.of_nat (length b) - 1)%Z as K.
  { unfold k. split.
    - apply Zfloor_lub. apply Rmult_le_pos; unfold n1; lra.
    - apply le_IZR. eapply Rle_trans; [apply Zfloor_lb|]. rewrite minus_IZR, <- INR_IZR_INZ. fold n1. assert (0 <= n1) by (unfold n1; lra). nra. }
  assert (length (sort b) = length b) as SL by (symmetry; apply Permutation_length, sort_perm).
  assert (forall (l : list xr) i, (0 <= i <= Z.of_nat (length b) - 1)%Z -> length l = length b ->
    py_index (rev (map xopp l)) i = bind (py_index l (Z.of_nat (length b) - 1 - i)) (fun v => Ok (xopp v))) as PI.
  { intros l i I L. unfold py_index. replace (i <? 0)%Z with false by (symmetry; apply Z.ltb_ge; lia). replace (Z.of_nat (length b) - 1 - i <? 0)%Z with false by (symmetry; apply Z.ltb_ge; lia).
    replace (i <? 0)%Z with false by (symmetry; apply Z.ltb_ge; lia). replace (Z.of_nat (length b) - 1 - i <? 0)%Z with false by (symmetry; apply Z.ltb_ge; lia).
    rewrite nth_error_rev by (rewrite map_length; lia). rewrite map_length, L.
    replace (length b - 1 - Z.to_nat i)%nat with (Z.to_nat (Z.of_nat (length b) - 1 - i)) by lia. rewrite nth_error_map.
    destruct (nth_error l _); reflexivity. }
  rewrite !PI by (assumption || lia). replace (Z.of_nat (length b) - 1 - (Z.of_nat (length b) - 1 - k))%Z with k by lia.
  destruct (py_index (sort b) k); [|discriminate]. cbn [bind] in *. destruct (py_index (sort b) _); [|discriminate]. cbn [bind] in *. apply Ok_inj in H. now injection H as <- <-.
Qed.
Lemma xfmax_comm (a b : xr) : nfmax a b = nfmax b a.
Proof.
  unfold nfmax. destruct a as [x| | |], b as [y| | |]; try reflexivity. cbn. rewrite !orb_false_r.
  destruct (Rleb y x) eqn:E1, (Rleb x y) eqn:E2; try reflexivity;
    try (apply Rleb_spec in E1); try (apply Rleb_spec in E2); try (apply Rleb_false in E1); try (apply Rleb_false in E2); try lra; f_equal; lra.
Qed.
Lemma error_bar_opp (b : list xr) m c e : 0 < c < 1 -> error_bar b m (Fin c) = Ok e -> error_bar (map xopp b) (xopp m) (Fin c) = Ok e.
Proof.
  intros C. unfold error_bar. intros H. apply bind_ok in H as ([lb ub] & P & H). cbn [fst snd] in H.
  rewrite (percentile_opp _ _ _ _ C P). cbn [bind fst snd].
  assert ((nsub (xopp lb) (xopp m) : xr) = nsub m lb) as E1.
  { cbn [nsub xr_num]. unfold xsub. rewrite xopp_opp. destruct lb, m; cbn; try reflexivity. f_equal. lra. }
  assert ((nsub (xopp m) (xopp ub) : xr) = nsub ub m) as E2.
  { cbn [nsub xr_num]. unfold xsub. rewrite xopp_opp. destruct ub, m; cbn; try reflexivity. f_equal. lra. }
  rewrite E1, E2, xfmax_comm. replace (nisfin (xopp m)) with (nisfin m) by now destruct m. exact H.
Qed.
Lemma xrels_map (x y : list xr) : Forall2 xrel x y -> y = map xopp x.
Proof. induction 1; cbn; [reflexivity|]. unfold xrel in H. congruence. Qed.
Lemma xeqb_eq (a b : xr) : neqb a b = true -> a = b.
Proof. destruct a, b; cbn; try discriminate; try reflexivity. rewrite Reqb_spec. congruence. Qed.
Lemma conf_unit (b : list xr) c v : percentile b c = Ok v -> exists r, c = Fin r /\ 0 < r < 1.
Proof.
  unfold percentile. intros H. apply assert_ok in H as [_ H]. apply bind_ok in H as (p & H & _). unfold confidence_to_percentiles in H.
  apply assert_ok in H as [H _]. destruct c as [r| | |]; cbn in H; try discriminate. apply andb_true_iff in H as [H1 H2].
  apply Rltb_spec in H1. apply Rltb_spec in H2. exists r. split; [reflexivity|lra].
Qed.
Lemma swap_error_bar_xr (x y : list xr) m m' c e e' : Forall2 xrel x y -> xrel m m' -> error_bar x m c = Ok e -> error_bar y m' c = Ok e' -> e = e'.
Proof.
  intros F M H H'. apply xrels_map in F. unfold xrel in M. subst y m'.
  assert (exists r, c = Fin r /\ 0 < r < 1) as (r & -> & R) by (unfold error_bar in H; apply bind_ok in H as (v & P & _); now apply conf_unit in P).
  rewrite (error_bar_opp _ _ _ _ R H) in H'. now apply Ok_inj in H'.
Qed.
Lemma swap_get_mean_EB_test_xr (FT : fn xr) counts (x y : list xr) c r m mu e p mu' e' p' : Forall2 xrel x y ->
  (m = Mboot -> counts <> []) ->
  get_mean_EB_test counts x c n0 (nopp r) r m = Ok (mu, e, p) ->
  get_mean_EB_test counts y c n0 (nopp r) r m = Ok (mu', e', p') -> p = p' /\ e = e'.
Proof.
  intros F B H H'.
  assert (m = Mboot -> counts <> [] /\ nisfin (nofZ (Z.of_nat (length counts)) : xr) = true) as B' by (intros M; split; [now apply B|reflexivity]).
  destruct (swap_get_mean_EB_test (NT := xr_num) (rel := xrel) counts x y c r m mu e p mu' e' p' eq_refl eq_refl F B' H H') as [P E]. split; [exact P|].
  assert (m = Mboot \/ m <> Mboot) as [->|M] by (destruct m; auto; right; discriminate); [|apply xeqb_eq; auto].
  clear P E. specialize (B eq_refl). unfold get_mean_EB_test in H, H'. apply assert_ok in H as [_ H]. apply assert_ok in H' as [_ H'].
  apply bind_ok in H as ([E q] & A & H). cbn [fst snd] in H. apply bind_ok in H as (u & C & H). apply bind_ok in H as (v & D & H).
  apply Ok_inj in H. injection H as <- <- <-.
  apply bind_ok in H' as ([E' q'] & A' & H'). cbn [fst snd] in H'. apply bind_ok in H' as (u' & C' & H'). apply bind_ok in H' as (v' & D' & H').
  apply Ok_inj in H'. injection H' as <- <- <-.
  assert (nleb (nopp r) r = true) as O.
  { unfold clip_EB in D. apply assert_ok in D as [D _]. now apply diff_nonneg_le_. }
  assert (xrel u u') as R.
  { unfold clip_chk in C, C'. apply assert_ok in C as [_ C]. apply assert_ok in C' as [_ C']. apply Ok_inj in C. apply Ok_inj in C'. subst u u'.
    apply (swap_clip (rel := xrel)); [exact O|]. now apply (swap_mean (rel := xrel)). }
  assert (E = E') as <-.
  { apply bind_ok in A as ([[a b] ci] & A & A2). apply Ok_inj in A2. cbn [fst] in A2. injection A2 as <- <-.
    apply bind_ok in A' as ([[a' b'] ci'] & A' & A2'). apply Ok_inj in A2'. cbn [fst] in A2'. injection A2' as <- <-.
    unfold _boot_EB_and_test in A, A'. apply assert_ok in A as [_ A]. apply assert_ok in A' as [_ A'].
    rewrite <- (swap_degenerate (rel := xrel) _ _ F) in A'. rewrite <- (rels_length (rel := xrel) _ _ F) in A'. destruct (degenerate x).
    - apply Ok_inj in A. apply Ok_inj in A'. congruence.
    - apply bind_ok in A as (w & W & A). apply bind_ok in A' as (w' & W' & A'). rewrite W in W'. apply Ok_inj in W'. subst w'. cbv zeta in A, A'.
      apply bind_ok in A as (pv & _ & A). apply bind_ok in A as (eb & EB & A). apply bind_ok in A as (? & _ & A). apply Ok_inj in A. injection A as -> _ _.
      apply bind_ok in A' as (pv' & _ & A'). apply bind_ok in A' as (eb' & EB' & A'). apply bind_ok in A' as (? & _ & A'). apply Ok_inj in A'. injection A' as -> _ _.
      eapply swap_error_bar_xr; [| |exact EB|exact EB'].
      + now apply (swap_boot_means (rel := xrel)).
      + now apply (swap_mean (rel := xrel)). }
  destruct (nisnan E) eqn:N; [|apply xeqb_eq; eapply (swap_clip_EB (rel := xrel)); eauto].
  assert (forall w z, clip_EB w E (nopp r) r n0 = Ok z -> z = NaN) as Q; [|now rewrite (Q _ _ D), (Q _ _ D')].
  intros w z Z. unfold clip_EB in Z. apply assert_ok in Z as [_ Z]. apply assert_ok in Z as [_ Z]. destruct (nltb w _ || _) in Z; [discriminate|].
  destruct (nltb (nsub r (nopp r)) _) in Z; [discriminate|]. apply assert_ok in Z as [_ Z]. apply Ok_inj in Z. subst z.
  destruct E; try discriminate. unfold nclip. cbn. destruct (nfmax _ _); reflexivity.
Qed.
