(** clip_EB on doubles *)
From Coq Require Import Reals Lra Lia.
From Flocq Require Import Plus_error Mult_error.
From Verif Require Import PyBase ListLemmas F64 F64Lemmas Num NumOk Util BootUtil BootProofs4 PerfCurves PerfProofs7 MLPaper.
Open Scope R_scope.

Definition trivial_EB (mu lower upper : f64) : f64 := nfmax (fsub upper mu) (fsub mu lower).

(** The documented domain of clip_EB. *)
Definition eb_domain (lower upper min_EB : f64) : Prop :=
  fleb f0 (fsub upper lower) = true /\ fleb f0 min_EB = true /\ fisfin min_EB = true.

Lemma fin_lt_inf x : fisfin x = true -> fltb x finf = true.
Proof. destruct x; try discriminate; reflexivity. Qed.
Lemma lt_inf_fin x : fleb f0 x = true -> fltb x finf = true -> fisfin x = true.
Proof. destruct x as [| [] | |]; try discriminate; reflexivity. Qed.

Lemma clip_EB_unfold mu EB lower upper min_EB :
  eb_domain lower upper min_EB ->
  clip_EB mu EB lower upper min_EB =
    if fltb mu lower || fltb upper mu then Err ValueError else
    if fltb (fsub upper lower) (fmul (f_of_Z 2) min_EB) then Err ValueError else
    if fltb (trivial_EB mu lower upper) min_EB then Err AssertionError else
    Ok (nclip EB min_EB (trivial_EB mu lower upper)).
Proof.
  intros (A & B & C). unfold clip_EB. cbn [nleb nltb n0 ninf nsub nmul nofZ f64_num]. rewrite A, B, (fin_lt_inf _ C).
  cbn [andb py_assert bind]. destruct (fltb mu lower || fltb upper mu); [reflexivity|].
  destruct (fltb (fsub upper lower) (fmul (f_of_Z 2) min_EB)); [reflexivity|].
  unfold trivial_EB. destruct (fltb (nfmax (fsub upper mu) (fsub mu lower)) min_EB); reflexivity.
Qed.

Lemma clip_EB_domain mu EB lower upper min_EB v :
  clip_EB mu EB lower upper min_EB = Ok v \/ clip_EB mu EB lower upper min_EB = Err ValueError ->
  eb_domain lower upper min_EB.
Proof.
  unfold clip_EB. cbn [nleb nltb n0 ninf nsub nmul nofZ f64_num]. intros H.
  destruct (fleb f0 (fsub upper lower)) eqn:A; [|destruct H; discriminate].
  destruct (fleb f0 min_EB) eqn:B; [|destruct H; discriminate].
  destruct (fltb min_EB finf) eqn:C; [|destruct H; discriminate].
  split; [exact A|]. split; [exact B|]. now apply lt_inf_fin.
Qed.

Lemma lim_notnan lower upper : fleb f0 (fsub upper lower) = true -> fisnan lower = false /\ fisnan upper = false.
Proof. destruct lower, upper; try discriminate; split; reflexivity. Qed.

Lemma nfmax_l a b : fisnan a = false -> fleb a (nfmax a b) = true.
Proof.
  intros A. unfold nfmax. cbn [nleb nisnan f64_num]. destruct (fleb b a) eqn:L; cbn [orb]; [now apply fleb_refl|].
  destruct (fisnan b) eqn:B; [now apply fleb_refl|]. destruct (fleb_total a b A B); congruence.
Qed.
Lemma nfmax_r a b : fisnan b = false -> fleb b (nfmax a b) = true \/ fisnan a = true.
Proof.
  intros B. unfold nfmax. cbn [nleb nisnan f64_num]. destruct (fleb b a) eqn:L; cbn [orb]; [now left|].
  rewrite B. left. now apply fleb_refl.
Qed.
Lemma nfmax_cases (a b : f64) : nfmax a b = a \/ nfmax a b = b.
Proof. unfold nfmax. destruct (nleb b a || nisnan b); auto. Qed.

(** No NaN trivial bar unless the point estimate is NaN. *)
Lemma trivial_notnan mu lower upper :
  fleb f0 (fsub upper lower) = true -> fisnan mu = false -> fltb mu lower = false -> fltb upper mu = false ->
  fisnan (trivial_EB mu lower upper) = false.
Proof.
  intros A M L U. destruct (lim_notnan _ _ A) as [Nl Nu]. unfold trivial_EB, nfmax. cbn [nleb nisnan f64_num].
  destruct (fisnan (fsub mu lower)) eqn:E2.
  - rewrite orb_true_r. destruct (fisnan (fsub upper mu)) eqn:E1; [|reflexivity]. exfalso.
    destruct (fsub_nan_cases _ _ Nu M E1) as [[-> ->]|[-> ->]], (fsub_nan_cases _ _ M Nl E2) as [[E ->]|[E ->]];
      try discriminate; vm_compute in A; discriminate.
  - destruct (fleb (fsub mu lower) (fsub upper mu)) eqn:L1; cbn [orb]; [|exact E2]. now apply fleb_notnan in L1.
Qed.

(** Infinite limits never clip from above. *)
Lemma trivial_inf mu lower upper :
  fleb f0 (fsub upper lower) = true -> fisnan mu = false -> fltb mu lower = false -> fltb upper mu = false ->
  fisfin lower = false \/ fisfin upper = false -> trivial_EB mu lower upper = finf.
Proof.
  intros A M L U H.
  assert (fsub upper mu = finf \/ fsub mu lower = finf) as [E|E].
  { destruct H as [F|F].
    - destruct lower as [| [] | |]; try discriminate; [|destruct upper as [| [] | |]; discriminate..].
      destruct mu as [| [] | |]; try discriminate; auto.
      destruct upper as [| [] | |]; try discriminate; auto.
    - destruct upper as [| [] | |]; try discriminate; [destruct lower as [| [] | |]; discriminate|].
      destruct mu as [| [] | |]; try discriminate; auto.
      destruct lower as [| [] | |]; try discriminate; auto. }
  - unfold trivial_EB. rewrite E. unfold nfmax. cbn [nleb nisnan f64_num].
    destruct (fsub mu lower) as [| [] | |]; reflexivity.
  - unfold trivial_EB. rewrite E. unfold nfmax. cbn [nleb nisnan f64_num].
    destruct (fsub upper mu) as [| [] | |]; reflexivity.
Qed.

(** Halving a difference before or after rounding: min_EB fits below the larger
    of the two distances. *)
Lemma half_le_rnd l u m : format64 l -> format64 u -> format64 m -> 0 <= m -> l <= u ->
  2 * m <= rnd64 (u - l) -> m <= rnd64 ((u - l) / 2).
Proof.
  intros Fl Fu Fm M LU H.
  destruct (Rle_or_lt (2 * m) (u - l)) as [K|K].
  { apply rnd64_ge; [exact Fm|lra]. }
  (* the difference was rounded up to 2m, so it is far from the subnormal range *)
  assert (bpow radix2 (-1021) <= u - l) as Big.
  { destruct (Rle_or_lt (bpow radix2 (-1021)) (u - l)) as [?|S]; [assumption|]. exfalso.
    assert (format64 (u - l)) as X.
    { replace (u - l) with (u + - l) by ring.
      refine (@FLT_format_plus_small radix2 (-1074)%Z 53%Z _ u (- l) Fu _ _).
      - now apply generic_format_opp.
      - replace (u + - l) with (u - l) by ring. rewrite Rabs_pos_eq by lra. apply Rlt_le. exact S. }
    rewrite (rnd64_id _ X) in H. lra. }
  assert (rnd64 ((u - l) / 2) = rnd64 (u - l) / 2) as ->; [|lra].
  assert (forall x, bpow radix2 (-1021) <= x -> rnd64 (x / 2) = rnd64 x / 2) as Half.
  { intros x Hx. assert (x <> 0) as NZ. { intros ->. pose proof (bpow_gt_0 radix2 (-1021)). lra. }
    unfold round, scaled_mantissa, F2R. cbn [Fnum Fexp].
    assert (cexp radix2 (SpecFloat.fexp prec64 emax64) (x / 2) = (cexp radix2 (SpecFloat.fexp prec64 emax64) x - 1)%Z) as E.
    { unfold cexp. replace (x / 2) with (x * bpow radix2 (-1)) by (change (bpow radix2 (-1)) with (/ 2); field).
      rewrite mag_mult_bpow by exact NZ.
      assert (-1020 <= mag radix2 x)%Z.
      { replace (-1020)%Z with (-1021 + 1)%Z by reflexivity. apply mag_ge_bpow. rewrite Rabs_pos_eq.
        - replace (-1021 + 1 - 1)%Z with (-1021)%Z by reflexivity. exact Hx.
        - apply Rle_trans with (2 := Hx). apply bpow_ge_0. }
      unfold SpecFloat.fexp, SpecFloat.emin, prec64, emax64. lia. }
    rewrite E. set (e := cexp radix2 _ x).
    replace (- (e - 1))%Z with (- e + 1)%Z by lia. rewrite bpow_plus. change (bpow radix2 1) with 2.
    replace (x / 2 * (bpow radix2 (- e) * 2)) with (x * bpow radix2 (- e)) by field.
    replace (e - 1)%Z with (e + - (1))%Z by lia. rewrite bpow_plus. change (bpow radix2 (- (1))) with (/ 2). field. }
  now apply Half.
Qed.

Lemma clampM_ge x m : m < bpow radix2 emax64 -> m <= x -> m <= clampM x.
Proof. intros A B. unfold clampM. apply Rle_trans with (2 := Rmax_r _ _). apply Rmin_glb; lra. Qed.

Lemma fsub_fin_val x y : fisfin x = true -> fisfin y = true -> fisfin (fsub x y) = true ->
  B2R (fsub x y) = rnd64 (B2R x - B2R y).
Proof.
  intros A B C. destruct (fsub_key x y A B) as [_ K]. rewrite (fkey_fin _ C) in K. pose proof (abs_lt_emax (fsub x y)) as Bd.
  rewrite K in Bd. rewrite K. unfold clampM in *. pose proof bpow_emax_pos.
  revert Bd. unfold Rmax, Rmin. repeat (destruct (Rle_dec _ _)); intros; lra.
Qed.

Lemma two_min_val m : fleb f0 m = true -> fisfin m = true ->
  fmul (f_of_Z 2) m = finf \/ (fisfin (fmul (f_of_Z 2) m) = true /\ B2R (fmul (f_of_Z 2) m) = 2 * B2R m).
Proof.
  intros P F. pose proof (f_of_Z_correct 2 ltac:(lia)) as [E2 F2].
  assert (0 <= B2R m) as M0. { apply fleb_fin in P; auto. }
  assert (format64 (2 * B2R m)) as Fm.
  { replace (2 * B2R m) with (B2R m * bpow radix2 1) by (change (bpow radix2 1) with 2; ring).
    exact (@mult_bpow_pos_exact_FLT radix2 (-1074)%Z 53%Z (B2R m) 1%Z (B2R_format m) ltac:(lia)). }
  pose proof (Bmult_correct prec64 emax64 _ _ mode_NE (f_of_Z 2) m) as C. fold (fmul (f_of_Z 2) m) in C.
  change (round_mode mode_NE) with ZnearestE in C. rewrite E2 in C. rewrite (rnd64_id _ Fm) in C.
  match type of C with if ?c then _ else _ => destruct c eqn:Q end.
  - destruct C as (C1 & C2 & _). right. fold (fisfin (fmul (f_of_Z 2) m)) in C2.
    change (is_finite (f_of_Z 2)) with (fisfin (f_of_Z 2)) in C2. rewrite F2 in C2. cbn [andb] in C2.
    change (@is_finite prec64 emax64 m) with (fisfin m) in C2. rewrite F in C2. split; assumption.
  - left.
    assert (Bsign m = false \/ B2R m = 0) as [S|Z].
    { destruct m as [s| | |s mm ee]; try discriminate. left. destruct s; [|reflexivity].
      exfalso. discriminate P. }
    + rewrite S in C. change (Bsign (f_of_Z 2)) with false in C. cbn [xorb] in C.
      change (binary_overflow prec64 emax64 mode_NE false) with (SpecFloat.S754_infinity false) in C.
      destruct (fmul (f_of_Z 2) m) as [ |[]| | ]; try discriminate C. reflexivity.
    + exfalso. rewrite Z, Rmult_0_r, Rabs_R0 in Q. rewrite Rlt_bool_true in Q; [discriminate|apply bpow_gt_0].
Qed.

(** The assertion that min_EB is at most the trivial bar cannot fire unless the
    width of two finite limits overflows. *)
Lemma no_assertion mu lower upper min_EB :
  eb_domain lower upper min_EB -> fisnan mu = false ->
  fltb mu lower = false -> fltb upper mu = false ->
  fltb (fsub upper lower) (fmul (f_of_Z 2) min_EB) = false ->
  fisfin lower = false \/ fisfin upper = false \/ fisfin (fsub upper lower) = true ->
  fltb (trivial_EB mu lower upper) min_EB = false.
Proof.
  intros (A & B & C) M L U W [H|H].
  { rewrite trivial_inf; auto. destruct min_EB as [| [] | |]; reflexivity || discriminate. }
  destruct (fisfin lower) eqn:Fl.
  2:{ rewrite trivial_inf; auto. destruct min_EB as [| [] | |]; reflexivity || discriminate. }
  destruct (fisfin upper) eqn:Fu.
  2:{ rewrite trivial_inf; auto. destruct min_EB as [| [] | |]; reflexivity || discriminate. }
  destruct H as [H|H]; [discriminate|].
  destruct (lim_notnan _ _ A) as [Nl Nu].
  assert (fisfin mu = true) as Fm.
  { destruct mu as [| [] | |], lower, upper; try discriminate; reflexivity. }
  pose proof (trivial_notnan mu lower upper A M L U) as Nt.
  pose proof (fisfin_notnan _ C) as Nm. apply (fltb_false_le _ _ Nt Nm).
  apply (fltb_false_le _ _ M Nl) in L. apply (fltb_false_le _ _ Nu M) in U.
  rewrite !fkey_fin in L, U by assumption. rewrite (fkey_fin min_EB C).
  assert (0 <= B2R min_EB) as M0 by (apply fleb_fin in B; auto).
  assert (2 * B2R min_EB <= rnd64 (B2R upper - B2R lower)) as K.
  { rewrite <- (fsub_fin_val upper lower Fu Fl H). destruct (two_min_val _ B C) as [E|[Ff E]].
    - rewrite E in W. destruct (fsub upper lower) as [|[]| |]; discriminate.
    - rewrite <- E. apply (fltb_false_le _ _ (fisfin_notnan _ H) (fisfin_notnan _ Ff)) in W.
      rewrite !fkey_fin in W by assumption. exact W. }
  apply half_le_rnd in K; try apply B2R_format; try assumption; try lra.
  destruct (fsub_key upper mu Fu Fm) as [Na Ea]. destruct (fsub_key mu lower Fm Fl) as [Nb Eb].
  pose proof (abs_lt_emax min_EB) as Bm.
  destruct (Rle_or_lt ((B2R upper - B2R lower) / 2) (B2R upper - B2R mu)) as [X|X].
  - apply Rle_trans with (fkey (fsub upper mu)).
    + rewrite Ea. apply clampM_ge; [lra|]. apply Rle_trans with (1 := K). now apply rnd64_mono.
    + apply fleb_key; auto. now apply nfmax_l.
  - apply Rle_trans with (fkey (fsub mu lower)).
    + rewrite Eb. apply clampM_ge; [lra|]. apply Rle_trans with (1 := K). apply rnd64_mono. lra.
    + apply fleb_key; auto. destruct (nfmax_r (fsub upper mu) (fsub mu lower) Nb) as [Y|Y]; [exact Y|congruence].
Qed.

Lemma fltb_asym_le x y : fleb x y = true -> fltb y x = false.
Proof.
  intros H. destruct (fleb_notnan _ _ H) as [A B]. apply fltb_false_le; auto. now apply fleb_key.
Qed.
Lemma fltb_false_fleb x y : fisnan x = false -> fisnan y = false -> fltb x y = false -> fleb y x = true.
Proof. intros A B H. apply fleb_key; auto. now apply fltb_false_le. Qed.

Lemma nclip_inside (a lo hi : f64) : fleb lo a = true -> fleb a hi = true -> nclip a lo hi = a.
Proof.
  intros A B. unfold nclip. cbn [nltb f64_num]. rewrite (fltb_asym_le _ _ A), (fltb_asym_le _ _ B). reflexivity.
Qed.

Lemma nclip_range (a lo hi : f64) : fisnan a = false -> fleb lo hi = true ->
  fleb lo (nclip a lo hi) = true /\ fleb (nclip a lo hi) hi = true.
Proof.
  intros A L. destruct (fleb_notnan _ _ L) as [B C]. unfold nclip. cbn [nltb f64_num].
  destruct (fltb a lo) eqn:E; [split; [now apply fleb_refl|exact L]|].
  destruct (fltb hi a) eqn:E2; [split; [exact L|now apply fleb_refl]|].
  split; apply fltb_false_fleb; auto.
Qed.

Lemma nclip_nan (a lo hi : f64) : fisnan a = true -> nclip a lo hi = a.
Proof. destruct a; try discriminate. intros _. unfold nclip. cbn [nltb f64_num]. destruct lo, hi; reflexivity. Qed.

Lemma le_finf x : fisnan x = false -> fleb x finf = true.
Proof. destruct x as [|[]| |]; try discriminate; reflexivity. Qed.

(** A computed distance within the limits never exceeds the trivial bar. *)
Lemma dist_trivial mu lower upper theta :
  fleb f0 (fsub upper lower) = true -> fisnan mu = false -> fltb mu lower = false -> fltb upper mu = false ->
  fleb lower theta = true -> fleb theta upper = true ->
  (fisnan (fsub theta mu) = false -> fleb (fsub theta mu) (trivial_EB mu lower upper) = true) /\
  (fisnan (fsub mu theta) = false -> fleb (fsub mu theta) (trivial_EB mu lower upper) = true).
Proof.
  intros A M L U T1 T2. pose proof (trivial_notnan _ _ _ A M L U) as Nt. destruct (lim_notnan _ _ A) as [Nl Nu].
  assert (fisfin lower = false \/ fisfin upper = false \/ (fisfin lower = true /\ fisfin upper = true)) as C.
  { destruct (fisfin lower), (fisfin upper); auto. }
  destruct C as [C|[C|[C1 C2]]].
  1,2: rewrite (trivial_inf mu lower upper A M L U ltac:(auto)); split; apply le_finf.
  assert (fisfin mu = true) as Fm. { destruct mu as [| [] | |], lower, upper; try discriminate; reflexivity. }
  assert (fisnan (fsub upper mu) = false) as Na by (apply fsub_key; assumption).
  assert (fisnan (fsub mu lower) = false) as Nb by (apply fsub_key; assumption).
  split; intros N.
  - apply fleb_trans with (fsub upper mu); [now apply fsub_mono_l|now apply nfmax_l].
  - apply fleb_trans with (fsub mu lower); [now apply fsub_mono_r|].
    destruct (nfmax_r (fsub upper mu) (fsub mu lower) Nb); [assumption|congruence].
Qed.
