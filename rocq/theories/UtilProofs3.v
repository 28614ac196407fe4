(** cummax_strict in doubles, and area as an integral in exact arithmetic. *)
From Coq Require Import Reals Lra Permutation Sorted.
From Flocq Require Import Core BinarySingleNaN.
From Coquelicot Require Import Coquelicot.
From Verif Require Import PyBase F64 F64Lemmas Num NumOk Util UtilProofs ListLemmas UtilProofs2 SumProofs.
Open Scope R_scope.

(** ** cummax_strict *)

Lemma fsucc_notnan a : fisnan a = false -> fisnan (fsucc a) = false.
Proof.
  intros Na. destruct (fisfin a) eqn:Fa.
  - pose proof (Bsucc_correct prec64 emax64 _ _ a Fa) as C. fold (fsucc a) in C.
    destruct (Rlt_bool _ _) in C.
    + destruct C as (_ & F & _). now apply fisfin_notnan.
    + destruct (fsucc a); cbn in C; try discriminate; auto.
  - destruct a as [|[]| |]; try discriminate; reflexivity.
Qed.

Lemma fsucc_gt a : fisnan a = false -> fltb a finf = true -> fltb a (fsucc a) = true.
Proof.
  intros Na Lt. destruct (fisfin a) eqn:Fa.
  - pose proof (Bsucc_correct prec64 emax64 _ _ a Fa) as C. fold (fsucc a) in C.
    destruct (Rlt_bool _ _) in C.
    + destruct C as (V & F & _). apply fltb_fin; auto. rewrite V.
      destruct (Req_dec (B2R a) 0) as [Z|NZ].
      * rewrite Z, succ_0. change (0 < ulp radix2 (FLT_exp (-1074) 53) 0).
        rewrite ulp_FLT_0 by (red; reflexivity). apply bpow_gt_0.
      * now apply succ_gt_id.
    + assert (fsucc a = finf) as ->; [|exact Lt].
      destruct (fsucc a) as [|[]| |]; cbn in C; try discriminate; reflexivity.
  - destruct a as [|[]| |]; try discriminate; reflexivity.
Qed.

Lemma fsucc_least a b : fltb a b = true -> fleb (fsucc a) b = true.
Proof.
  intros Lt. destruct (fltb_notnan _ _ Lt) as [Na Nb]. pose proof (fsucc_notnan a Na) as Ns.
  destruct (fisfin b) eqn:Fb.
  2:{ destruct b as [|[]| |]; try discriminate.
      - destruct a as [|[]| |]; try discriminate; destruct s; discriminate.
      - destruct (fsucc a) as [[]|[]| |[]]; try discriminate; reflexivity. }
  destruct (fisfin a) eqn:Fa.
  - apply fltb_fin in Lt; auto.
    pose proof (succ_le_lt radix2 fexp64 (B2R a) (B2R b) (B2R_format _) (B2R_format _) Lt) as L.
    pose proof (Bsucc_correct prec64 emax64 _ _ a Fa) as C. fold (fsucc a) in C.
    rewrite Rlt_bool_true in C.
    + destruct C as (V & F & _). apply fleb_fin; auto. rewrite V. exact L.
    + eapply Rle_lt_trans; [exact L|]. pose proof (abs_B2R_lt_emax prec64 emax64 b) as H.
      apply Rabs_def2 in H. apply H.
  - destruct a as [|[]| |]; try discriminate.
    + (* a = -inf *) apply fleb_fin; auto.
      pose proof (abs_B2R_le_emax_minus_prec prec64 emax64 _ b) as H.
      assert (B2R (fsucc (B754_infinity true)) = - (bpow radix2 emax64 - bpow radix2 (emax64 - prec64))) as ->.
      { assert (fsucc (B754_infinity true) = (@B754_finite prec64 emax64 true 9007199254740991 971 eq_refl)) as ->
          by (apply B2SF_inj; reflexivity).
        cbn [B2R]. unfold F2R. cbn [Fnum Fexp cond_Zopp].
        replace emax64 with (53 + 971)%Z by reflexivity. replace (53 + 971 - prec64)%Z with 971%Z by reflexivity.
        rewrite bpow_plus. change (bpow radix2 53) with 9007199254740992. rewrite opp_IZR. simpl IZR. ring. }
      apply Rabs_le_inv in H. lra.
    + destruct b as [|[]| |[]]; try discriminate.
Qed.

Lemma fmax_notnan a b : fisnan a = false -> fisnan b = false -> fisnan (fmax a b) = false.
Proof. intros. unfold fmax. destruct (_ || _); auto. Qed.
Lemma fmax_l a b : fisnan a = false -> fisnan b = false -> fleb a (fmax a b) = true.
Proof.
  intros Na Nb. unfold fmax. rewrite Na, orb_false_r. destruct (fleb b a) eqn:E.
  - now apply fleb_refl. - destruct (fleb_total a b Na Nb); congruence.
Qed.
Lemma fmax_r a b : fisnan a = false -> fisnan b = false -> fleb b (fmax a b) = true.
Proof.
  intros Na Nb. unfold fmax. rewrite Na, orb_false_r. destruct (fleb b a) eqn:E; auto. now apply fleb_refl.
Qed.
Lemma fmax_lub a b c : fleb a c = true -> fleb b c = true -> fleb (fmax a b) c = true.
Proof. intros. unfold fmax. destruct (_ || _); auto. Qed.

Lemma cummax_loop_notnan prev l : fisnan prev = false -> okl l -> okl (cummax_loop prev l).
Proof.
  intros Np O. revert prev Np. induction O as [|a l Na O IH]; intros prev Np; cbn; constructor.
  - apply fmax_notnan; auto using fsucc_notnan. - apply IH. apply fmax_notnan; auto using fsucc_notnan.
Qed.
Lemma cummax_loop_ge prev l : fisnan prev = false -> okl l ->
  Forall2 (fun a r => fleb a r = true) l (cummax_loop prev l).
Proof.
  intros Np O. revert prev Np. induction O as [|a l Na O IH]; intros prev Np; cbn; constructor.
  - apply fmax_r; auto using fsucc_notnan. - apply IH. apply fmax_notnan; auto using fsucc_notnan.
Qed.

(** Any strictly increasing majorant dominates the loop. *)
Lemma cummax_loop_least prev l w v : fisnan prev = false -> okl l -> StronglySorted lt (w :: v) ->
  Forall2 (fun a r => fleb a r = true) l v -> fleb prev w = true ->
  Forall2 (fun r b => fleb r b = true) (cummax_loop prev l) v /\
  forallb (fltb f0) (diff (prev :: cummax_loop prev l)) = true.
Proof.
  intros Np O. revert prev Np w v. induction O as [|a l Na O IH]; intros prev Np w v Hs F L.
  - inversion F; subst. split; [constructor|reflexivity].
  - inversion F as [|? b ? v' Hab F']; subst. inversion Hs as [|? ? Hs' Hw]; subst.
    inversion Hw as [|? ? Hwb _]; subst.
    assert (fltb prev b = true) as Lpb by exact (le_lt_trans (NT := f64_num) prev w b L Hwb).
    set (a' := fmax (fsucc prev) a).
    assert (fisnan a' = false) as Na' by (apply fmax_notnan; auto using fsucc_notnan).
    assert (fleb a' b = true) as La by (apply fmax_lub; auto using fsucc_least).
    destruct (IH a' Na' b v' Hs' F' La) as [I1 I2].
    cbn [cummax_loop]. fold a'. split; [constructor; auto|].
    rewrite diff_cons. cbn [forallb]. apply andb_true_iff. split; [|exact I2].
    change (nltb n0 (nsub a' prev) = true). rewrite diff_pos_ by auto.
    assert (fltb prev finf = true) as Fi.
    { apply (lt_le_trans (NT := f64_num) prev b finf); [exact Lpb|]. destruct (fltb_notnan _ _ Lpb).
      destruct b as [[]|[]| |[]]; try discriminate; reflexivity. }
    apply (lt_le_trans (NT := f64_num) prev (fsucc prev) a'); [now apply fsucc_gt|].
    apply fmax_l; auto using fsucc_notnan.
Qed.

Lemma cummax_strict_ok x r : okl x -> cummax_strict x = Ok r ->
  StronglySorted lt r /\ Forall2 (fun a b => fleb a b = true) x r.
Proof.
  intros O H. unfold cummax_strict in H.
  destruct (forallb (fltb f0) _) eqn:E in H; [|discriminate]. cbn [py_assert bind] in H. apply Ok_inj in H. subst r.
  destruct x as [|a l]; [repeat constructor|]. inversion O as [|? ? Na O']; subst. split.
  - apply diff_sorted; [|exact E]. constructor; auto. now apply cummax_loop_notnan.
  - constructor; [now apply fleb_refl|]. now apply cummax_loop_ge.
Qed.

Lemma cummax_strict_least x v : okl x -> StronglySorted lt v -> Forall2 (fun a b => fleb a b = true) x v ->
  exists r, cummax_strict x = Ok r /\ Forall2 (fun a b => fleb a b = true) r v.
Proof.
  intros O Hs F. unfold cummax_strict. destruct x as [|a l].
  - inversion F; subst. exists []. split; [reflexivity|constructor].
  - inversion F as [|? b ? v' Hab F']; subst. inversion O as [|? ? Na O']; subst.
    destruct (cummax_loop_least a l b v' Na O' Hs F' Hab) as [I1 I2].
    rewrite I2. exists (a :: cummax_loop a l). split; [reflexivity|]. constructor; auto.
Qed.

(** ** The integral of a polygonal or step curve *)

Definition rlast (xs : list R) (g : R) (i : nat) : Prop :=
  exists x, nth_error xs i = Some x /\ x <= g /\
  forall j x', (i < j)%nat -> nth_error xs j = Some x' -> g < x'.

(** The value drawn at [g]. *)
Definition drawn (kd : ikind) (xs ys : list R) (g v : R) : Prop :=
  exists i, rlast xs g i /\
  match kd with
  | Previous => nth_error ys i = Some v
  | Linear =>
      (i = (length xs - 1)%nat /\ nth_error ys i = Some v) \/
      exists x0 x1 y0 y1, nth_error xs i = Some x0 /\ nth_error xs (S i) = Some x1 /\
        nth_error ys i = Some y0 /\ nth_error ys (S i) = Some y1 /\
        v = y0 + (y1 - y0) / (x1 - x0) * (g - x0)
  | Next => False
  end.

Fixpoint rarea (kd : ikind) (xs ys : list R) : R :=
  match xs, ys with
  | x0 :: ((x1 :: _) as xs'), y0 :: ((y1 :: _) as ys') =>
      (x1 - x0) * match kd with Previous => y0 | _ => (y0 + y1) / 2 end + rarea kd xs' ys'
  | _, _ => 0
  end.

Lemma rlast_shift a b l g i : b <= g -> rlast (a :: b :: l) g i -> exists i', i = S i' /\ rlast (b :: l) g i'.
Proof.
  intros Lb (x & Hx & L & H). destruct i as [|i].
  - specialize (H 1%nat b ltac:(lia) eq_refl). lra.
  - exists i. split; auto. exists x. repeat split; auto. intros j x' Lj Hj. apply (H (S j)); auto. lia.
Qed.

Lemma drawn_tail kd a b l c ys g v : length (b :: l) = length ys -> b <= g ->
  drawn kd (a :: b :: l) (c :: ys) g v -> drawn kd (b :: l) ys g v.
Proof.
  intros L Lb (i & Hi & H). destruct (rlast_shift _ _ _ _ _ Lb Hi) as (i' & -> & Hi'). exists i'. split; auto.
  destruct kd; auto. destruct H as [[E H]|(x0 & x1 & y0 & y1 & H)].
  - left. split; auto. cbn [length] in *. lia.
  - right. exists x0, x1, y0, y1. exact H.
Qed.

Lemma drawn_first kd a b l y0 y1 ys g v : a < g < b -> drawn kd (a :: b :: l) (y0 :: y1 :: ys) g v ->
  (forall j x', nth_error l j = Some x' -> b <= x') ->
  v = match kd with Previous => y0 | _ => y0 + (y1 - y0) / (b - a) * (g - a) end.
Proof.
  intros Hg (i & (x & Hx & L & H) & D) S. destruct i as [|[|i]].
  - destruct kd; [| |].
    + cbn in D. now inversion D.
    + contradiction.
    + destruct D as [[E _]|(x0 & x1 & w0 & w1 & E0 & E1 & E2 & E3 & ->)]; [cbn in E; lia|].
      cbn in E0, E1, E2, E3. inversion E0; inversion E1; inversion E2; inversion E3; subst. reflexivity.
  - cbn in Hx. inversion Hx; subst. lra.
  - cbn in Hx. specialize (S i x Hx). lra.
Qed.

Lemma is_RInt_affine a b y0 s : is_RInt (fun g => y0 + s * (g - a)) a b ((b - a) * (y0 + s * (b - a) / 2)).
Proof.
  replace ((b - a) * (y0 + s * (b - a) / 2))
    with (minus ((fun g => y0 * g + s * (g - a) ^ 2 / 2) b) ((fun g => y0 * g + s * (g - a) ^ 2 / 2) a)).
  - apply (is_RInt_derive (fun g => y0 * g + s * (g - a) ^ 2 / 2)).
    + intros x _. auto_derive; auto. field.
    + intros x _. apply continuity_pt_filterlim. reg.
  - unfold minus, plus, opp; cbn. field.
Qed.

Lemma rarea_integral kd xs : forall ys f x0 xn, kd <> Next ->
  StronglySorted Rle xs -> length xs = length ys ->
  nth_error xs 0 = Some x0 -> nth_error xs (length xs - 1) = Some xn ->
  (forall g, x0 <= g <= xn -> drawn kd xs ys g (f g)) ->
  is_RInt f x0 xn (rarea kd xs ys).
Proof.
  induction xs as [|a [|b l] IH]; intros ys f x0 xn K Hs L H0 Hn Hf; [discriminate| |].
  - cbn in H0, Hn. inversion H0; inversion Hn; subst. apply (@is_RInt_point R_NormedModule).
  - destruct ys as [|y0 [|y1 ys]]; try discriminate. inversion H0; subst x0.
    inversion Hs as [|? ? Hs' Fa]; subst. inversion Fa as [|? ? Lab _]; subst.
    assert (nth_error (b :: l) (length (b :: l) - 1) = Some xn) as Hn'.
    { replace (length (b :: l) - 1)%nat with (length l) by (cbn; lia). exact Hn. }
    assert (b <= xn) as Lbn.
    { apply nth_error_In in Hn'. destruct Hn' as [->|Hin]; [lra|]. inversion Hs' as [|? ? _ Fb]; subst.
      eapply Forall_forall in Fb; eauto. }
    assert (is_RInt f b xn (rarea kd (b :: l) (y1 :: ys))) as I2.
    { apply IH; auto. intros g Hg. apply drawn_tail with (a := a) (c := y0); auto; [lra|]. apply Hf. lra. }
    assert (is_RInt f a b ((b - a) * match kd with Previous => y0 | _ => (y0 + y1) / 2 end)) as I1.
    { destruct (Req_dec a b) as [->|Ne].
      - replace ((b - b) * _) with (@Hierarchy.zero R_NormedModule) by (unfold Hierarchy.zero; cbn; ring).
        apply is_RInt_point.
      - apply is_RInt_ext with (f := fun g => y0 + (match kd with Previous => 0 | _ => (y1 - y0) / (b - a) end) * (g - a)).
        + rewrite Rmin_left, Rmax_right by lra. intros g Hg.
          assert (drawn kd (a :: b :: l) (y0 :: y1 :: ys) g (f g)) as D by (apply Hf; lra).
          apply drawn_first in D; [|exact Hg|].
          * rewrite D. assert (y0 + 0 * (g - a) = y0) as Q by ring. destruct kd; auto; exact Q.
          * intros j x' Hj. apply nth_error_In in Hj. inversion Hs' as [|? ? _ Fb]; subst. eapply Forall_forall in Fb; eauto.
        + replace ((b - a) * match kd with Previous => y0 | _ => (y0 + y1) / 2 end)
            with ((b - a) * (y0 + (match kd with Previous => 0 | _ => (y1 - y0) / (b - a) end) * (b - a) / 2)).
          * apply is_RInt_affine.
          * destruct kd; field; lra. }
    change (rarea kd (a :: b :: l) (y0 :: y1 :: ys))
      with (@Hierarchy.plus R_AbelianGroup ((b - a) * match kd with Previous => y0 | _ => (y0 + y1) / 2 end) (rarea kd (b :: l) (y1 :: ys))).
    exact (@is_RInt_Chasles R_NormedModule f a b xn _ _ I1 I2).
Qed.

(** *** The model computes [rarea] *)

Lemma fold_nadd_cons (a : R) l acc : exists r, fold_left nadd (map Fin l) (Fin acc) = Fin r.
Proof. exists (acc + Rsum l). apply fold_xadd_fin. Qed.

Lemma area_previous_terms xs ys : length xs = length ys ->
  exists t, map2 nmul (removelast (map Fin ys)) (diff (map Fin xs)) = map Fin t /\ Rsum t = rarea Previous xs ys.
Proof.
  revert ys; induction xs as [|a [|b l] IH]; intros [|y0 [|y1 ys]] L; try discriminate;
    try (exists []; split; reflexivity).
  destruct (IH (y1 :: ys)) as (t & H1 & H2); [cbn [length] in *; lia|].
  exists (y0 * (b - a) :: t). split.
  - cbn [map] in *. rewrite diff_cons. change (removelast (Fin y0 :: Fin y1 :: map Fin ys)) with (Fin y0 :: removelast (Fin y1 :: map Fin ys)).
    cbn [map2]. rewrite H1. reflexivity.
  - rewrite Rsum_cons, H2. cbn [rarea]. ring.
Qed.

Lemma nansum_fin n l : nansum n (map Fin l) = Fin (Rsum l).
Proof.
  unfold nansum. rewrite row_sum_xr. rewrite <- nsum_fin. f_equal. rewrite map_map. reflexivity.
Qed.

Lemma area_linear_terms xs ys : length xs = length ys ->
  exists t, map2 (fun d s => ndiv (nmul d s) (nofZ 2)) (diff (map Fin xs))
              (map2 nadd (tl (map Fin ys)) (removelast (map Fin ys))) = map Fin t /\ Rsum t = rarea Linear xs ys.
Proof.
  revert ys; induction xs as [|a [|b l] IH]; intros [|y0 [|y1 ys]] L; try discriminate;
    try (exists []; split; reflexivity).
  destruct (IH (y1 :: ys)) as (t & H1 & H2); [cbn [length] in *; lia|].
  exists ((b - a) * (y1 + y0) / 2 :: t). split.
  - cbn [map] in *. rewrite diff_cons. change (removelast (Fin y0 :: Fin y1 :: map Fin ys)) with (Fin y0 :: removelast (Fin y1 :: map Fin ys)).
    cbn [tl] in *. cbn [map2]. rewrite H1.
    change (ndiv (nmul (nsub (Fin b) (Fin a)) (nadd (Fin y1) (Fin y0))) (nofZ 2))
      with (xdiv (Fin ((b - a) * (y1 + y0))) (Fin 2)).
    cbn [xdiv]. destruct (Reqb 2 0) eqn:E; [apply Reqb_spec in E; lra|]. reflexivity.
  - rewrite Rsum_cons, H2. cbn [rarea]. lra.
Qed.

Lemma existsb_nan_fin l : existsb nisnan (map Fin l) = false.
Proof. induction l; cbn; auto. Qed.

Lemma area_exact kd xs ys : kd <> Next -> length xs = length ys -> (2 <= length xs)%nat ->
  area (length xs) [(map Fin xs, map Fin ys)] kd = Ok [Fin (rarea kd xs ys)].
Proof.
  intros K L L2. unfold area. cbn [existsb forallb map fst snd].
  rewrite !existsb_nan_fin, !map_length, (proj2 (Nat.eqb_eq _ _) L), (proj2 (Nat.leb_le _ _) L2).
  cbn [orb andb negb py_assert bind]. destruct kd; [| contradiction |].
  - unfold area_previous. destruct (area_previous_terms xs ys L) as (t & -> & <-). rewrite nansum_fin. reflexivity.
  - unfold area_linear. destruct (area_linear_terms xs ys L) as (t & -> & <-). rewrite row_sum_xr, nsum_fin. reflexivity.
Qed.

(** *** interp1d draws [drawn] *)

Lemma Forall_fin l : Forall (fun x => nisfin x = true) (map Fin l).
Proof. induction l; constructor; auto. Qed.
Lemma sorted_fin l : StronglySorted Rle l -> StronglySorted le (map Fin l).
Proof.
  induction 1 as [|a l S IH F]; cbn [map]; constructor; auto. apply Forall_forall. intros x Hx.
  apply in_map_iff in Hx as (r & <- & Hr). eapply Forall_forall in F; eauto. now apply Rleb_spec.
Qed.

Lemma last_at_fin xs g i : last_at (map Fin xs) (Fin g) i <-> rlast xs g i.
Proof.
  unfold last_at, rlast. split.
  - intros (x & Hx & L & H). rewrite nth_error_map in Hx. destruct (nth_error xs i) as [r|]; [|discriminate].
    inversion Hx; subst. exists r. repeat split; auto. + now apply Rleb_spec.
    + intros j x' Lj Hj. specialize (H j (Fin x') Lj). rewrite nth_error_map, Hj in H. specialize (H eq_refl).
      now apply Rleb_false in H.
  - intros (x & Hx & L & H). exists (Fin x). rewrite nth_error_map, Hx. repeat split; auto. + now apply Rleb_spec.
    + intros j x' Lj Hj. rewrite nth_error_map in Hj. destruct (nth_error xs j) eqn:E; [|discriminate].
      inversion Hj; subst. apply Rleb_false. eapply H; eauto.
Qed.

Lemma interp1d_draws kd xs ys g x0 xn : kd <> Next -> StronglySorted Rle xs -> length xs = length ys ->
  (2 <= length xs)%nat -> nth_error xs 0 = Some x0 -> nth_error xs (length xs - 1) = Some xn ->
  x0 <= g <= xn ->
  exists v, _interp1d [Fin g] (map Fin xs) (map Fin ys) kd = Ok [Fin v] /\ drawn kd xs ys g v.
Proof.
  intros K Hs L L2 H0 Hn Hg.
  assert (exists x, In x (map Fin xs) /\ le x (Fin g)) as Ex.
  { exists (Fin x0). split; [apply in_map; eapply nth_error_In; eauto|apply Rleb_spec; lra]. }
  destruct kd; [| contradiction |].
  - destruct (interp1d_previous (map Fin xs) (map Fin ys) [Fin g]) as (out & E & F); auto using Forall_fin, sorted_fin.
    + now rewrite !map_length. + now rewrite map_length. + repeat constructor.
    + intros g' [<-|[]]. exact Ex.
    + inversion F as [|? v ? ? (i & Hi & Hv) F']; subst. inversion F'; subst. rewrite nth_error_map in Hv.
      destruct (nth_error ys i) as [w|] eqn:Ew; [|discriminate]. inversion Hv; subst.
      exists w. split; auto. exists i. split; auto. now apply last_at_fin.
  - unfold _interp1d. rewrite !map_length, (proj2 (Nat.eqb_eq _ _) L), (proj2 (Nat.leb_le _ _) L2).
    rewrite diff_sorted_nonneg by auto using Forall_fin, sorted_fin. cbn [py_assert bind mapM].
    unfold interp_linear. change 0%Z with (Z.of_nat 0).
    rewrite (py_index_nat _ 0 (Fin x0)) by now rewrite nth_error_map, H0. cbn [bind].
    rewrite (py_index_last _ (Fin xn)) by now rewrite map_length, nth_error_map, Hn. cbn [bind].
    assert (nltb (Fin g) (Fin x0) || nltb (Fin xn) (Fin g) = false) as ->.
    { apply orb_false_iff. split; apply Rltb_false; lra. }
    destruct (searchsorted_last (map Fin xs) (Fin g)) as (i & Hi & Ei); auto using sorted_fin.
    { apply fin_okl, Forall_fin. }
    unfold np_interp. cbn [nisnan xr_num xisnan]. rewrite Ei, map_length. apply last_at_fin in Hi.
    pose proof Hi as (x & Hx & Lx & Hl).
    assert (i < length xs)%nat as B by (apply nth_error_Some; congruence).
    destruct (nth_error ys i) as [y|] eqn:Ey; [|apply nth_error_None in Ey; lia].
    destruct (Z.of_nat i =? Z.of_nat (length xs) - 1)%Z eqn:C.
    + apply Z.eqb_eq in C. rewrite (py_index_nat _ i (Fin y)) by now rewrite nth_error_map, Ey. cbn [bind].
      exists y. split; auto. exists i. split; auto. left. split; auto. lia.
    + apply Z.eqb_neq in C. replace (Z.of_nat i + 1)%Z with (Z.of_nat (S i)) by lia.
      destruct (nth_error xs (S i)) as [x1|] eqn:Ex1; [|apply nth_error_None in Ex1; lia].
      destruct (nth_error ys (S i)) as [y1|] eqn:Ey1; [|apply nth_error_None in Ey1; lia].
      rewrite (py_index_nat _ i (Fin x)), (py_index_nat _ (S i) (Fin x1)), (py_index_nat _ i (Fin y)),
        (py_index_nat _ (S i) (Fin y1)) by (rewrite nth_error_map; first [rewrite Hx|rewrite Ex1|rewrite Ey|rewrite Ey1]; reflexivity).
      cbn [bind]. pose proof (Hl (S i) x1 ltac:(lia) Ex1) as Lx1.
      exists (y + (y1 - y) / (x1 - x) * (g - x)). split.
      * unfold ndiv, nsub, nmul, nadd; cbn [xr_num xsub xadd xopp xdiv].
        destruct (Reqb (x1 + - x) 0) eqn:Q; [apply Reqb_spec in Q; lra|]. cbn [xmul xadd]. do 3 f_equal. unfold Rminus, Rdiv. ring.
      * exists i. split; auto. right. exists x, x1, y, y1. auto.
Qed.
