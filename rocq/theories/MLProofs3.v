(** Bootstrap error bars, clipping and the mean, in exact arithmetic *)
From Coq Require Import Reals Lra Lia.
From Verif Require Import PyBase ListLemmas F64 Num NumOk Util UtilProofs BootUtil BootProofs BootProofs5 PerfCurves
  CurveProofs2 MLPaper MLProofs2 SumProofs.
Open Scope R_scope.

(** ** Means *)
Lemma Rsum_bounds l lo up : Forall (fun a => lo <= a <= up) l ->
  INR (length l) * lo <= Rsum l <= INR (length l) * up.
Proof.
  induction 1 as [|a l H _ IH]; [cbn [length INR]; change (Rsum []) with 0; lra|].
  cbn [length]. rewrite S_INR, Rsum_cons. lra.
Qed.
Lemma rmean_bounds l lo up : l <> [] -> Forall (fun a => lo <= a <= up) l -> lo <= rmean l <= up.
Proof.
  intros NE H. pose proof (len_pos l NE). pose proof (Rsum_bounds _ _ _ H). unfold rmean, Rdiv.
  split; apply (Rmult_le_reg_r (INR (length l))); try lra; rewrite Rmult_assoc, Rinv_l; lra.
Qed.

Definition hasP (x : list xr) : bool := existsb (fun a => match a with PInf => true | _ => false end) x.
Definition hasN (x : list xr) : bool := existsb (fun a => match a with NInf => true | _ => false end) x.

Lemma fold_nan x : fold_left xadd x NaN = NaN.
Proof. induction x; auto. Qed.
Lemma fold_P x : existsb nisnan x = false -> fold_left xadd x PInf = if hasN x then NaN else PInf.
Proof.
  induction x as [|[r| | |] x IH]; intros H; auto; try discriminate; cbn [fold_left xadd hasN existsb orb]; auto.
  apply fold_nan.
Qed.
Lemma fold_N x : existsb nisnan x = false -> fold_left xadd x NInf = if hasP x then NaN else NInf.
Proof.
  induction x as [|[r| | |] x IH]; intros H; auto; try discriminate; cbn [fold_left xadd hasP existsb orb]; auto.
  apply fold_nan.
Qed.
Lemma fold_Fin x : existsb nisnan x = false -> forall a, fold_left xadd x (Fin a) =
  if hasP x then (if hasN x then NaN else PInf) else if hasN x then NInf else Fin (a + Rsum (map (fun v => match v with Fin r => r | _ => 0 end) x)).
Proof.
  induction x as [|[r| | |] x IH]; intros H a; try discriminate.
  - cbn. f_equal. change (Rsum []) with 0. ring.
  - cbn [fold_left xadd map hasP hasN existsb orb]. rewrite IH by exact H. unfold hasP, hasN. rewrite Rsum_cons, Rplus_assoc. reflexivity.
  - cbn [fold_left xadd hasP hasN existsb orb]. rewrite fold_P by exact H. reflexivity.
  - cbn [fold_left xadd hasP hasN existsb orb]. rewrite fold_N by exact H. unfold hasP. destruct (existsb _ x); reflexivity.
Qed.

Lemma fin_list (x : list xr) : existsb nisnan x = false -> hasP x = false -> hasN x = false -> exists l, x = map Fin l.
Proof.
  induction x as [|[r| | |] x IH]; intros A B C; try discriminate; [exists []; reflexivity|].
  destruct (IH A B C) as [l ->]. exists (r :: l). reflexivity.
Qed.

Lemma nmean_cases (x : list xr) : x <> [] -> existsb nisnan x = false ->
  nmean x = if hasP x then (if hasN x then NaN else PInf) else if hasN x then NInf else
            Fin (rmean (map (fun v => match v with Fin r => r | _ => 0 end) x)).
Proof.
  intros NE H. unfold nmean. rewrite psum_xr. unfold nsum. change (@n0 xr xr_num) with (Fin 0). change (@nadd xr xr_num) with xadd.
  rewrite fold_Fin by exact H. cbn [ndiv nofZ xr_num].
  assert (0 < IZR (Z.of_nat (length x))) as P. { apply (IZR_lt 0). destruct x; [congruence|cbn [length]; lia]. }
  unfold rmean. rewrite map_length, INR_IZR_INZ.
  destruct (hasP x), (hasN x); try reflexivity.
  - unfold xdiv. destruct (Rltb (IZR (Z.of_nat (length x))) 0) eqn:E; [apply Rltb_spec in E; lra|reflexivity].
  - unfold xdiv. destruct (Rltb (IZR (Z.of_nat (length x))) 0) eqn:E; [apply Rltb_spec in E; lra|reflexivity].
  - rewrite xdiv_fin by lra. rewrite Rplus_0_l. reflexivity.
Qed.

(** The mean is not NaN exactly when infinities of one sign only occur, and
    then respects any limits on the data. *)
Definition tame (x : list xr) : bool := negb (existsb nisnan x) && negb (hasP x && hasN x).

Lemma nmean_nan (x : list xr) : x <> [] -> existsb nisnan x = false -> nisnan (nmean x) = hasP x && hasN x.
Proof. intros NE H. rewrite nmean_cases by auto. destruct (hasP x), (hasN x); reflexivity. Qed.

Lemma within_in (lo up : xr) x v : within lo up x = true -> In v x -> nleb lo v = true /\ nleb v up = true.
Proof. unfold within. rewrite andb_true_iff, !forallb_forall. intros [A B] H. split; [now apply A|now apply B]. Qed.

Lemma hasP_in x : hasP x = true <-> In PInf x.
Proof.
  unfold hasP. rewrite existsb_exists. split; [|intros H; exists PInf; auto].
  intros (v & H & E). destruct v; try discriminate. exact H.
Qed.
Lemma hasN_in x : hasN x = true <-> In NInf x.
Proof.
  unfold hasN. rewrite existsb_exists. split; [|intros H; exists NInf; auto].
  intros (v & H & E). destruct v; try discriminate. exact H.
Qed.

Lemma nmean_within (lo up : xr) x : x <> [] -> tame x = true -> within lo up x = true ->
  nleb lo (nmean x) = true /\ nleb (nmean x) up = true.
Proof.
  intros NE T W. unfold tame in T. apply andb_true_iff in T as [T1 T2]. apply negb_true_iff in T1. apply negb_true_iff in T2.
  rewrite nmean_cases by auto. destruct (hasP x) eqn:P.
  - cbn [andb] in T2. rewrite T2. exact (within_in lo up x _ W (proj1 (hasP_in x) P)).
  - destruct (hasN x) eqn:N.
    + exact (within_in lo up x _ W (proj1 (hasN_in x) N)).
    + destruct (fin_list x T1 P N) as [l ->]. rewrite map_map, map_id.
      assert (l <> []) as NEl by (destruct l; [cbn in NE; congruence|discriminate]).
      assert (nisnan lo = false /\ nisnan up = false) as [Nl Nu].
      { destruct l as [|a l]; [congruence|]. destruct (within_in lo up _ (Fin a) W ltac:(left; reflexivity)) as [A B].
        destruct lo, up; try discriminate; auto. }
      split.
      * destruct lo as [r| | |]; try discriminate; [|exfalso|reflexivity].
        -- cbn [nleb xr_num xleb]. apply Rleb_spec. pose proof (len_pos l NEl).
           assert (Forall (fun a => r <= a <= Rmax r (fold_right Rmax r l)) l) as B.
           { apply Forall_forall. intros a Ha. split.
             - destruct (within_in _ _ _ (Fin a) W (in_map Fin _ _ Ha)) as [A _]. cbn in A. now apply Rleb_spec in A.
             - apply Rle_trans with (2 := Rmax_r _ _). clear -Ha. induction l as [|b l IH]; [destruct Ha|].
               destruct Ha as [<-|Ha]; [apply Rmax_l|]. apply Rle_trans with (2 := Rmax_r _ _). auto. }
           apply (rmean_bounds l _ _ NEl B).
        -- destruct l as [|a l]; [congruence|]. destruct (within_in _ _ _ (Fin a) W ltac:(left; reflexivity)) as [A _]. discriminate A.
      * destruct up as [r| | |]; try discriminate; [|reflexivity|exfalso].
        -- cbn [nleb xr_num xleb]. apply Rleb_spec. pose proof (len_pos l NEl).
           assert (Forall (fun a => Rmin r (fold_right Rmin r l) <= a <= r) l) as B.
           { apply Forall_forall. intros a Ha. split.
             - apply Rle_trans with (1 := Rmin_r _ _). clear -Ha. induction l as [|b l IH]; [destruct Ha|].
               destruct Ha as [<-|Ha]; [apply Rmin_l|]. apply Rle_trans with (1 := Rmin_r _ _). auto.
             - destruct (within_in _ _ _ (Fin a) W (in_map Fin _ _ Ha)) as [_ A]. cbn in A. now apply Rleb_spec in A. }
           apply (rmean_bounds l _ _ NEl B).
        -- destruct l as [|a l]; [congruence|]. destruct (within_in _ _ _ (Fin a) W ltac:(left; reflexivity)) as [_ A]. discriminate A.
Qed.

Lemma xle_not_lt (a b : xr) : nleb a b = true -> nltb b a = false.
Proof.
  destruct a, b; try discriminate; try reflexivity. cbn [nleb nltb xr_num xleb xltb]. intros H. apply Rleb_spec in H.
  now apply Rltb_false.
Qed.
Lemma xeq_refl (a : xr) : nisnan a = false -> neqb a a = true.
Proof. destruct a; try discriminate; try reflexivity. intros _. cbn. now apply Reqb_spec. Qed.

Lemma clip_chk_inside (m lo up : xr) : nleb lo m = true -> nleb m up = true -> clip_chk isclose m lo up = Ok m.
Proof.
  intros A B. unfold clip_chk, nclip. rewrite (xle_not_lt _ _ A), (xle_not_lt _ _ B), xeq_refl; [reflexivity|].
  destruct m; auto; destruct lo; discriminate.
Qed.
Lemma clip_chk_nan (lo up : xr) : clip_chk isclose NaN lo up = Err AssertionError.
Proof. unfold clip_chk, nclip. destruct lo, up; reflexivity. Qed.

(** ** clip_EB: the internal assertion never fires *)
Definition xtrivial (mu lower upper : xr) : xr := nfmax (nsub upper mu) (nsub mu lower).

Lemma clip_EB_exact (mu EB lower upper min_EB : xr) :
  nleb n0 (nsub upper lower) = true -> nleb n0 min_EB = true -> nisfin min_EB = true -> nisnan mu = false ->
  clip_EB mu EB lower upper min_EB =
    if nltb mu lower || nltb upper mu then Err ValueError else
    if nltb (nsub upper lower) (nmul (nofZ 2) min_EB) then Err ValueError else
    Ok (nclip EB min_EB (xtrivial mu lower upper)).
Proof.
  intros A B C M. unfold clip_EB. rewrite A, B. destruct min_EB as [m| | |]; try discriminate. cbn [nltb ninf xr_num xltb andb py_assert bind].
  destruct (xltb mu lower || xltb upper mu) eqn:E1; [reflexivity|]. apply orb_false_iff in E1 as [L U].
  destruct (xltb (nsub upper lower) (nmul (nofZ 2) (Fin m))) eqn:E2; [reflexivity|].
  fold (xtrivial mu lower upper).
  assert (xltb (xtrivial mu lower upper) (Fin m) = false) as ->; [|reflexivity].
  unfold xtrivial, nfmax. cbn [nleb nisnan nsub nmul nofZ xr_num] in *. apply Rleb_spec in B || cbn [xleb] in B.
  destruct upper as [u| | |], lower as [l| | |], mu as [v| | |]; try discriminate; try reflexivity;
    cbn [xsub xadd xopp xltb xleb xmul xisnan orb] in *; try reflexivity.
  apply Rltb_false in L. apply Rltb_false in U. apply Rltb_false in E2. cbn [xltb] in *.
  destruct (Rleb (v + - l) (u + - v)) eqn:Q; cbn [orb]; apply Rltb_false.
  - apply Rleb_spec in Q. lra.
  - apply Rleb_false in Q. lra.
Qed.

Lemma clip_EB_total (mu EB lower upper : xr) :
  nleb n0 (nsub upper lower) = true -> nleb lower mu = true -> nleb mu upper = true ->
  clip_EB mu EB lower upper n0 = Ok (nclip EB n0 (xtrivial mu lower upper)).
Proof.
  intros A L U. rewrite clip_EB_exact; auto.
  - rewrite (xle_not_lt _ _ L), (xle_not_lt _ _ U). cbn [orb].
    rewrite (xle_not_lt (nmul (nofZ 2) n0) (nsub upper lower)); [reflexivity|]. cbn [nmul nofZ n0 xr_num xmul].
    rewrite Rmult_0_r. exact A.
  - cbn. now apply Rleb_spec, Rle_refl.
  - destruct mu; auto; destruct lower; discriminate.
Qed.

(** ** Bootstrap *)
Definition boot_means (l : list R) (counts : list (list Z)) : list R := map (fun k => rmean (resampled l k)) counts.

Lemma resampled_in {A} (l : list A) k a : In a (resampled l k) -> In a l.
Proof.
  unfold resampled. rewrite in_concat. intros (r & H & Ha). apply in_map_iff in H as ([b z] & <- & H).
  apply repeat_spec in Ha. cbn [fst] in Ha. subst. now apply in_combine_l in H.
Qed.

Lemma boot_means_ok l n_boot counts :
  l <> [] -> multinomial_outcome (Z.of_nat (length l)) n_boot counts -> (1 <= n_boot)%Z ->
  bind (boot_weights counts (Z.of_nat (length l)) n_boot (Fin 0)) (fun w => Ok (map (weighted_mean (map Fin l)) w)) =
    Ok (map Fin (boot_means l counts)) /\
  Forall (fun k => resampled l k <> []) counts.
Proof.
  intros NE (Hl & Hm) NB. unfold boot_weights.
  assert ((1 <=? Z.of_nat (length l)) = true)%Z as -> by (destruct l; [congruence|cbn [length]; apply Z.leb_le; lia]).
  assert ((1 <=? n_boot) = true)%Z as -> by (apply Z.leb_le; lia). cbn [py_assert bind].
  assert (forall k, In k counts -> resampled l k <> [] /\
     weighted_mean (map Fin l) (map (fun z => nmax (Fin 0) (nofZ z)) k) = Fin (rmean (resampled l k))) as K.
  { intros k Hk. rewrite Forall_forall in Hm. destruct (Hm k Hk) as (L & P & S).
    assert (map (fun z => nmax (Fin 0) (nofZ z)) k = map Fin (map IZR k)) as E.
    { rewrite map_map. apply map_ext_in. intros z Hz. rewrite Forall_forall in P. specialize (P z Hz).
      unfold nmax. cbn [nleb nofZ nisnan xr_num xleb xisnan]. rewrite orb_false_r. destruct (Rleb (IZR z) 0) eqn:Q; auto.
      apply Rleb_spec in Q. apply le_IZR in Q. assert (z = 0%Z) as -> by lia. reflexivity. }
    assert (length l = length k) as Lk by lia.
    pose proof (resampled_length l k Lk P) as RL. rewrite S in RL.
    assert (resampled l k <> []) as NR. { intros Q. rewrite Q in RL. destruct l; [congruence|cbn [length] in RL; lia]. }
    split; [exact NR|]. rewrite E. unfold weighted_mean. rewrite map2_fin, nmean_fin.
    - rewrite resampled_sum by auto. unfold rmean. do 3 f_equal. rewrite map2_length, map_length. lia.
    - intros Q. apply (f_equal (@length R)) in Q. rewrite map2_length, map_length in Q. destruct l; [congruence|]. cbn [length] in *. lia. }
  split.
  - f_equal. unfold boot_means. rewrite !map_map. apply map_ext_in. intros k Hk. now apply K.
  - apply Forall_forall. intros k Hk. now apply K.
Qed.

Lemma boot_means_range l counts lo up : Forall (fun a => lo <= a <= up) l ->
  Forall (fun k => resampled l k <> []) counts -> Forall (fun m => lo <= m <= up) (boot_means l counts).
Proof.
  intros B H. apply Forall_forall. intros m Hm. unfold boot_means in Hm. apply in_map_iff in Hm as (k & <- & Hk).
  rewrite Forall_forall in H. apply rmean_bounds; [now apply H|]. apply Forall_forall. intros a Ha.
  rewrite Forall_forall in B. apply B. now apply resampled_in in Ha.
Qed.

Lemma okl_fin l : okl (map Fin l).
Proof. apply Forall_forall. intros v Hv. apply in_map_iff in Hv as (r & <- & _). reflexivity. Qed.

Section Boot.
Context {FT : fn xr}.
Context (l : list R) (n_boot : Z) (counts : list (list Z)).
Hypothesis (L2 : (2 <= length l)%nat) (MO : multinomial_outcome (Z.of_nat (length l)) n_boot counts) (NB : (1 <= n_boot)%Z).

Lemma l_ne : l <> []. Proof. intros E. rewrite E in L2. cbn in L2. lia. Qed.
Lemma counts_ne : boot_means l counts <> [].
Proof. destruct MO as [E _]. destruct counts; [cbn in E; lia|discriminate]. Qed.

Lemma boot_core (rE rT rC : bool) (c : xr) :
  _boot_EB_and_test counts (map Fin l) c n_boot rE rT rC =
    do pval <- (if rT then significance (map Fin (boot_means l counts)) (Scalar (Fin 0)) else Ok (Fin 1));
    do EB <- (if rE then error_bar (map Fin (boot_means l counts)) (Fin (rmean l)) c else Ok PInf);
    do CI <- (if rC then percentile (map Fin (boot_means l counts)) c else Ok (NInf, PInf));
    Ok (EB, pval, CI).
Proof.
  unfold _boot_EB_and_test. rewrite no_nan, (not_degenerate l L2), map_length. cbn [negb py_assert bind].
  destruct (boot_means_ok l n_boot counts l_ne MO NB) as [E _]. cbn [n0 xr_num].
  destruct (boot_weights counts (Z.of_nat (length l)) n_boot (Fin 0)) as [w|]; [|discriminate].
  cbn [bind] in *. apply Ok_inj in E. rewrite E, (nmean_r l l_ne). reflexivity.
Qed.

Lemma boot_sig : exists p, significance (map Fin (boot_means l counts)) (Scalar (Fin 0)) = Ok (Fin p) /\ 0 <= p <= 1.
Proof.
  apply significance_xr; [apply okl_fin| |].
  - intros E. apply counts_ne. now apply map_eq_nil in E.
  - unfold ref_ok. cbn [ref_values]. split; [|apply repeat_length].
    apply Forall_forall. intros v Hv. apply repeat_spec in Hv. subst. reflexivity.
Qed.

Lemma boot_bar c : 0 < c < 1 -> exists e, error_bar (map Fin (boot_means l counts)) (Fin (rmean l)) (Fin c) = Ok (Fin e) /\ 0 <= e /\
  exists lb ub, In lb (boot_means l counts) /\ In ub (boot_means l counts) /\
    percentile (map Fin (boot_means l counts)) (Fin c) = Ok (Fin lb, Fin ub) /\ e = Rmax (ub - rmean l) (rmean l - lb).
Proof.
  intros C.
  assert (map Fin (boot_means l counts) <> []) as NE by (intros E; apply counts_ne; now apply map_eq_nil in E).
  destruct (percentile_xr _ c (okl_fin (boot_means l counts)) NE C) as (lb & ub & P & I1 & I2 & Le).
  apply in_map_iff in I1 as (lb' & <- & I1). apply in_map_iff in I2 as (ub' & <- & I2).
  cbn [nleb xr_num xleb] in Le. apply Rleb_spec in Le.
  unfold error_bar. rewrite P. cbn [bind fst snd nsub xr_num xsub xadd xopp].
  unfold nfmax. cbn [nleb nisnan xr_num xleb xisnan]. rewrite orb_false_r.
  assert ((if Rleb (rmean l + - lb') (ub' + - rmean l) then Fin (ub' + - rmean l) else Fin (rmean l + - lb')) =
          Fin (Rmax (ub' - rmean l) (rmean l - lb'))) as ->.
  { destruct (Rleb (rmean l + - lb') (ub' + - rmean l)) eqn:Q.
    - apply Rleb_spec in Q. rewrite Rmax_left by lra. reflexivity.
    - apply Rleb_false in Q. rewrite Rmax_right by lra. reflexivity. }
  assert (0 <= Rmax (ub' - rmean l) (rmean l - lb')) as Pos. { unfold Rmax. destruct (Rle_dec _ _); lra. }
  cbn [nltb n0 xr_num xltb]. assert (Rltb (Rmax (ub' - rmean l) (rmean l - lb')) 0 = false) as -> by (apply Rltb_false; exact Pos).
  cbn. exists (Rmax (ub' - rmean l) (rmean l - lb')). split; [reflexivity|]. split; [exact Pos|].
  exists lb', ub'. auto.
Qed.

Lemma boot_EB_form c : 0 < c < 1 -> exists e, boot_EB counts (map Fin l) (Fin c) n_boot = Ok (Fin e) /\ 0 <= e /\
  error_bar (map Fin (boot_means l counts)) (Fin (rmean l)) (Fin c) = Ok (Fin e).
Proof.
  intros C. destruct (boot_bar c C) as (e & E & P & _). exists e. split; [|auto].
  unfold boot_EB. rewrite boot_core, E. cbn [bind fst snd nleb n0 xr_num xleb].
  rewrite (proj2 (Rleb_spec 0 e) P). reflexivity.
Qed.

Lemma boot_test_form : exists p, boot_test counts (map Fin l) n_boot = Ok (Fin p) /\ 0 <= p <= 1 /\
  significance (map Fin (boot_means l counts)) (Scalar (Fin 0)) = Ok (Fin p).
Proof.
  destruct boot_sig as (p & E & P). exists p. split; [|auto].
  unfold boot_test. rewrite boot_core, E. cbn [bind fst snd nleb n0 n1 xr_num xleb].
  rewrite (proj2 (Rleb_spec 0 p)), (proj2 (Rleb_spec p 1)) by lra. reflexivity.
Qed.
End Boot.

(** ** Increasing maps commute with the bootstrap interval *)
Definition xaff (k s : R) (v : xr) : xr := match v with Fin r => Fin (k * r + s) | _ => v end.

Section Aff.
Context (k s : R) (K : 0 < k).

Lemma xaff_leb a b : nleb (xaff k s a) (xaff k s b) = nleb a b.
Proof.
  destruct a as [a| | |], b as [b| | |]; try reflexivity. cbn [xaff nleb xr_num xleb].
  destruct (Rleb a b) eqn:E.
  - apply Rleb_spec. apply Rleb_spec in E. pose proof (Rmult_le_compat_l k a b ltac:(lra) E). lra.
  - apply Rleb_false. apply Rleb_false in E. pose proof (Rmult_lt_compat_l k b a K E). lra.
Qed.
Lemma xaff_insert a l : insert (xaff k s a) (map (xaff k s) l) = map (xaff k s) (insert a l).
Proof.
  induction l as [|b l IH]; [reflexivity|]. cbn [map insert]. rewrite xaff_leb. destruct (nleb a b); [reflexivity|].
  cbn [map]. now rewrite IH.
Qed.
Lemma xaff_sort l : sort (map (xaff k s) l) = map (xaff k s) (sort l).
Proof. induction l as [|a l IH]; [reflexivity|]. cbn [map sort]. rewrite IH. apply xaff_insert. Qed.

Lemma py_index_map {A B} (g : A -> B) l i : py_index (map g l) i = bind (py_index l i) (fun a => Ok (g a)).
Proof.
  unfold py_index. rewrite map_length. repeat (destruct (_ <? _)%Z; try reflexivity).
  all: rewrite ?nth_error_map; try (destruct (nth_error l _); reflexivity); reflexivity.
Qed.

Lemma xaff_nan l : existsb nisnan (map (xaff k s) l) = existsb nisnan l.
Proof. induction l as [|[r| | |] l IH]; cbn [map existsb xaff]; rewrite ?IH; reflexivity. Qed.

Lemma percentile_aff b c lb ub : percentile b c = Ok (lb, ub) ->
  percentile (map (xaff k s) b) c = Ok (xaff k s lb, xaff k s ub).
Proof.
  unfold percentile. rewrite xaff_nan. destruct (existsb nisnan b); [discriminate|]. cbn [negb py_assert bind].
  destruct (confidence_to_percentiles c) as [p|]; [|discriminate]. cbn [bind]. unfold np_percentile. rewrite xaff_sort, map_length.
  destruct (nltb (ndiv (fst p) (nofZ 100)) n0 || nltb n1 (ndiv (fst p) (nofZ 100))); [discriminate|].
  destruct (nltb (ndiv (snd p) (nofZ 100)) n0 || nltb n1 (ndiv (snd p) (nofZ 100))).
  { destruct (py_index (sort b) _); discriminate. }
  rewrite !py_index_map. destruct (py_index (sort b) _) as [l1|]; [|discriminate]. cbn [bind].
  destruct (py_index (sort b) _) as [u1|]; [|discriminate]. cbn [bind]. intros H. apply Ok_inj in H. injection H as -> ->. reflexivity.
Qed.
End Aff.

Lemma affine_resampled k s l c : resampled (affine k s l) c = affine k s (resampled l c).
Proof.
  unfold resampled, affine. rewrite concat_map, !map_map. f_equal. revert c.
  induction l as [|a l IH]; intros [|z c]; try reflexivity. cbn [map combine fst snd]. rewrite IH. f_equal.
  induction (Z.to_nat z); [reflexivity|]. cbn [repeat map]. now rewrite IHn.
Qed.
Lemma boot_means_affine k s l counts : Forall (fun c => resampled l c <> []) counts ->
  boot_means (affine k s l) counts = affine k s (boot_means l counts).
Proof.
  intros H. unfold boot_means. unfold affine at 2. rewrite map_map. apply map_ext_in. intros c Hc.
  rewrite affine_resampled, rmean_affine; [reflexivity|]. rewrite Forall_forall in H. now apply H.
Qed.
