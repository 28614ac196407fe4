(** Exact arithmetic: recall-precision and precision-recall-gain curves,
    single-class data, integer weights. *)
From Coq Require Import Reals Lra Permutation Sorted.
From Verif Require Import PyBase F64 Num NumOk Util UtilProofs ListLemmas UtilProofs2 UtilProofs3 PerfCurves PerfProofs PerfProofs2 PerfProofs3 PerfProofs4 Spec_Curves SumProofs.
Open Scope R_scope.

(** ** Values at a threshold that occurs among the scores *)
Lemma w_ge_pos s y w t : vrow s y w -> In t s -> 0 < w_ge true t s y w + w_ge false t s y w.
Proof.
  intros (L1 & L2 & Ne & W) I. apply In_nth_error in I as [i Hi].
  destruct (nth_error y i) as [b|] eqn:Hb.
  2:{ apply nth_error_None in Hb. assert (i < length s)%nat by (apply nth_error_Some; congruence). lia. }
  pose proof (w_ge_nonneg true t s y w W). pose proof (w_ge_nonneg false t s y w W).
  assert (0 < w_ge b t s y w).
  { eapply wt_pos; eauto. rewrite eqb_reflx. cbn. apply Rleb_spec. lra. }
  destruct b; lra.
Qed.

Lemma values_pos s y w t : vrow s y w -> In t s -> 0 < tpv t s y w + fpv t s y w.
Proof.
  intros V I. pose proof (w_ge_pos s y w t V I) as P. destruct V as (L1 & L2 & Ne & W).
  unfold tpv, fpv. pose proof eps_pos. pose proof (w_ge_nonneg true t s y w W). pose proof (w_ge_nonneg false t s y w W).
  destruct (existsb (fun b => b) y) eqn:E1, (existsb negb y) eqn:E2.
  - lra.
  - rewrite (w_ge_zero false t s y w) in P by (intros H'; apply has_neg in H'; congruence).
    pose proof (Rmult_lt_0_compat eps (w_ge true t s y w)). lra.
  - rewrite (w_ge_zero true t s y w) in P by (intros H'; apply has_pos in H'; congruence).
    pose proof (Rmult_lt_0_compat eps (w_ge false t s y w)). lra.
  - destruct (some_label y) as [H'|H']; [destruct s, y; cbn in *; congruence| |];
      [apply has_pos in H'|apply has_neg in H']; congruence.
Qed.

Lemma D_in s t : In t (D s) -> In t s.
Proof. apply D_spec. Qed.

Lemma values_range s y w t : vrow s y w -> In t (D s) ->
  0 <= tpv t s y w <= n_pos s y w /\ 0 <= fpv t s y w <= n_neg s y w.
Proof.
  intros (L1 & L2 & Ne & W) I. apply D_in in I. pose proof (D_last_min s 0 t I) as M.
  pose proof (tpv_mono t (last (D s) 0) s y w W M). pose proof (fpv_mono t (last (D s) 0) s y w W M).
  assert (tpv (last (D s) 0) s y w = n_pos s y w) as E1 by (unfold tpv, n_pos; now rewrite !w_ge_last).
  assert (fpv (last (D s) 0) s y w = n_neg s y w) as E2 by (unfold fpv, n_neg; now rewrite !w_ge_last).
  lra.
Qed.

(** ** Recall-precision *)
Definition prc s y w (t : R) : R := tpv t s y w / (tpv t s y w + fpv t s y w).
Definition pcol s y w : list R := prc s y w (hd 0 (D s)) :: map (prc s y w) (D s).

Lemma prc_range s y w t : vrow s y w -> In t (D s) -> 0 <= prc s y w t <= 1.
Proof.
  intros V I. pose proof (values_pos s y w t V (D_in s t I)). destruct (values_range s y w t V I) as [[T1 T2] [F1 F2]].
  unfold prc. split.
  - apply Rmult_le_pos; auto. apply Rlt_le, Rinv_0_lt_compat. auto.
  - apply (Rmult_le_reg_r (tpv t s y w + fpv t s y w)); auto. unfold Rdiv. rewrite Rmult_assoc, Rinv_l; lra.
Qed.

Lemma map2_same {A B C E} (f : B -> C -> E) (g : A -> B) (h : A -> C) l :
  map2 f (map g l) (map h l) = map (fun a => f (g a) (h a)) l.
Proof. induction l; cbn; auto. now f_equal. Qed.

Lemma xdiv_ne a b : b <> 0 -> xdiv (Fin a) (Fin b) = Fin (a / b).
Proof. intros N. cbn. destruct (Reqb b 0) eqn:E; auto. apply Reqb_spec in E. contradiction. Qed.

Lemma precision_fin s y w : vrow s y w ->
  back_fill (map2 (fun t f => ndiv t (nadd t f)) (map Fin (tcol s y w)) (map Fin (fcol s y w))) = map Fin (pcol s y w).
Proof.
  intros V. assert (D s <> []) as Nd by (apply D_nonempty, V). unfold tcol, fcol. rewrite !fin_col. cbn [map2].
  rewrite map2_same. rewrite (map_ext_in _ (fun t => Fin (prc s y w t))).
  2:{ intros t Ht. cbn [ndiv nadd xr_num xadd]. rewrite xdiv_ne; auto. pose proof (values_pos s y w t V (D_in s t Ht)). lra. }
  unfold pcol. destruct (D s) as [|d l] eqn:E; [congruence|]. cbn [map back_fill hd]. now rewrite map_map.
Qed.

Lemma pcol_range s y w x : vrow s y w -> In x (pcol s y w) -> 0 <= x <= 1.
Proof.
  intros V. assert (D s <> []) as Nd by (apply D_nonempty, V). intros [<-|I].
  - apply prc_range; auto. destruct (D s); [congruence|now left].
  - apply in_map_iff in I as (t & <- & I). now apply prc_range.
Qed.

Theorem rp_exact s y sw : valid_input s y sw ->
  recall_precision_curve y (map Fin s) (option_map (map (map Fin)) sw) =
  Ok ((map (fun w => (map Fin (tpr s y w), map Fin (pcol s y w))) (weight_rows sw (length y)), Previous), PInf :: map Fin (D s)).
Proof.
  intros V. unfold recall_precision_curve. rewrite clf_exact by auto. cbn [bind]. rewrite map2_same, !map_map.
  rewrite (map_ext_in (fun w => div_last (map Fin (tcol s y w))) (fun w => map Fin (tpr s y w)))
    by (intros w Hw; apply tcol_div; eapply weight_rows_ok; eauto).
  rewrite (map_ext_in _ (fun w => map Fin (pcol s y w))) by (intros w Hw; apply precision_fin; eapply weight_rows_ok; eauto).
  assert (forall w, In w (weight_rows sw (length y)) -> vrow s y w) as HV by (intros; eapply weight_rows_ok; eauto).
  rewrite (proj2 (forallb_forall _ _)).
  2:{ intros r Hr. apply in_map_iff in Hr as (w & <- & Hw). apply forallb_forall. intros x Hx. apply in_map_iff in Hx as (z & <- & Hz).
      cbn. apply Rleb_spec. eapply pcol_range; eauto. }
  rewrite (proj2 (forallb_forall _ _)).
  2:{ intros r Hr. apply in_map_iff in Hr as (w & <- & Hw). apply forallb_forall. intros x Hx. apply in_map_iff in Hx as (z & <- & Hz).
      cbn. apply Rleb_spec. eapply pcol_range; eauto. }
  cbn [andb py_assert bind]. now rewrite combine_map_same.
Qed.

Lemma pcol_last s y w : vrow s y w -> last (pcol s y w) 0 = n_pos s y w / (n_pos s y w + n_neg s y w).
Proof.
  intros V. assert (D s <> []) as Nd by (apply D_nonempty, V). unfold pcol.
  rewrite last_cons_ne by (destruct (D s); [congruence|discriminate]).
  rewrite (last_map (prc s y w) (D s) 0 0 Nd). unfold prc.
  destruct V as (L1 & L2 & Ne & W).
  assert (tpv (last (D s) 0) s y w = n_pos s y w) as E1 by (unfold tpv, n_pos; now rewrite !w_ge_last).
  assert (fpv (last (D s) 0) s y w = n_neg s y w) as E2 by (unfold fpv, n_neg; now rewrite !w_ge_last).
  now rewrite E1, E2.
Qed.

(** The area under a step function between 0 and 1 on [0, 1]. *)
Lemma rarea_prev_range xs ys x0 lo hi : StronglySorted Rle xs -> hd x0 xs = x0 -> length xs = length ys -> xs <> [] ->
  (forall y, In y ys -> lo <= y <= hi) ->
  lo * (last xs 0 - x0) <= rarea Previous xs ys <= hi * (last xs 0 - x0).
Proof.
  revert ys x0; induction xs as [|a [|b xs] IH]; intros ys x0 S H L N F; [congruence| |].
  - destruct ys as [|y0 [|]]; try discriminate. cbn in H. subst. cbn [rarea last]. lra.
  - destruct ys as [|y0 [|y1 ys]]; try discriminate. cbn [hd] in H. subst a. rewrite rarea_cons.
    inversion S as [|? ? S' Fa]; subst. inversion Fa as [|? ? Hab _]; subst.
    rewrite last_cons_ne by discriminate.
    specialize (IH (y1 :: ys) b S' eq_refl ltac:(cbn in *; lia) ltac:(discriminate) (fun z Hz => F z (or_intror Hz))).
    specialize (F y0 (or_introl eq_refl)).
    assert (lo * (b - x0) <= (b - x0) * y0 <= hi * (b - x0)).
    { split; [rewrite Rmult_comm|rewrite (Rmult_comm hi)]; apply Rmult_le_compat_l; lra. }
    lra.
Qed.

Lemma rp_area_range s y w : vrow s y w -> 0 <= rarea Previous (tpr s y w) (pcol s y w) <= 1.
Proof.
  intros V. destruct (roc_shape s y w V) as (_ & S & _ & H0 & _ & H1 & _ & L).
  assert (hd 0 (tpr s y w) = 0) as Hh by (unfold tpr in *; cbn in *; auto).
  pose proof (rarea_prev_range (tpr s y w) (pcol s y w) 0 0 1 S Hh) as R. rewrite H1 in R.
  destruct R as [R1 R2].
  - rewrite L. unfold pcol. cbn. now rewrite map_length.
  - unfold tpr, tcol. discriminate.
  - intros z. now apply pcol_range.
  - lra.
Qed.

(** ** Precision-recall-gain *)
(** recall gain before and after clipping at 0, and precision gain *)
Definition rgain s y w (tp : R) : R := 1 - n_pos s y w * (n_pos s y w - tp) / (n_neg s y w * tp).
Definition recg s y w (t : R) : R := if Reqb (tpv t s y w) 0 then 0 else Rmax 0 (rgain s y w (tpv t s y w)).
Definition precg s y w (t : R) : xr :=
  if Reqb (tpv t s y w) 0 then NInf else Fin (1 - n_pos s y w * fpv t s y w / (n_neg s y w * tpv t s y w)).
Definition rgcol s y w : list R := 0 :: map (recg s y w) (D s).
Definition pgcol s y w : list xr := precg s y w (hd 0 (D s)) :: map (precg s y w) (D s).

Definition rawg s y w (t : R) : xr := if Reqb (tpv t s y w) 0 then NInf else Fin (rgain s y w (tpv t s y w)).

Lemma xdiv_zero a : 0 < a -> xdiv (Fin a) (Fin 0) = PInf.
Proof.
  intros P. cbn. rewrite (proj2 (Reqb_spec 0 0) eq_refl). rewrite (proj2 (Reqb_false_iff a 0)) by lra.
  now rewrite (proj2 (Rltb_spec 0 a) P).
Qed.

Lemma gain_row_fin s y w : vrow s y w ->
  gain_row (map Fin (fcol s y w)) (map Fin (tcol s y w)) = (NInf :: map (rawg s y w) (D s), pgcol s y w).
Proof.
  intros V. assert (D s <> []) as Nd by (apply D_nonempty, V). pose proof (vrow_neg _ _ _ V) as Hn. pose proof (vrow_pos _ _ _ V) as Hp.
  unfold gain_row. rewrite !lastn_fin by discriminate. rewrite fcol_last, tcol_last by apply V.
  unfold tcol, fcol. rewrite !fin_col. cbn [map map2]. rewrite !map_map.
  change (fun x : R => nsub (Fin (n_pos s y w)) (Fin (tpv x s y w))) with (fun x => Fin (n_pos s y w + - tpv x s y w)).
  change (fun x : R => nmul (Fin (n_neg s y w)) (Fin (tpv x s y w))) with (fun x => Fin (n_neg s y w * tpv x s y w)).
  rewrite !map2_same.
  change (nmul (Fin (n_neg s y w)) (Fin 0)) with (Fin (n_neg s y w * 0)). rewrite Rmult_0_r.
  change (nmul (Fin (n_pos s y w)) (nsub (Fin (n_pos s y w)) (Fin 0))) with (Fin (n_pos s y w * (n_pos s y w + - 0))).
  cbn [ndiv xr_num]. rewrite xdiv_zero by (rewrite Ropp_0, Rplus_0_r; now apply Rmult_lt_0_compat).
  f_equal.
  - change (nsub n1 PInf) with NInf. f_equal. apply map_ext_in. intros t Ht.
    cbn [nmul xr_num xmul]. unfold rawg. destruct (Reqb (tpv t s y w) 0) eqn:E.
    + apply Reqb_spec in E. rewrite E, Rmult_0_r, Ropp_0, Rplus_0_r. rewrite xdiv_zero by now apply Rmult_lt_0_compat. reflexivity.
    + apply Reqb_false_iff in E. rewrite xdiv_ne by (apply Rmult_integral_contrapositive; lra). reflexivity.
  - rewrite (map_ext_in _ (precg s y w)).
    + unfold pgcol. destruct (D s) as [|d l] eqn:E; [congruence|]. reflexivity.
    + intros t Ht. cbn [nmul xr_num xmul]. unfold precg. destruct (Reqb (tpv t s y w) 0) eqn:E.
      * apply Reqb_spec in E. pose proof (values_pos s y w t V (D_in s t Ht)) as P. rewrite E in *.
        rewrite Rmult_0_r. rewrite xdiv_zero by (apply Rmult_lt_0_compat; lra). reflexivity.
      * apply Reqb_false_iff in E. rewrite xdiv_ne by (apply Rmult_integral_contrapositive; lra). reflexivity.
Qed.

Lemma rgain_mono s y w a b : vrow s y w -> 0 < a -> a <= b -> rgain s y w a <= rgain s y w b.
Proof.
  intros V Ha Hab. pose proof (vrow_neg _ _ _ V) as Hn. pose proof (vrow_pos _ _ _ V) as Hp. unfold rgain.
  set (P := n_pos s y w) in *. set (N := n_neg s y w) in *.
  assert (P * (P - b) / (N * b) <= P * (P - a) / (N * a)); [|lra].
  replace (P * (P - b) / (N * b)) with (P / N * (P / b - 1)) by (field; lra).
  replace (P * (P - a) / (N * a)) with (P / N * (P / a - 1)) by (field; lra).
  apply Rmult_le_compat_l; [apply Rlt_le, Rdiv_lt_0_compat; auto|].
  assert (P / b <= P / a); [|lra]. apply Rmult_le_compat_l; [lra|]. apply Rinv_le_contravar; auto.
Qed.
Lemma rgain_le1 s y w a : vrow s y w -> 0 < a -> a <= n_pos s y w -> rgain s y w a <= 1.
Proof.
  intros V Ha Hab. pose proof (vrow_neg _ _ _ V) as Hn. pose proof (vrow_pos _ _ _ V) as Hp. unfold rgain.
  assert (0 <= n_pos s y w * (n_pos s y w - a) / (n_neg s y w * a)); [|lra].
  apply Rmult_le_pos; [apply Rmult_le_pos; lra|]. apply Rlt_le, Rinv_0_lt_compat, Rmult_lt_0_compat; auto.
Qed.

(** All values of the raw recall gain: -inf or at most 1, sorted. *)
Definition xle (a b : xr) : Prop := nleb a b = true.

Lemma rawg_sorted_gen s y w l : vrow s y w -> StronglySorted Rgt l -> StronglySorted xle (map (rawg s y w) l).
Proof.
  intros V. induction l as [|t l IH]; intros Sl; [constructor|]. inversion Sl as [|? ? Sl' F]; subst. cbn. constructor; auto.
  apply Forall_forall. intros x Hx. apply in_map_iff in Hx as (t' & <- & Ht'). eapply Forall_forall in F; eauto.
  assert (t' <= t) as Ht by lra. pose proof (tpv_mono t t' s y w) as M. destruct M as [M1 M2]; [apply V|auto|].
  unfold xle, rawg. destruct (Reqb (tpv t s y w) 0) eqn:E; [destruct (Reqb (tpv t' s y w) 0); reflexivity|].
  apply Reqb_false_iff in E. destruct (Reqb (tpv t' s y w) 0) eqn:E'; [apply Reqb_spec in E'; lra|].
  cbn. apply Rleb_spec. apply rgain_mono; auto. lra.
Qed.

Lemma rawg_sorted s y w : vrow s y w -> StronglySorted xle (NInf :: map (rawg s y w) (D s)).
Proof.
  intros V. constructor; [apply rawg_sorted_gen; auto; apply D_spec|].
  apply Forall_forall. intros x Hx. apply in_map_iff in Hx as (t & <- & _). unfold xle, rawg. now destruct (Reqb _ _).
Qed.

Lemma diff_not_neg (l : list xr) : StronglySorted xle l -> existsb (fun d => nltb d n0) (diff l) = false.
Proof.
  induction 1 as [|a l S IH F]; [reflexivity|]. destruct l as [|b l]; [reflexivity|].
  rewrite diff_cons. cbn [existsb]. rewrite IH, orb_false_r. inversion F as [|? ? H _]; subst.
  unfold xle in H. destruct a as [r| | |], b as [r'| | |]; try discriminate; try reflexivity.
  cbn in *. apply Rleb_spec in H. apply Rltb_false. lra.
Qed.

Lemma recg_range s y w t : vrow s y w -> In t (D s) -> 0 <= recg s y w t <= 1.
Proof.
  intros V I. unfold recg. destruct (Reqb (tpv t s y w) 0) eqn:E; [lra|]. apply Reqb_false_iff in E.
  destruct (values_range s y w t V I) as [[T1 T2] _]. pose proof (rgain_le1 s y w (tpv t s y w) V). split; [apply Rmax_l|].
  apply Rmax_lub; [lra|]. apply H; lra.
Qed.

Lemma nmax_raw s y w t : nmax n0 (rawg s y w t) = Fin (recg s y w t).
Proof.
  unfold rawg, recg. destruct (Reqb (tpv t s y w) 0); [reflexivity|].
  unfold nmax. cbn. unfold Rmax. destruct (Rleb (rgain s y w (tpv t s y w)) 0) eqn:E.
  - apply Rleb_spec in E. cbn. destruct (Rle_dec 0 _); [|reflexivity]. f_equal. lra.
  - apply Rleb_false in E. cbn. destruct (Rle_dec 0 _); [reflexivity|]. lra.
Qed.

Lemma precg_le1 s y w t : vrow s y w -> In t (D s) -> nleb (precg s y w t) n1 = true.
Proof.
  intros V I. unfold precg. destruct (Reqb (tpv t s y w) 0) eqn:E; [reflexivity|]. apply Reqb_false_iff in E.
  destruct (values_range s y w t V I) as [[T1 T2] [F1 F2]]. pose proof (vrow_neg _ _ _ V) as Hn. pose proof (vrow_pos _ _ _ V) as Hp.
  cbn. apply Rleb_spec. assert (0 <= n_pos s y w * fpv t s y w / (n_neg s y w * tpv t s y w)); [|lra].
  apply Rmult_le_pos; [apply Rmult_le_pos; lra|]. apply Rlt_le, Rinv_0_lt_compat, Rmult_lt_0_compat; lra.
Qed.

Lemma pgcol_le1 s y w x : vrow s y w -> In x (pgcol s y w) -> nleb x n1 = true.
Proof.
  intros V. assert (D s <> []) as Nd by (apply D_nonempty, V). intros [<-|I].
  - apply precg_le1; auto. destruct (D s); [congruence|now left].
  - apply in_map_iff in I as (t & <- & I). now apply precg_le1.
Qed.

Theorem prg_exact s y sw : valid_input s y sw ->
  prg_curve y (map Fin s) (option_map (map (map Fin)) sw) =
  Ok ((map (fun w => (map Fin (rgcol s y w), pgcol s y w)) (weight_rows sw (length y)), Previous), PInf :: map Fin (D s)).
Proof.
  intros V. unfold prg_curve. rewrite clf_exact by auto. cbn [bind]. rewrite map2_same.
  assert (forall w, In w (weight_rows sw (length y)) -> vrow s y w) as HV by (intros; eapply weight_rows_ok; eauto).
  rewrite (map_ext_in _ (fun w => (NInf :: map (rawg s y w) (D s), pgcol s y w))) by (intros w Hw; apply gain_row_fin; auto).
  rewrite !map_map. cbn [fst snd].
  rewrite (map_ext (fun x => map (nmax n0) (NInf :: map (rawg s y x) (D s))) (fun w => map Fin (rgcol s y w))).
  2:{ intros w. unfold rgcol. rewrite fin_col. cbn [map]. rewrite map_map. f_equal. apply map_ext. intros t. apply nmax_raw. }
  assert (existsb (fun r => existsb (fun d => nltb d n0) (diff r)) (map (fun x => NInf :: map (rawg s y x) (D s)) (weight_rows sw (length y))) = false) as ->.
  { apply not_true_iff_false. rewrite existsb_exists. intros (r & Hr & Hx). apply in_map_iff in Hr as (w & <- & Hw).
    rewrite diff_not_neg in Hx; [discriminate|]. apply rawg_sorted; auto. }
  cbn [negb py_assert bind].
  rewrite (proj2 (forallb_forall _ _)).
  2:{ intros r Hr. apply in_map_iff in Hr as (w & <- & Hw). apply forallb_forall. intros x Hx. apply in_map_iff in Hx as (z & <- & Hz).
      cbn. apply Rleb_spec. destruct Hz as [<-|Hz]; [lra|]. apply in_map_iff in Hz as (t & <- & Ht). apply recg_range; auto. }
  cbn [py_assert bind]. rewrite combine_map_same.
  rewrite (proj2 (forallb_forall _ _)).
  2:{ intros p Hp. apply in_map_iff in Hp as (w & <- & Hw). apply forallb_forall. intros q Hq. cbn [fst snd] in Hq.
      destruct q as [a b]. apply in_combine_r in Hq. cbn [fst snd]. rewrite (pgcol_le1 s y w b); auto. apply orb_true_r. }
  reflexivity.
Qed.

Lemma rgcol_sorted s y w : vrow s y w -> StronglySorted Rle (rgcol s y w).
Proof.
  intros V. assert (W : wpos w) by apply V. destruct (D_spec s) as [S I].
  assert (forall t, In t (D s) -> 0 <= recg s y w t) as Hr by (intros t Ht; now apply recg_range).
  unfold rgcol. constructor.
  - assert (forall l, StronglySorted Rgt l -> StronglySorted Rle (map (recg s y w) l)) as G; [|now apply G].
    induction l as [|t l IH]; intros Sl; [constructor|]. inversion Sl as [|? ? Sl' F]; subst. cbn. constructor; auto.
    apply Forall_forall. intros x Hx. apply in_map_iff in Hx as (t' & <- & Ht'). eapply Forall_forall in F; eauto.
    assert (t' <= t) as Ht by lra. pose proof (tpv_mono t t' s y w W Ht) as [M1 M2].
    unfold recg. destruct (Reqb (tpv t s y w) 0) eqn:E.
    + destruct (Reqb (tpv t' s y w) 0); [lra|]. apply Rmax_l.
    + apply Reqb_false_iff in E. destruct (Reqb (tpv t' s y w) 0) eqn:E'; [apply Reqb_spec in E'; lra|].
      apply Rle_max_compat_l, rgain_mono; auto. lra.
  - apply Forall_forall. intros x Hx. apply in_map_iff in Hx as (t & <- & Ht). auto.
Qed.

Lemma rgcol_last s y w : vrow s y w -> last (rgcol s y w) 0 = 1.
Proof.
  intros V. assert (D s <> []) as Nd by (apply D_nonempty, V). unfold rgcol.
  rewrite last_cons_ne by (destruct (D s); [congruence|discriminate]).
  rewrite (last_map (recg s y w) (D s) 0 0 Nd). pose proof (vrow_pos _ _ _ V) as Hp. pose proof (vrow_neg _ _ _ V) as Hn.
  unfold recg. assert (tpv (last (D s) 0) s y w = n_pos s y w) as ->.
  { unfold tpv, n_pos. rewrite !w_ge_last; auto; apply V. }
  rewrite (proj2 (Reqb_false_iff _ _)) by lra. unfold rgain.
  replace (1 - _) with 1 by (field; lra). apply Rmax_right. lra.
Qed.
Lemma pgcol_last s y w : vrow s y w -> last (pgcol s y w) NaN = Fin 0.
Proof.
  intros V. assert (D s <> []) as Nd by (apply D_nonempty, V). unfold pgcol.
  rewrite last_cons_ne by (destruct (D s); [congruence|discriminate]).
  rewrite (last_map (precg s y w) (D s) NaN 0 Nd). pose proof (vrow_pos _ _ _ V) as Hp. pose proof (vrow_neg _ _ _ V) as Hn.
  unfold precg. assert (tpv (last (D s) 0) s y w = n_pos s y w) as ->.
  { unfold tpv, n_pos. rewrite !w_ge_last; auto; apply V. }
  assert (fpv (last (D s) 0) s y w = n_neg s y w) as ->.
  { unfold fpv, n_neg. rewrite !w_ge_last; auto; apply V. }
  rewrite (proj2 (Reqb_false_iff _ _)) by lra. f_equal. field. lra.
Qed.
Lemma pgcol_value s y w x : In x (pgcol s y w) -> x = NInf \/ exists r, x = Fin r.
Proof.
  assert (forall t, precg s y w t = NInf \/ exists r, precg s y w t = Fin r) as G.
  { intros t. unfold precg. destruct (Reqb _ _); eauto. }
  intros [<-|I]; auto. apply in_map_iff in I as (t & <- & _). auto.
Qed.

(** ** The area under a step function with -inf values *)
Lemma area_prev_ninf xs (ys : list xr) x0 : StronglySorted Rle xs -> hd x0 xs = x0 -> length xs = length ys -> xs <> [] ->
  (forall y, In y ys -> y = NInf \/ exists r, y = Fin r /\ r <= 1) -> forall acc a0,
  acc = NInf \/ (exists r, acc = Fin r /\ r <= a0) ->
  let v := fold_left nadd (map (fun x : xr => if nisnan x then n0 else x) (map2 nmul (removelast ys) (diff (map Fin xs)))) acc in
  v = NInf \/ exists r, v = Fin r /\ r <= a0 + (last xs 0 - x0).
Proof.
  revert ys x0; induction xs as [|a [|b xs] IH]; intros ys x0 S H L N F acc a0 A; [congruence| |].
  - destruct ys as [|y0 [|]]; try discriminate. cbn in H. subst. cbn. destruct A as [->|(r & -> & Hr)]; [now left|right].
    exists r. split; auto. lra.
  - destruct ys as [|y0 [|y1 ys]]; try discriminate. cbn [hd] in H. subst a.
    inversion S as [|? ? S' Fa]; subst. inversion Fa as [|? ? Hab _]; subst.
    rewrite last_cons_ne by discriminate. cbn [map]. rewrite diff_cons.
    change (removelast (y0 :: y1 :: ys)) with (y0 :: removelast (y1 :: ys)). cbn [map2 map fold_left].
    change (Fin b :: map Fin xs) with (map Fin (b :: xs)).
    specialize (IH (y1 :: ys) b S' eq_refl ltac:(cbn in *; lia) ltac:(discriminate) (fun z Hz => F z (or_intror Hz))).
    specialize (F y0 (or_introl eq_refl)).
    match goal with |- context [fold_left nadd _ ?ac] => set (acc' := ac) end.
    assert (acc' = NInf \/ exists r, acc' = Fin r /\ r <= a0 + (b - x0)) as A'.
    { unfold acc'. change (nsub (Fin b) (Fin x0)) with (Fin (b + - x0)).
      destruct F as [->|(r & -> & Hr)].
      - cbn [nmul xr_num xmul xinf_mul]. unfold xinf_mul. destruct (Reqb (b + - x0) 0) eqn:E; cbn [xisnan nisnan].
        + destruct A as [->|(r & -> & Hr)]; [now left|right]. exists (r + 0). split; auto. apply Reqb_spec in E. lra.
        + apply Reqb_false_iff in E. rewrite (proj2 (Rltb_spec 0 (b + - x0))) by lra. cbn.
          left. destruct A as [->|(r & -> & Hr)]; reflexivity.
      - cbn [nmul xr_num xmul nisnan xisnan]. destruct A as [->|(q & -> & Hq)]; [now left|right].
        exists (q + r * (b + - x0)). split; auto. assert (r * (b + - x0) <= 1 * (b + - x0)); [|lra].
        apply Rmult_le_compat_r; lra. }
    specialize (IH acc' (a0 + (b - x0)) A'). cbn zeta in IH. destruct IH as [IH|(r & IH & Hr)]; [left; exact IH|right].
    exists r. split; auto. lra.
Qed.

Lemma prg_area s y w : vrow s y w ->
  exists v, area (length (rgcol s y w)) [(map Fin (rgcol s y w), pgcol s y w)] Previous = Ok [v] /\
  (v = NInf \/ exists r, v = Fin r /\ r <= 1).
Proof.
  intros V. assert (D s <> []) as Nd by (apply D_nonempty, V).
  assert (length (rgcol s y w) = length (pgcol s y w)) as L by (unfold rgcol, pgcol; cbn; now rewrite !map_length).
  set (v := area_previous 1 (map Fin (rgcol s y w)) (pgcol s y w)).
  assert (v = NInf \/ exists r, v = Fin r /\ r <= 1) as Hv.
  { pose proof (area_prev_ninf (rgcol s y w) (pgcol s y w) 0 (rgcol_sorted s y w V) eq_refl L) as A.
    specialize (A ltac:(discriminate)).
    assert (forall x, In x (pgcol s y w) -> x = NInf \/ exists r, x = Fin r /\ r <= 1) as HF.
    { intros x Hx. pose proof (pgcol_le1 s y w x V Hx) as H1. destruct (pgcol_value s y w x Hx) as [->|[r ->]]; [now left|right].
      exists r. split; auto. now apply Rleb_spec in H1. }
    specialize (A HF (Fin 0) 0 (or_intror (ex_intro _ 0 (conj eq_refl (Rle_refl 0))))).
    rewrite rgcol_last in A by auto. cbn zeta in A.
    unfold v, area_previous, nansum. rewrite row_sum_xr. unfold nsum. destruct A as [A|(r & A & Hr)]; [left; exact A|right].
    exists r. split; [exact A|lra]. }
  exists v. split; auto. unfold area. cbn [existsb forallb map fst snd].
  rewrite existsb_nan_fin, !map_length, L, Nat.eqb_refl.
  assert ((2 <=? length (pgcol s y w))%nat = true) as ->.
  { apply Nat.leb_le. unfold pgcol. cbn. rewrite map_length. destruct (D s); [congruence|cbn; lia]. }
  assert (existsb nisnan (pgcol s y w) = false) as ->.
  { apply not_true_iff_false. rewrite existsb_exists. intros (x & Hx & Q). destruct (pgcol_value s y w x Hx) as [->|[r ->]]; discriminate. }
  cbn [orb andb negb py_assert bind length]. fold v. destruct Hv as [->|(r & -> & _)]; reflexivity.
Qed.

(** ** Single-class data *)
Definition one_class (y : list bool) : Prop := ~ In true y \/ ~ In false y.

Lemma no_neg_fpv y : ~ In false y -> existsb negb y = false.
Proof. intros N. destruct (existsb negb y) eqn:E; auto. apply has_neg in E. contradiction. Qed.
Lemma no_pos_tpv y : ~ In true y -> existsb (fun b => b) y = false.
Proof. intros N. destruct (existsb (fun b => b) y) eqn:E; auto. apply has_pos in E. contradiction. Qed.

(** in single-class data the two counts are proportional *)
Lemma one_class_prop s y w : vrow s y w -> one_class y -> exists k, 0 < k /\
  (k = eps \/ k = / eps) /\ (~ In false y -> k = eps) /\ (~ In true y -> k = / eps) /\
  (forall t, fpv t s y w = k * tpv t s y w) /\ n_neg s y w = k * n_pos s y w.
Proof.
  intros V O. pose proof eps_pos as He. assert (y <> []) as Ny by (destruct V as (L & _ & N & _); destruct s, y; cbn in *; congruence).
  destruct O as [O|O].
  - exists (/ eps). assert (In false y) as If by (destruct (some_label y Ny); tauto).
    repeat split; auto; try tauto; [now apply Rinv_0_lt_compat| |].
    + intros t. unfold fpv, tpv. rewrite (proj2 (has_neg y) If), (no_pos_tpv y O). field. lra.
    + unfold n_neg, n_pos. rewrite (proj2 (has_neg y) If), (no_pos_tpv y O). field. lra.
  - exists eps. assert (In true y) as If by (destruct (some_label y Ny); tauto).
    repeat split; auto; try tauto.
    + intros t. unfold fpv, tpv. rewrite (proj2 (has_pos y) If), (no_neg_fpv y O). reflexivity.
    + unfold n_neg, n_pos. rewrite (proj2 (has_pos y) If), (no_neg_fpv y O). reflexivity.
Qed.

Lemma one_class_diag s y w : vrow s y w -> one_class y -> fpr s y w = tpr s y w.
Proof.
  intros V O. destruct (one_class_prop s y w V O) as (k & Hk & _ & _ & _ & Hv & Hn). pose proof (vrow_pos _ _ _ V).
  unfold fpr, tpr, fcol, tcol. cbn [map]. rewrite !map_map. f_equal; [unfold Rdiv; lra|]. apply map_ext. intros t.
  rewrite Hv, Hn. field. lra.
Qed.
Lemma rarea_diag xs a : hd a xs = a -> xs <> [] -> rarea Linear xs xs = (last xs 0 * last xs 0 - a * a) / 2.
Proof.
  revert a; induction xs as [|x0 [|x1 xs] IH]; intros a H N; [congruence| |].
  - cbn in H. subst. cbn. lra.
  - cbn in H. subst x0. rewrite rarea_cons, (IH x1) by (auto; discriminate). rewrite (last_cons_ne a) by discriminate. lra.
Qed.
Lemma one_class_auc s y w : vrow s y w -> one_class y -> rarea Linear (fpr s y w) (tpr s y w) = 1 / 2.
Proof.
  intros V O. rewrite (one_class_diag s y w V O). destruct (roc_shape s y w V) as (_ & _ & _ & _ & _ & H & _).
  rewrite (rarea_diag _ 0); [rewrite H; lra| |unfold tpr; discriminate]. unfold tpr. cbn. unfold Rdiv. lra.
Qed.
Lemma rarea_prev_const xs ys c : length xs = length ys -> xs <> [] -> (forall y, In y ys -> y = c) -> rarea Previous xs ys = c * (last xs 0 - hd 0 xs).
Proof.
  revert ys; induction xs as [|a [|b xs] IH]; intros ys L N F; [congruence| |].
  - destruct ys as [|y0 [|]]; try discriminate. cbn. lra.
  - destruct ys as [|y0 [|y1 ys]]; try discriminate. rewrite rarea_cons, IH; try discriminate; [|cbn in *; lia|intros; apply F; now right].
    rewrite (F y0) by now left. rewrite (last_cons_ne a) by discriminate. cbn [hd]. lra.
Qed.

Lemma one_class_tpv s y w t : vrow s y w -> one_class y -> In t (D s) -> 0 < tpv t s y w.
Proof.
  intros V O I. destruct (one_class_prop s y w V O) as (k & Hk & _ & _ & _ & Hv & Hn).
  pose proof (values_pos s y w t V (D_in s t I)) as P. rewrite Hv in P.
  destruct (values_range s y w t V I) as [[[H|H] _] _]; auto. rewrite <- H in P. lra.
Qed.

(** the pseudo base rate *)
Lemma one_class_rp s y w : vrow s y w -> one_class y ->
  rarea Previous (tpr s y w) (pcol s y w) = n_pos s y w / (n_pos s y w + n_neg s y w).
Proof.
  intros V O. destruct (one_class_prop s y w V O) as (k & Hk & _ & _ & _ & Hv & Hn). pose proof (vrow_pos _ _ _ V).
  destruct (roc_shape s y w V) as (_ & _ & _ & H0 & _ & H1 & _ & L).
  assert (forall t, In t (D s) -> prc s y w t = n_pos s y w / (n_pos s y w + n_neg s y w)) as Hp.
  { intros t I. pose proof (one_class_tpv s y w t V O I) as Pt. unfold prc. rewrite Hv, Hn. field. assert (0 < k * n_pos s y w) by now apply Rmult_lt_0_compat.
    assert (0 < k * tpv t s y w) by now apply Rmult_lt_0_compat. repeat split; lra. }
  rewrite (rarea_prev_const _ _ (n_pos s y w / (n_pos s y w + n_neg s y w))).
  - rewrite H1. unfold tpr. cbn. unfold Rdiv. lra.
  - rewrite L. unfold pcol. cbn. now rewrite map_length.
  - unfold tpr. discriminate.
  - assert (D s <> []) as Nd by (apply D_nonempty, V). intros x [<-|I].
    + apply Hp. destruct (D s); [congruence|now left].
    + apply in_map_iff in I as (t & <- & I). auto.
Qed.
Lemma one_class_base_rate s y w : vrow s y w ->
  (~ In false y -> n_pos s y w / (n_pos s y w + n_neg s y w) = 1 / (1 + eps)) /\
  (~ In true y -> n_pos s y w / (n_pos s y w + n_neg s y w) = eps / (1 + eps)).
Proof.
  intros V. pose proof eps_pos. split; intros O.
  - destruct (one_class_prop s y w V (or_intror O)) as (k & Hk & _ & E & _ & _ & Hn). pose proof (vrow_pos _ _ _ V).
    rewrite Hn, (E O). field. nra.
  - destruct (one_class_prop s y w V (or_introl O)) as (k & Hk & _ & _ & E & _ & Hn). pose proof (vrow_pos _ _ _ V).
    rewrite Hn, (E O). field. pose proof (Rinv_0_lt_compat _ H). repeat split; nra.
Qed.

Lemma one_class_prg s y w : vrow s y w -> one_class y -> pgcol s y w = map Fin (map (fun _ => 0) (rgcol s y w)).
Proof.
  intros V O. destruct (one_class_prop s y w V O) as (k & Hk & _ & _ & _ & Hv & Hn). pose proof (vrow_pos _ _ _ V).
  assert (forall t, In t (D s) -> precg s y w t = Fin 0) as Hp.
  { intros t I. pose proof (one_class_tpv s y w t V O I) as Pt. unfold precg. rewrite (proj2 (Reqb_false_iff _ _)) by lra.
    rewrite Hv, Hn. f_equal. field. repeat split; lra. }
  assert (D s <> []) as Nd by (apply D_nonempty, V).
  unfold pgcol, rgcol. cbn [map]. f_equal.
  - apply Hp. destruct (D s); [congruence|now left].
  - rewrite !map_map. now apply map_ext_in.
Qed.
Lemma one_class_prg_area s y w : vrow s y w -> one_class y ->
  area (length (rgcol s y w)) [(map Fin (rgcol s y w), pgcol s y w)] Previous = Ok [Fin 0].
Proof.
  intros V O. rewrite (one_class_prg s y w V O). assert (D s <> []) as Nd by (apply D_nonempty, V).
  rewrite area_exact; [|discriminate|now rewrite map_length|].
  - repeat f_equal. rewrite (rarea_prev_const _ _ 0); [lra|now rewrite map_length|discriminate|].
    intros z Hz. apply in_map_iff in Hz as (t & <- & _). reflexivity.
  - unfold rgcol. cbn. rewrite map_length. destruct (D s); [congruence|cbn; lia].
Qed.

(** ** Integer weights *)
Fixpoint replicate {A} (ks : list nat) (l : list A) : list A :=
  match ks, l with k :: ks', a :: l' => repeat a k ++ replicate ks' l' | _, _ => [] end.

Lemma distinct_desc_unique s l m : distinct_desc s l -> distinct_desc s m -> l = m.
Proof.
  intros [S1 I1] [S2 I2]. assert (forall x, In x l <-> In x m) as E by (intros; rewrite I1, I2; tauto). clear I1 I2.
  revert m S2 E. induction S1 as [|a l S IH F]; intros m S2 E.
  - destruct m as [|b m]; auto. destruct (proj2 (E b)); now left.
  - destruct S2 as [|b m S2 F2]; [destruct (proj1 (E a)); now left|].
    assert (a = b) as ->.
    { destruct (proj1 (E a) (or_introl eq_refl)) as [H|H]; auto. destruct (proj2 (E b) (or_introl eq_refl)) as [H'|H']; auto.
      eapply Forall_forall in F; eauto. eapply Forall_forall in F2; eauto. lra. }
    f_equal. apply IH; auto. intros x. split; intros H.
    + destruct (proj1 (E x) (or_intror H)) as [<-|H']; auto. eapply Forall_forall in F; eauto. lra.
    + destruct (proj2 (E x) (or_intror H)) as [<-|H']; auto. eapply Forall_forall in F2; eauto. lra.
Qed.

Lemma D_same s s' : (forall x, In x s <-> In x s') -> D s = D s'.
Proof.
  intros E. apply (distinct_desc_unique s); [apply D_spec|]. destruct (D_spec s') as [S I]. split; auto. intros x. now rewrite I, E.
Qed.

Lemma replicate_in {A} ks (l : list A) x : length ks = length l -> Forall (fun k => (1 <= k)%nat) ks -> In x (replicate ks l) <-> In x l.
Proof.
  revert l; induction ks as [|k ks IH]; intros [|a l] L F; try discriminate; [tauto|]. inversion F; subst. cbn. rewrite in_app_iff, IH; auto.
  split; intros [H|H]; auto.
  - apply repeat_spec in H. auto.
  - subst. left. destruct k; [lia|]. now left.
Qed.
Lemma replicate_length {A} ks (l : list A) : length ks = length l -> length (replicate ks l) = fold_right Nat.add 0%nat ks.
Proof.
  revert l; induction ks as [|k ks IH]; intros [|a l] L; try discriminate; auto. cbn. rewrite app_length, repeat_length, IH; auto.
Qed.

Lemma wt_app sel s y w s' y' w' : length s = length y -> length w = length y ->
  wt sel (s ++ s') (y ++ y') (w ++ w') = wt sel s y w + wt sel s' y' w'.
Proof.
  revert y w; induction s as [|a s IH]; intros [|b y] [|c w] L1 L2; try discriminate; cbn [app wt]; [lra|].
  rewrite IH by (cbn in *; lia). lra.
Qed.
Lemma wt_repeat sel a b k : wt sel (repeat a k) (repeat b k) (repeat 1 k) = INR k * (if sel a b then 1 else 0).
Proof. induction k; cbn [repeat wt]; [cbn; lra|]. rewrite IHk, S_INR. destruct (sel a b); lra. Qed.

Lemma wt_replicate sel ks s y : length ks = length y -> length s = length y ->
  wt sel (replicate ks s) (replicate ks y) (repeat 1 (length (replicate ks y))) = wt sel s y (map INR ks).
Proof.
  revert s y; induction ks as [|k ks IH]; intros [|a s] [|b y] L1 L2; try discriminate; [reflexivity|].
  cbn [replicate map wt]. rewrite app_length, repeat_length, repeat_app, wt_app by now rewrite !repeat_length.
  rewrite wt_repeat, IH by (cbn in *; lia). destruct (sel a b); lra.
Qed.

Lemma existsb_replicate (p : bool -> bool) ks y : length ks = length y -> Forall (fun k => (1 <= k)%nat) ks ->
  existsb p (replicate ks y) = existsb p y.
Proof.
  intros L F. apply eq_true_iff_eq. rewrite !existsb_exists. split; intros (x & I & E); exists x; split; auto.
  - eapply replicate_in; eauto. - eapply replicate_in; eauto.
Qed.

Theorem clf_replicate s y ks : valid_input s y None -> length ks = length y -> Forall (fun k => (1 <= k)%nat) ks ->
  _binary_clf_curve y (map Fin s) (Some [map (fun k => Fin (INR k)) ks]) =
  _binary_clf_curve (replicate ks y) (map Fin (replicate ks s)) None.
Proof.
  intros (L1 & Ne & _) Lk F.
  assert (wpos (map INR ks)) as W.
  { apply Forall_forall. intros x Hx. apply in_map_iff in Hx as (k & <- & Hk). eapply Forall_forall in F; eauto. apply lt_0_INR. lia. }
  pose proof (clf_exact s y (Some [map INR ks])) as E1. cbn [option_map map] in E1. rewrite map_map in E1.
  rewrite E1.
  2:{ split; auto. split; auto. split; [discriminate|]. constructor; auto. split; auto. now rewrite map_length. }
  pose proof (clf_exact (replicate ks s) (replicate ks y) None) as E2. cbn [option_map] in E2. rewrite E2.
  2:{ split; [rewrite !replicate_length by lia; auto|]. split; auto. intros H. apply Ne. destruct s as [|a s]; auto.
      assert (In a (replicate ks (a :: s))) as I by (apply replicate_in; [lia|auto|now left]). rewrite H in I. destruct I. }
  cbn [weight_rows map].
  assert (D (replicate ks s) = D s) as ED by (apply D_same; intros; apply replicate_in; auto; lia). 
  assert (fcol (replicate ks s) (replicate ks y) (repeat 1 (length (replicate ks y))) = fcol s y (map INR ks)) as ->.
  { unfold fcol. rewrite ED. f_equal. apply map_ext. intros t. unfold fpv, w_ge. rewrite !wt_replicate, existsb_replicate; auto. }
  assert (tcol (replicate ks s) (replicate ks y) (repeat 1 (length (replicate ks y))) = tcol s y (map INR ks)) as ->.
  { unfold tcol. rewrite ED. f_equal. apply map_ext. intros t. unfold tpv, w_ge. rewrite !wt_replicate, existsb_replicate; auto. }
  now rewrite ED.
Qed.
