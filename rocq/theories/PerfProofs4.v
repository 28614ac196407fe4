(** Exact arithmetic: the ROC curve and its area. *)
From Coq Require Import Reals Lra Permutation Sorted.
From Verif Require Import PyBase F64 Num NumOk Util UtilProofs ListLemmas UtilProofs2 UtilProofs3 PerfCurves PerfProofs PerfProofs2 PerfProofs3 Spec_Curves.
Open Scope R_scope.

Lemma div_last_fin l : l <> [] -> last l 0 <> 0 -> div_last (map Fin l) = map Fin (map (fun x => x / last l 0) l).
Proof.
  intros N Z. unfold div_last. rewrite lastn_fin by auto. rewrite !map_map. apply map_ext. intros x.
  cbn [ndiv xr_num xdiv]. destruct (Reqb (last l 0) 0) eqn:E; auto. apply Reqb_spec in E. contradiction.
Qed.

Definition fpr s y w : list R := map (fun x => x / n_neg s y w) (fcol s y w).
Definition tpr s y w : list R := map (fun x => x / n_pos s y w) (tcol s y w).

Lemma combine_map_same {A B C} (f : A -> B) (g : A -> C) l : combine (map f l) (map g l) = map (fun a => (f a, g a)) l.
Proof. induction l; cbn; auto. now f_equal. Qed.

(** What one row of a valid input satisfies. *)
Definition vrow (s : list R) (y : list bool) (w : list R) : Prop :=
  length s = length y /\ length w = length y /\ s <> [] /\ wpos w.

Lemma weight_rows_ok s y sw w : valid_input s y sw -> In w (weight_rows sw (length y)) -> vrow s y w.
Proof.
  intros (L1 & Ne & V) I. destruct sw as [Ws|]; cbn in I.
  - destruct V as [_ V]. eapply Forall_forall in V; eauto. destruct V. repeat split; auto.
  - destruct I as [<-|[]]. repeat split; auto using repeat_length, repeat_pos.
Qed.

Lemma vrow_neg s y w : vrow s y w -> 0 < n_neg s y w.
Proof. intros (?&?&?&?). now apply n_neg_pos. Qed.
Lemma vrow_pos s y w : vrow s y w -> 0 < n_pos s y w.
Proof. intros (?&?&?&?). now apply n_pos_pos. Qed.

Lemma fcol_div s y w : vrow s y w -> div_last (map Fin (fcol s y w)) = map Fin (fpr s y w).
Proof.
  intros V. pose proof (vrow_neg _ _ _ V). destruct V as (L1 & L2 & Ne & W).
  rewrite div_last_fin; rewrite ?fcol_last by auto; [reflexivity|discriminate|lra].
Qed.
Lemma tcol_div s y w : vrow s y w -> div_last (map Fin (tcol s y w)) = map Fin (tpr s y w).
Proof.
  intros V. pose proof (vrow_pos _ _ _ V). destruct V as (L1 & L2 & Ne & W).
  rewrite div_last_fin; rewrite ?tcol_last by auto; [reflexivity|discriminate|lra].
Qed.

Theorem roc_exact s y sw : valid_input s y sw ->
  roc_curve y (map Fin s) (option_map (map (map Fin)) sw) =
  Ok ((map (fun w => (map Fin (fpr s y w), map Fin (tpr s y w))) (weight_rows sw (length y)), Linear), PInf :: map Fin (D s)).
Proof.
  intros V. unfold roc_curve. rewrite clf_exact by auto. cbn [bind]. rewrite !map_map.
  rewrite (map_ext_in _ (fun w => map Fin (fpr s y w))) by (intros w Hw; apply fcol_div; eapply weight_rows_ok; eauto).
  rewrite (map_ext_in (fun w => div_last (map Fin (tcol s y w))) (fun w => map Fin (tpr s y w)))
    by (intros w Hw; apply tcol_div; eapply weight_rows_ok; eauto).
  now rewrite combine_map_same.
Qed.

(** ** Shape *)
Lemma map_div_sorted l c : 0 < c -> StronglySorted Rle l -> StronglySorted Rle (map (fun x => x / c) l).
Proof.
  intros Hc S. induction S as [|a l S IH F]; cbn; constructor; auto. apply Forall_forall. intros x Hx.
  apply in_map_iff in Hx as (z & <- & Hz). eapply Forall_forall in F; eauto.
  apply Rmult_le_compat_r; [|exact F]. apply Rlt_le, Rinv_0_lt_compat, Hc.
Qed.

Lemma last_map_div l c d : l <> [] -> last (map (fun x => x / c) l) d = last l 0 / c.
Proof. intros N. apply (last_map (fun x => x / c)). exact N. Qed.

Lemma roc_shape s y w : vrow s y w ->
  StronglySorted Rle (fpr s y w) /\ StronglySorted Rle (tpr s y w) /\
  hd 1 (fpr s y w) = 0 /\ hd 1 (tpr s y w) = 0 /\ last (fpr s y w) 0 = 1 /\ last (tpr s y w) 0 = 1 /\
  length (fpr s y w) = S (length (D s)) /\ length (tpr s y w) = S (length (D s)).
Proof.
  intros V. pose proof (vrow_neg _ _ _ V). pose proof (vrow_pos _ _ _ V). destruct V as (L1 & L2 & Ne & W).
  unfold fpr, tpr. repeat split.
  - apply map_div_sorted; auto using fcol_sorted.
  - apply map_div_sorted; auto using tcol_sorted.
  - cbn. lra.
  - cbn. lra.
  - rewrite last_map_div by discriminate. rewrite fcol_last by auto. field. lra.
  - rewrite last_map_div by discriminate. rewrite tcol_last by auto. field. lra.
  - unfold fcol. rewrite map_length. cbn. now rewrite map_length.
  - unfold tcol. rewrite map_length. cbn. now rewrite map_length.
Qed.

(** ** Area *)
Lemma rarea_cons kd x0 x1 xs y0 y1 ys : rarea kd (x0 :: x1 :: xs) (y0 :: y1 :: ys) =
  (x1 - x0) * match kd with Previous => y0 | _ => (y0 + y1) / 2 end + rarea kd (x1 :: xs) (y1 :: ys).
Proof. reflexivity. Qed.

Lemma rarea_scale xs ys a b : a <> 0 -> b <> 0 ->
  rarea Linear (map (fun x => x / a) xs) (map (fun y => y / b) ys) = rarea Linear xs ys / (a * b).
Proof.
  intros Ha Hb. revert ys. induction xs as [|x0 [|x1 xs] IH]; intros [|y0 [|y1 ys]];
    try (cbn [map rarea]; field; auto).
  specialize (IH (y1 :: ys)). cbn [map] in *. rewrite !rarea_cons, IH. field. auto.
Qed.

Lemma w_step c s y w t : w_ge c t s y w = w_gt c t s y w + w_eq c t s y w.
Proof.
  apply wt_split. intros a b _ _. destruct (eqb b c); cbn; [|lra].
  destruct (Rleb t a) eqn:E1, (Rltb t a) eqn:E2, (Reqb t a) eqn:E3; try lra;
    try (apply Rleb_spec in E1); try (apply Rleb_false in E1); try (apply Rltb_spec in E2); try (apply Rltb_false in E2);
    try (apply Reqb_spec in E3); try (apply Reqb_false_iff in E3); lra.
Qed.

(** No score lies strictly between consecutive thresholds. *)
Lemma w_gap c s y w pre t t' post : D s = pre ++ t :: t' :: post -> w_ge c t s y w = w_gt c t' s y w.
Proof.
  intros E. apply wt_ext. intros a b Ha _. f_equal. pose proof (D_spec s) as [S I]. apply I in Ha. rewrite E in *.
  clear I. revert Ha S. clear. induction pre as [|p pre IH]; cbn [app]; intros Ha S.
  - inversion S as [|? ? S' F]; subst. inversion S' as [|? ? S'' F']; subst. inversion F as [|? ? Htt' F2]; subst.
    destruct Ha as [<-|[<-|Ha]].
    + transitivity true; [apply Rleb_spec; lra|symmetry; apply Rltb_spec; lra].
    + transitivity false; [apply Rleb_false; lra|symmetry; apply Rltb_false; lra].
    + eapply Forall_forall in F'; eauto. transitivity false; [apply Rleb_false; lra|symmetry; apply Rltb_false; lra].
  - inversion S as [|? ? S' F]; subst. destruct Ha as [<-|Ha]; auto.
    assert (p > t /\ p > t') as [].
    { split; eapply Forall_forall in F; eauto; apply in_or_app; right; [now left|right; now left]. }
    transitivity true; [apply Rleb_spec; lra|symmetry; apply Rltb_spec; lra].
Qed.
Lemma w_top c s y w t post : D s = t :: post -> w_gt c t s y w = 0.
Proof.
  intros E. apply wt_false. intros a b Ha _. pose proof (D_spec s) as [S I]. apply I in Ha. rewrite E in *.
  assert (Rltb t a = false) as ->; [|now rewrite andb_false_r].
  apply Rltb_false. inversion S as [|? ? S' F]; subst. destruct Ha as [<-|Ha]; [lra|]. eapply Forall_forall in F; eauto. lra.
Qed.

Definition half_above s y w (t : R) : R := w_gt true t s y w + w_eq true t s y w / 2.

Lemma rarea_counts s y w pre post n p : D s = pre ++ post ->
  match post with [] => True | t :: _ => n = w_gt false t s y w /\ p = w_gt true t s y w end ->
  rarea Linear (n :: map (fun t => w_ge false t s y w) post) (p :: map (fun t => w_ge true t s y w) post) =
  Rsum (map (fun t => w_eq false t s y w * half_above s y w t) post).
Proof.
  revert pre n p; induction post as [|t post IH]; intros pre n p E H; [reflexivity|].
  destruct H as [-> ->]. cbn [map]. rewrite Rsum_cons, <- (IH (pre ++ [t]) (w_ge false t s y w) (w_ge true t s y w)).
  - rewrite rarea_cons, !w_step. unfold half_above. lra.
  - now rewrite <- app_assoc.
  - destruct post as [|t' post]; auto. split; eapply w_gap; eauto.
Qed.

(** ** Sums over pairs *)
Lemma Rsum_map_plus {A} (f g : A -> R) l : Rsum (map (fun a => f a + g a) l) = Rsum (map f l) + Rsum (map g l).
Proof. induction l; cbn [map]; rewrite ?Rsum_cons; [cbn; lra|]. rewrite IHl. lra. Qed.
Lemma Rsum_map_mult {A} (f : A -> R) c l : Rsum (map (fun a => c * f a) l) = c * Rsum (map f l).
Proof. induction l; cbn [map]; rewrite ?Rsum_cons; [cbn; lra|]. rewrite IHl. lra. Qed.
Lemma Rsum_map_zero {A} (l : list A) : Rsum (map (fun _ => 0) l) = 0.
Proof. induction l; cbn [map]; rewrite ?Rsum_cons; [reflexivity|]. rewrite IHl. lra. Qed.
Lemma Rsum_swap {A B} (f : A -> B -> R) l m :
  Rsum (map (fun a => Rsum (map (f a) m)) l) = Rsum (map (fun b => Rsum (map (fun a => f a b) l)) m).
Proof.
  induction l as [|a l IH].
  - cbn [map]. symmetry. apply (Rsum_map_zero m).
  - cbn [map]. rewrite Rsum_cons, IH, <- Rsum_map_plus. f_equal.
Qed.
Lemma Rsum_map_ext {A} (f g : A -> R) l : (forall a, In a l -> f a = g a) -> Rsum (map f l) = Rsum (map g l).
Proof. intros H. f_equal. now apply map_ext_in. Qed.

Lemma Rsum_pick (v : R -> R) l x : StronglySorted Rgt l -> In x l -> Rsum (map (fun t => if Reqb t x then v t else 0) l) = v x.
Proof.
  induction 1 as [|a l S IH F]; intros I; [destruct I|]. cbn [map]. rewrite Rsum_cons. destruct I as [->|I].
  - rewrite (proj2 (Reqb_spec x x) eq_refl). rewrite (Rsum_map_ext _ (fun _ => 0)), Rsum_map_zero; [lra|].
    intros t Ht. eapply Forall_forall in F; eauto. rewrite (proj2 (Reqb_false_iff t x)); auto. lra.
  - eapply Forall_forall in F; eauto. rewrite (proj2 (Reqb_false_iff a x)) by lra. rewrite IH by auto. lra.
Qed.

Notation pt := (R * (bool * R))%type.
Definition kern (a b : R) : R := if Rltb b a then 1 else if Reqb b a then 1 / 2 else 0.
(** contribution of the pair ([p] positive, [q] negative) *)
Definition pairv (p q : pt) : R :=
  if fst (snd p) then (if fst (snd q) then 0 else snd (snd p) * snd (snd q) * kern (fst p) (fst q)) else 0.

Lemma pair_wins_against_sum a c s y w :
  pair_wins_against a c s y w = Rsum (map (pairv (a, (true, c))) (combine s (combine y w))).
Proof.
  revert y w; induction s as [|b s IH]; intros [|l y] [|d w]; try reflexivity.
  cbn [pair_wins_against combine map]. rewrite Rsum_cons, IH. unfold pairv, kern. cbn [fst snd]. reflexivity.
Qed.

Lemma pair_wins_sum s y w : pair_wins s y w =
  Rsum (map (fun p => Rsum (map (pairv p) (combine s (combine y w)))) (combine s (combine y w))).
Proof.
  unfold pair_wins. set (P := combine s (combine y w)).
  assert (forall s' y' w', pair_wins_from s y w s' y' w' = Rsum (map (fun p => Rsum (map (pairv p) P)) (combine s' (combine y' w')))) as H.
  { induction s' as [|b s' IH]; intros [|l y'] [|d w']; try reflexivity.
    cbn [pair_wins_from combine map]. rewrite Rsum_cons, IH. f_equal. destruct l; [apply pair_wins_against_sum|].
    unfold pairv. cbn [fst snd]. now rewrite Rsum_map_zero. }
  apply H.
Qed.

Lemma half_above_sum s y w q : fst (snd q) = false ->
  Rsum (map (fun p => pairv p q) (combine s (combine y w))) = snd (snd q) * half_above s y w (fst q).
Proof.
  intros Hq. unfold half_above, w_gt, w_eq. rewrite !wt_wtl. unfold wtl.
  replace (Rsum (map (fun p => if eqb (fst (snd p)) true && Rltb (fst q) (fst p) then snd (snd p) else 0) (combine s (combine y w))) +
    Rsum (map (fun p => if eqb (fst (snd p)) true && Reqb (fst q) (fst p) then snd (snd p) else 0) (combine s (combine y w))) / 2)
    with (Rsum (map (fun p => (if eqb (fst (snd p)) true && Rltb (fst q) (fst p) then snd (snd p) else 0) +
       / 2 * (if eqb (fst (snd p)) true && Reqb (fst q) (fst p) then snd (snd p) else 0)) (combine s (combine y w)))).
  2:{ rewrite Rsum_map_plus, Rsum_map_mult. lra. }
  rewrite <- Rsum_map_mult. apply Rsum_map_ext. intros p _. unfold pairv, kern. rewrite Hq.
  destruct (fst (snd p)); cbn [eqb andb]; [|lra].
  destruct (Rltb (fst q) (fst p)) eqn:E1.
  - destruct (Reqb (fst q) (fst p)) eqn:E2; [|lra]. apply Rltb_spec in E1. apply Reqb_spec in E2. lra.
  - destruct (Reqb (fst q) (fst p)); lra.
Qed.

Lemma in_combine_fst s (y : list bool) (w : list R) (q : pt) : In q (combine s (combine y w)) -> In (fst q) s.
Proof. destruct q as [a p]. intros H. now apply in_combine_l in H. Qed.

Lemma sum_over_thresholds s y w (h : R -> R) :
  Rsum (map (fun t => w_eq false t s y w * h t) (D s)) =
  Rsum (map (fun q : pt => if fst (snd q) then 0 else snd (snd q) * h (fst q)) (combine s (combine y w))).
Proof.
  unfold w_eq.
  rewrite (Rsum_map_ext _ (fun t => Rsum (map (fun q : pt => if fst (snd q) then 0 else snd (snd q) * (if Reqb t (fst q) then h t else 0))
    (combine s (combine y w))))).
  2:{ intros t _. rewrite wt_wtl, Rmult_comm. unfold wtl. rewrite <- Rsum_map_mult. apply Rsum_map_ext. intros q _.
      destruct (fst (snd q)), (Reqb t (fst q)); cbn [eqb andb]; lra. }
  rewrite Rsum_swap. apply Rsum_map_ext. intros q Hq. destruct (fst (snd q)); [apply Rsum_map_zero|].
  rewrite Rsum_map_mult. f_equal. destruct (D_spec s) as [S I]. apply Rsum_pick; auto. apply I. eapply in_combine_fst; eauto.
Qed.

Lemma counts_area s y w : s <> [] ->
  rarea Linear (0 :: map (fun t => w_ge false t s y w) (D s)) (0 :: map (fun t => w_ge true t s y w) (D s)) = pair_wins s y w.
Proof.
  intros Ne. rewrite (rarea_counts s y w [] (D s)); auto.
  - rewrite sum_over_thresholds, pair_wins_sum, Rsum_swap. apply Rsum_map_ext. intros q _.
    destruct (fst (snd q)) eqn:E.
    + symmetry. rewrite (Rsum_map_ext _ (fun _ => 0)); [apply Rsum_map_zero|]. intros p _. unfold pairv. rewrite E. now destruct (fst (snd p)).
    + symmetry. now apply half_above_sum.
  - destruct (D s) as [|t post] eqn:E; auto. split; symmetry; eapply w_top; eauto.
Qed.

Theorem auc_mann_whitney s y w : vrow s y w -> two_class y ->
  rarea Linear (fpr s y w) (tpr s y w) = mann_whitney s y w.
Proof.
  intros V [Tp Tn]. unfold fpr, tpr.
  pose proof (vrow_neg _ _ _ V). pose proof (vrow_pos _ _ _ V). rewrite rarea_scale by lra. destruct V as (L1 & L2 & Ne & W).
  apply has_pos in Tp. apply has_neg in Tn. unfold n_neg, n_pos. rewrite Tp, Tn. unfold mann_whitney.
  rewrite <- counts_area by auto. unfold fcol, tcol, fpv, tpv. rewrite Tp, Tn. f_equal. ring.
Qed.

(** ** Properties of the Mann-Whitney statistic *)
Lemma kern_range a b : 0 <= kern a b <= 1.
Proof. unfold kern. destruct (Rltb b a); [lra|]. destruct (Reqb b a); lra. Qed.
Lemma kern_flip a b : kern a b + kern b a = 1.
Proof.
  unfold kern. destruct (Rltb b a) eqn:E1, (Rltb a b) eqn:E2, (Reqb b a) eqn:E3, (Reqb a b) eqn:E4; try lra;
    try (apply Rltb_spec in E1); try (apply Rltb_false in E1); try (apply Rltb_spec in E2); try (apply Rltb_false in E2);
    try (apply Reqb_spec in E3); try (apply Reqb_false_iff in E3); try (apply Reqb_spec in E4); try (apply Reqb_false_iff in E4);
    try lra; exfalso; lra.
Qed.

Lemma total_pairs s y w : w_all true s y w * w_all false s y w =
  Rsum (map (fun p : pt => Rsum (map (fun q : pt => if fst (snd p) then (if fst (snd q) then 0 else snd (snd p) * snd (snd q)) else 0)
     (combine s (combine y w)))) (combine s (combine y w))).
Proof.
  unfold w_all. rewrite !wt_wtl. unfold wtl.
  rewrite Rmult_comm, <- Rsum_map_mult. apply Rsum_map_ext. intros p _.
  destruct (fst (snd p)); cbn [eqb]; [|now rewrite Rsum_map_zero, Rmult_0_r].
  rewrite Rmult_comm, <- Rsum_map_mult. apply Rsum_map_ext. intros q _. destruct (fst (snd q)); cbn [eqb]; lra.
Qed.

Lemma Rsum_map_le {A} (f g : A -> R) l : (forall a, In a l -> f a <= g a) -> Rsum (map f l) <= Rsum (map g l).
Proof.
  induction l as [|a l IH]; intros H; cbn [map]; rewrite ?Rsum_cons; [cbn; lra|].
  specialize (IH (fun b Hb => H b (or_intror Hb))). specialize (H a (or_introl eq_refl)). lra.
Qed.

Lemma in_combine_w s (y : list bool) (w : list R) (q : pt) : wpos w -> In q (combine s (combine y w)) -> 0 < snd (snd q).
Proof.
  destruct q as [a [b c]]. intros W H. apply in_combine_r, in_combine_r in H. cbn. eapply Forall_forall in W; eauto.
Qed.

Lemma pair_wins_range s y w : wpos w -> 0 <= pair_wins s y w <= w_all true s y w * w_all false s y w.
Proof.
  intros W. rewrite pair_wins_sum, total_pairs. set (P := combine s (combine y w)).
  assert (forall p, In p P -> 0 < snd (snd p)) as HP by (intros p Hp; eapply in_combine_w; eauto).
  assert (forall p q, In p P -> In q P -> 0 <= pairv p q <=
     (if fst (snd p) then if fst (snd q) then 0 else snd (snd p) * snd (snd q) else 0)) as H.
  { intros p q Hp Hq. unfold pairv. destruct (fst (snd p)); [|lra]. destruct (fst (snd q)); [lra|].
    pose proof (kern_range (fst p) (fst q)). pose proof (Rmult_lt_0_compat _ _ (HP p Hp) (HP q Hq)).
    split; [apply Rmult_le_pos; lra|]. rewrite <- (Rmult_1_r (snd (snd p) * snd (snd q))) at 2. apply Rmult_le_compat_l; lra. }
  split.
  - rewrite <- (Rsum_map_zero P). apply Rsum_map_le. intros p Hp. rewrite <- (Rsum_map_zero P).
    apply Rsum_map_le. intros q Hq. now apply H.
  - apply Rsum_map_le. intros p Hp. apply Rsum_map_le. intros q Hq. now apply H.
Qed.

Lemma mann_whitney_range s y w : vrow s y w -> two_class y -> 0 <= mann_whitney s y w <= 1.
Proof.
  intros (L1 & L2 & Ne & W) [Tp Tn]. pose proof (pair_wins_range s y w W).
  pose proof (w_all_pos true s y w L1 L2 W Tp). pose proof (w_all_pos false s y w L1 L2 W Tn).
  assert (0 < w_all true s y w * w_all false s y w) by now apply Rmult_lt_0_compat.
  unfold mann_whitney. split.
  - apply Rmult_le_pos; [lra|]. apply Rlt_le, Rinv_0_lt_compat. auto.
  - apply (Rmult_le_reg_r (w_all true s y w * w_all false s y w)); auto. unfold Rdiv. rewrite Rmult_assoc, Rinv_l; lra.
Qed.

(** Strictly increasing transformation of the scores. *)
Lemma combine_map_l {A B C} (f : A -> B) l (m : list C) : combine (map f l) m = map (fun p => (f (fst p), snd p)) (combine l m).
Proof. revert m; induction l; intros [|]; cbn; auto. now f_equal. Qed.

Lemma w_all_scores c s s' y w : length s = length s' -> w_all c s y w = w_all c s' y w.
Proof.
  unfold w_all. revert s' y w; induction s as [|a s IH]; intros [|a' s'] y w L; try discriminate; auto.
  destruct y as [|b y], w as [|d w]; cbn [wt]; auto. f_equal. apply IH. now injection L.
Qed.

Lemma mann_whitney_mono (g : R -> R) s y w : (forall a b, In a s -> In b s -> a < b -> g a < g b) ->
  mann_whitney (map g s) y w = mann_whitney s y w.
Proof.
  intros Hg. unfold mann_whitney.
  rewrite !(w_all_scores _ (map g s) s) by apply map_length. f_equal.
  rewrite !pair_wins_sum, combine_map_l. rewrite map_map. apply Rsum_map_ext. intros p Hp. rewrite map_map. apply Rsum_map_ext. intros q Hq.
  unfold pairv. cbn [fst snd]. replace (kern (g (fst p)) (g (fst q))) with (kern (fst p) (fst q)); auto.
  apply in_combine_fst in Hp, Hq. unfold kern.
  destruct (Rtotal_order (fst q) (fst p)) as [L|[E|L]].
  - rewrite !(proj2 (Rltb_spec _ _)); auto.
  - rewrite E. rewrite !(proj2 (Rltb_false _ _)), !(proj2 (Reqb_spec _ _)) by lra. auto.
  - pose proof (Hg _ _ Hp Hq L). rewrite !(proj2 (Rltb_false _ _)) by lra. rewrite !(proj2 (Reqb_false_iff _ _)) by lra. auto.
Qed.

(** Reordering of the samples. *)
Lemma w_all_perm c s y w s' y' w' : Permutation (combine s (combine y w)) (combine s' (combine y' w')) ->
  w_all c s y w = w_all c s' y' w'.
Proof. intros P. unfold w_all. rewrite !wt_wtl. now apply wtl_perm. Qed.
Lemma pair_wins_perm s y w s' y' w' : Permutation (combine s (combine y w)) (combine s' (combine y' w')) ->
  pair_wins s y w = pair_wins s' y' w'.
Proof.
  intros P. rewrite !pair_wins_sum. transitivity (Rsum (map (fun p => Rsum (map (pairv p) (combine s (combine y w)))) (combine s' (combine y' w')))).
  - apply Rsum_perm, Permutation_map, P.
  - apply Rsum_map_ext. intros p _. apply Rsum_perm, Permutation_map, P.
Qed.
Lemma mann_whitney_perm s y w s' y' w' : Permutation (combine s (combine y w)) (combine s' (combine y' w')) ->
  mann_whitney s y w = mann_whitney s' y' w'.
Proof. intros P. unfold mann_whitney. now rewrite (pair_wins_perm _ _ _ _ _ _ P), !(w_all_perm _ _ _ _ _ _ _ P). Qed.

(** Negating the scores, or swapping the classes. *)
Lemma pair_wins_complement s y w (P := combine s (combine y w)) (f : pt -> pt -> R) :
  (forall p q, In p P -> In q P -> pairv p q + f p q = if fst (snd p) then if fst (snd q) then 0 else snd (snd p) * snd (snd q) else 0) ->
  pair_wins s y w + Rsum (map (fun p => Rsum (map (f p) P)) P) = w_all true s y w * w_all false s y w.
Proof.
  intros H. rewrite pair_wins_sum, total_pairs. fold P. rewrite <- Rsum_map_plus. apply Rsum_map_ext. intros p Hp.
  rewrite <- Rsum_map_plus. apply Rsum_map_ext. intros q Hq. now apply H.
Qed.

Lemma mann_whitney_neg s y w : vrow s y w -> two_class y -> mann_whitney (map Ropp s) y w = 1 - mann_whitney s y w.
Proof.
  intros (L1 & L2 & Ne & W) [Tp Tn]. pose proof (w_all_pos true s y w L1 L2 W Tp). pose proof (w_all_pos false s y w L1 L2 W Tn).
  unfold mann_whitney. rewrite !(w_all_scores _ (map Ropp s) s) by apply map_length.
  assert (pair_wins s y w + pair_wins (map Ropp s) y w = w_all true s y w * w_all false s y w) as E.
  { rewrite (pair_wins_sum (map Ropp s)), combine_map_l, map_map.
    rewrite <- (pair_wins_complement s y w (fun p q => pairv (- fst p, snd p) (- fst q, snd q))).
    - f_equal. apply Rsum_map_ext. intros p _. now rewrite map_map.
    - intros p q _ _. unfold pairv. cbn [fst snd]. destruct (fst (snd p)); [|lra]. destruct (fst (snd q)); [lra|].
      replace (kern (- fst p) (- fst q)) with (1 - kern (fst p) (fst q)); [lra|].
      rewrite <- (kern_flip (fst p) (fst q)). ring_simplify. unfold kern.
      assert (forall a b, Rltb (- a) (- b) = Rltb b a) as E1.
      { intros a b. destruct (Rltb b a) eqn:Q; [apply Rltb_spec in Q; apply Rltb_spec; lra|apply Rltb_false in Q; apply Rltb_false; lra]. }
      assert (forall a b, Reqb (- a) (- b) = Reqb b a) as E2.
      { intros a b. destruct (Reqb b a) eqn:Q; [apply Reqb_spec in Q; apply Reqb_spec; lra|apply Reqb_false_iff in Q; apply Reqb_false_iff; lra]. }
      now rewrite E1, E2. }
  replace (pair_wins (map Ropp s) y w) with (w_all true s y w * w_all false s y w - pair_wins s y w) by lra.
  field. lra.
Qed.

Lemma combine_map_r {A B C} (f : B -> C) (l : list A) m : combine l (map f m) = map (fun p => (fst p, f (snd p))) (combine l m).
Proof. revert m; induction l; intros [|]; cbn; auto. now f_equal. Qed.

Lemma w_all_negb c s y w : w_all c s (map negb y) w = w_all (negb c) s y w.
Proof.
  unfold w_all. revert y w; induction s as [|a s IH]; intros [|b y] [|d w]; cbn [wt map]; auto. rewrite IH.
  now destruct b, c.
Qed.

Lemma mann_whitney_swap s y w : vrow s y w -> two_class y -> mann_whitney s (map negb y) w = 1 - mann_whitney s y w.
Proof.
  intros (L1 & L2 & Ne & W) [Tp Tn]. pose proof (w_all_pos true s y w L1 L2 W Tp). pose proof (w_all_pos false s y w L1 L2 W Tn).
  unfold mann_whitney. rewrite !w_all_negb. cbn [negb].
  assert (pair_wins s y w + pair_wins s (map negb y) w = w_all true s y w * w_all false s y w) as E.
  { rewrite (pair_wins_sum s (map negb y)).
    assert (combine s (combine (map negb y) w) = map (fun p => (fst p, (negb (fst (snd p)), snd (snd p)))) (combine s (combine y w))) as ->.
    { clear. revert y w; induction s as [|a s IH]; intros [|b y] [|d w]; cbn; auto. now rewrite IH. }
    rewrite map_map, <- (pair_wins_complement s y w (fun p q => pairv (fst q, (negb (fst (snd q)), snd (snd q))) (fst p, (negb (fst (snd p)), snd (snd p))))).
    - f_equal. symmetry. rewrite Rsum_swap. apply Rsum_map_ext. intros p _. now rewrite map_map.
    - intros p q _ _. unfold pairv. cbn [fst snd]. destruct (fst (snd p)), (fst (snd q)); cbn [negb]; try lra.
      pose proof (kern_flip (fst p) (fst q)). replace (kern (fst q) (fst p)) with (1 - kern (fst p) (fst q)) by lra. lra. }
  replace (pair_wins s (map negb y) w) with (w_all true s y w * w_all false s y w - pair_wins s y w) by lra.
  field. lra.
Qed.

Lemma mann_whitney_const s y w (v : R) : vrow s y w -> two_class y ->
  (forall p q, In p (combine s (combine y w)) -> In q (combine s (combine y w)) -> fst (snd p) = true -> fst (snd q) = false -> kern (fst p) (fst q) = v) ->
  mann_whitney s y w = v.
Proof.
  intros (L1 & L2 & Ne & W) [Tp Tn] H. pose proof (w_all_pos true s y w L1 L2 W Tp). pose proof (w_all_pos false s y w L1 L2 W Tn).
  unfold mann_whitney. assert (pair_wins s y w = v * (w_all true s y w * w_all false s y w)) as ->; [|field; lra].
  rewrite pair_wins_sum, total_pairs, <- Rsum_map_mult. apply Rsum_map_ext. intros p Hp. rewrite <- Rsum_map_mult.
  apply Rsum_map_ext. intros q Hq. unfold pairv. destruct (fst (snd p)) eqn:Ep; [|lra]. destruct (fst (snd q)) eqn:Eq; [lra|].
  rewrite (H p q) by auto. lra.
Qed.
