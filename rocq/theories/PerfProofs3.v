(** Exact arithmetic: what _binary_clf_curve returns. *)
From Coq Require Import Reals Lra Permutation Sorted.
From Verif Require Import PyBase F64 Num NumOk Util UtilProofs ListLemmas UtilProofs2 UtilProofs3 PerfCurves PerfProofs PerfProofs2 Spec_Curves SumProofs.
Open Scope R_scope.

(** ** Weights *)
Definition wtl (sel : R -> bool -> bool) (P : list (R * (bool * R))) : R :=
  Rsum (map (fun p => if sel (fst p) (fst (snd p)) then snd (snd p) else 0) P).

Lemma wt_wtl sel s y w : wt sel s y w = wtl sel (combine s (combine y w)).
Proof.
  revert y w; induction s as [|a s IH]; intros [|b y] [|c w]; try reflexivity.
  cbn [wt combine]. unfold wtl in *. cbn [map]. rewrite Rsum_cons, IH. reflexivity.
Qed.

Lemma Rsum_perm l m : Permutation l m -> Rsum l = Rsum m.
Proof. induction 1; rewrite ?Rsum_cons; try lra; auto. Qed.

Lemma wtl_perm sel P Q : Permutation P Q -> wtl sel P = wtl sel Q.
Proof. intros H. apply Rsum_perm, Permutation_map, H. Qed.

Lemma wtl_filter (f : R * (bool * R) -> bool) (sel sel' : R -> bool -> bool) P :
  (forall p, In p P -> sel' (fst p) (fst (snd p)) = f p && sel (fst p) (fst (snd p))) ->
  wtl sel (filter f P) = wtl sel' P.
Proof.
  unfold wtl. induction P as [|p P IH]; intros H; [reflexivity|]. cbn [filter map]. rewrite Rsum_cons.
  rewrite (H p) by now left. rewrite <- IH by (intros; apply H; now right).
  destruct (f p); cbn [map andb]; rewrite ?Rsum_cons; lra.
Qed.

Lemma wt_le sel sel' s y w : Forall (fun c => 0 <= c) w ->
  (forall a b, In a s -> In b y -> sel a b = true -> sel' a b = true) -> wt sel s y w <= wt sel' s y w.
Proof.
  revert y w; induction s as [|a s IH]; intros [|b y] [|c w] F H; cbn [wt]; try lra.
  inversion F; subst. specialize (IH y w). assert (wt sel s y w <= wt sel' s y w).
  { apply IH; auto. intros; apply H; auto; now right. }
  specialize (H a b (or_introl eq_refl) (or_introl eq_refl)).
  destruct (sel a b); [rewrite (H eq_refl); lra|]. destruct (sel' a b); lra.
Qed.

Lemma wt_ext sel sel' s y w : (forall a b, In a s -> In b y -> sel a b = sel' a b) -> wt sel s y w = wt sel' s y w.
Proof.
  revert y w; induction s as [|a s IH]; intros [|b y] [|c w] H; cbn [wt]; auto.
  rewrite H by now left. f_equal. apply IH. intros; apply H; now right.
Qed.

Lemma wt_nonneg sel s y w : Forall (fun c => 0 <= c) w -> 0 <= wt sel s y w.
Proof.
  revert y w; induction s as [|a s IH]; intros [|b y] [|c w] F; cbn [wt]; try lra.
  inversion F; subst. specialize (IH y w ltac:(auto)). destruct (sel a b); lra.
Qed.

Lemma wt_false sel s y w : (forall a b, In a s -> In b y -> sel a b = false) -> wt sel s y w = 0.
Proof.
  revert y w; induction s as [|a s IH]; intros [|b y] [|c w] H; cbn [wt]; auto.
  rewrite H by now left. rewrite IH by (intros; apply H; now right). lra.
Qed.

Lemma wt_pos sel s y w i a b : Forall (fun c => 0 < c) w -> length w = length y ->
  nth_error s i = Some a -> nth_error y i = Some b -> sel a b = true -> 0 < wt sel s y w.
Proof.
  revert y w i; induction s as [|a' s IH]; intros [|b' y] [|c w] [|i] F L Ha Hb H; try discriminate; cbn in *.
  - inversion Ha; inversion Hb; subst. rewrite H. inversion F; subst.
    pose proof (wt_nonneg sel s y w) as N. assert (Forall (fun c => 0 <= c) w) as F'
      by (eapply Forall_impl; [|eassumption]; cbn; intros; lra). specialize (N F'). lra.
  - inversion F; subst. specialize (IH y w i ltac:(auto) ltac:(lia) Ha Hb H). destruct (sel a' b'); lra.
Qed.

Lemma wt_split (sel sel1 sel2 : R -> bool -> bool) s y w :
  (forall a b, In a s -> In b y -> (if sel a b then 1 else 0) = (if sel1 a b then 1 else 0) + (if sel2 a b then 1 else 0)) ->
  wt sel s y w = wt sel1 s y w + wt sel2 s y w.
Proof.
  revert y w; induction s as [|a s IH]; intros [|b y] [|c w] H; cbn [wt]; try lra.
  rewrite IH by (intros; apply H; now right). specialize (H a b (or_introl eq_refl) (or_introl eq_refl)).
  destruct (sel a b), (sel1 a b), (sel2 a b); lra.
Qed.

Definition wpos (w : list R) : Prop := Forall (fun c => 0 < c) w.
Lemma wpos_nonneg w : wpos w -> Forall (fun c => 0 <= c) w.
Proof. intros. eapply Forall_impl; [|eassumption]. cbn; intros; lra. Qed.

(** ** Finite vectors *)
Lemma fins_map s : Forall (fun x : xr => nisfin x = true) (map Fin s).
Proof. apply Forall_fin. Qed.

Definition unfin (x : xr) : R := match x with Fin r => r | _ => 0 end.
Definition D (s : list R) : list R := map unfin (thr (map Fin s)).

Lemma thr_fin s : thr (map Fin s) = map Fin (D s).
Proof.
  unfold D. rewrite map_map. symmetry. rewrite <- (map_id (thr (map Fin s))) at 2. apply map_ext_in.
  intros a Ha. apply thr_in in Ha. apply in_map_iff in Ha as (r & <- & _). reflexivity.
Qed.

Lemma D_spec s : distinct_desc s (D s).
Proof.
  split.
  - pose proof (thr_sorted (map Fin s) (fins_map s)) as S. rewrite thr_fin in S.
    revert S. generalize (D s). intros l S. induction l as [|a l IH]; [constructor|].
    cbn in S. inversion S as [|? ? S' F]; subst. constructor; [now apply IH|].
    apply Forall_forall. intros x Hx. eapply Forall_forall in F; [|apply in_map, Hx].
    unfold gt in F. cbn in F. apply Rltb_spec in F. lra.
  - intros x. split; intros H.
    + assert (In (Fin x) (thr (map Fin s))) as I by (rewrite thr_fin; now apply in_map).
      apply thr_in in I. apply in_map_iff in I as (r & E & I). now injection E as ->.
    + destruct (thr_complete (map Fin s) (Fin x) (fins_map s)) as (t & I & E); [now apply in_map|].
      rewrite thr_fin in I. apply in_map_iff in I as (r & <- & I). cbn in E. apply Reqb_spec in E. now subst.
Qed.

Lemma D_nonempty s : s <> [] -> D s <> [].
Proof.
  intros N E. apply (thr_nonempty (map Fin s)); [now destruct s|]. rewrite thr_fin, E. reflexivity.
Qed.

Lemma sum1_fin l : sum1 (map Fin l) = Fin (Rsum l).
Proof. destruct l as [|a l]; [reflexivity|]. cbn [map sum1]. rewrite fold_xadd_fin. reflexivity. Qed.

Definition finw (p : R * (bool * R)) : xr * (bool * xr) := (Fin (fst p), (fst (snd p), Fin (snd (snd p)))).

Lemma samples_fin s y w : length s = length y -> length w = length y ->
  samples (map Fin s) y (map Fin w) = map finw (combine s (combine y w)).
Proof.
  unfold samples. revert y w; induction s as [|a s IH]; intros [|b y] [|c w] L1 L2; try discriminate; [reflexivity|].
  cbn [map combine]. f_equal. apply IH; cbn in *; lia.
Qed.

Lemma sorted_samples_fin s y w : length s = length y -> length w = length y ->
  sorted_samples (map Fin s) y (map Fin w) = map finw (take (combine s (combine y w)) (rev (argsort_stable (map Fin s)))) /\
  Permutation (take (combine s (combine y w)) (rev (argsort_stable (map Fin s)))) (combine s (combine y w)).
Proof.
  intros L1 L2. unfold sorted_samples. rewrite samples_fin, take_map by auto. split; auto.
  apply take_perm. rewrite !combine_length. replace (Nat.min (length s) (Nat.min (length y) (length w))) with (length (map Fin s))
    by (rewrite map_length; lia). apply desc_perm.
Qed.

Lemma filter_map_comm {A B} (f : A -> B) (p : B -> bool) l : filter p (map f l) = map f (filter (fun a => p (f a)) l).
Proof. induction l as [|a l IH]; cbn; auto. destruct (p (f a)); cbn; now rewrite IH. Qed.

Lemma above_fin (h : xr * (bool * xr) -> xr) (sel : R -> bool -> bool) s y w t :
  length s = length y -> length w = length y ->
  (forall p, h (finw p) = Fin (if sel (fst p) (fst (snd p)) then snd (snd p) else 0)) ->
  sum1 (map h (at_or_above (Fin t) (sorted_samples (map Fin s) y (map Fin w)))) =
  Fin (wt (fun a b => sel a b && Rleb t a) s y w).
Proof.
  intros L1 L2 H. destruct (sorted_samples_fin s y w L1 L2) as [E P]. rewrite E. unfold at_or_above.
  rewrite filter_map_comm, map_map. erewrite map_ext; [|exact H].
  rewrite <- (map_map (fun p => if sel (fst p) (fst (snd p)) then snd (snd p) else 0) Fin), sum1_fin. f_equal.
  rewrite wt_wtl, <- (wtl_perm _ _ _ P).
  match goal with |- Rsum (map _ (filter ?f ?l)) = _ => change (wtl sel (filter f l) = wtl (fun a b => sel a b && Rleb t a) l) end.
  apply wtl_filter. intros p _. cbn. now rewrite andb_comm.
Qed.

Lemma tps_row_fin s y w : length s = length y -> length w = length y ->
  tps_row (map Fin s) y (map Fin w) = map (fun t => Fin (w_ge true t s y w)) (D s).
Proof.
  intros L1 L2. unfold tps_row. rewrite thr_fin, map_map. apply map_ext. intros t.
  rewrite (above_fin _ (fun _ b => b)); auto.
  - f_equal. apply wt_ext. intros a b _ _. now destruct b.
  - intros [a [[] c]]; cbn; f_equal; lra.
Qed.

Lemma fps_row_fin s y w : length s = length y -> length w = length y ->
  fps_row (map Fin s) y (map Fin w) = map (fun t => Fin (w_ge false t s y w)) (D s).
Proof.
  intros L1 L2. unfold fps_row. rewrite thr_fin, map_map. apply map_ext. intros t.
  rewrite (above_fin wpart (fun _ b => b)); auto; [|intros [a [[] c]]; cbn; f_equal; lra].
  rewrite (above_fin wall (fun _ b => true)); auto.
  cbn [nsub xr_num xsub xadd xopp]. f_equal.
  rewrite (wt_split (fun a _ => true && Rleb t a) (fun a b => b && Rleb t a) (fun a b => eqb b false && Rleb t a)).
  - unfold w_ge. lra.
  - intros a b _ _. destruct b, (Rleb t a); cbn; lra.
Qed.

(** Everything is at or above the smallest threshold. *)
Lemma D_last_min s d x : In x s -> last (D s) d <= x.
Proof.
  intros H. assert (s <> []) as Ne by now intros ->.
  pose proof (last_thr_min (map Fin s) (repeat true (length s)) (fins_map s)) as M.
  assert (map Fin s <> []) as Nm by now destruct s.
  rewrite map_length, repeat_length in M.
  specialize (M eq_refl Nm (Fin d) (Fin x) (in_map Fin _ _ H)). rewrite thr_fin, (last_map Fin (D s) _ d) in M by now apply D_nonempty.
  now apply Rleb_spec in M.
Qed.

Lemma w_ge_last c s y w d : s <> [] -> w_ge c (last (D s) d) s y w = w_all c s y w.
Proof.
  intros Ne. apply wt_ext. intros a b Ha _. assert (Rleb (last (D s) d) a = true) as ->.
  { apply Rleb_spec. now apply D_last_min. }
  now rewrite andb_true_r.
Qed.

Lemma isclose_refl a : isclose (Fin a) (Fin a) = true.
Proof.
  unfold isclose. cbn [nisfin xr_num xisfin andb].
  assert (forall n, (0 < n)%Z -> (ndiv n1 (nofZ n) : xr) = Fin (1 / IZR n)) as E.
  { intros n Hn. cbn. destruct (Reqb (IZR n) 0) eqn:Q; [|reflexivity]. apply Reqb_spec in Q. apply IZR_lt in Hn. lra. }
  rewrite !E by lia.
  assert (forall x, exists z, 0 <= z /\ (nabs (Fin x) : xr) = Fin z) as A.
  { intros x. unfold nabs. cbn [nleb xr_num xleb n0]. destruct (Rleb x 0) eqn:Q.
    - exists (0 - x). apply Rleb_spec in Q. split; [lra|]. reflexivity.
    - exists x. apply Rleb_false in Q. split; [lra|reflexivity]. }
  cbn [nsub xr_num xsub xadd xopp]. replace (a + - a) with 0 by lra.
  assert ((nabs (Fin 0) : xr) = Fin 0) as ->.
  { unfold nabs. cbn. destruct (Rleb 0 0) eqn:Q; [|reflexivity]. f_equal. lra. }
  destruct (A a) as (z & Hz & ->). cbn [nmul xmul xr_num nadd xadd nleb xleb]. apply Rleb_spec.
  assert (0 < 1 / IZR (10 ^ 8)) by (apply Rdiv_lt_0_compat; [lra|apply IZR_lt; lia]).
  assert (0 < 1 / IZR (10 ^ 5)) by (apply Rdiv_lt_0_compat; [lra|apply IZR_lt; lia]).
  pose proof (Rmult_le_pos (1 / IZR (10 ^ 5)) z). lra.
Qed.

Lemma mask_combine_filter {A} (m : list bool) (l : list A) : mask m l = map snd (filter fst (combine m l)).
Proof. revert l; induction m as [|[] m IH]; intros [|a l]; cbn; auto. now rewrite IH. Qed.

Lemma mask_sum n (c : bool) s y w : length s = length y -> length w = length y ->
  row_sum n (mask (map (fun b => eqb b c) (take y (rev (argsort_stable (map Fin s))))) (take (map Fin w) (rev (argsort_stable (map Fin s)))))
  = Fin (w_all c s y w).
Proof.
  intros L1 L2. rewrite row_sum_xr, take_map, mask_map, nsum_fin. f_equal.
  destruct (sorted_samples_fin s y w L1 L2) as [_ P]. unfold w_all. rewrite wt_wtl, <- (wtl_perm _ _ _ P).
  rewrite take_combine by (rewrite combine_length; lia). rewrite take_combine by auto.
  set (desc := rev (argsort_stable (map Fin s))).
  assert (forall l : list R, length l = length y -> length (take l desc) = length y) as L.
  { intros l H. unfold desc. rewrite take_desc_length; rewrite map_length; congruence. }
  assert (length (take y desc) = length y) as Ly by (unfold desc; rewrite take_desc_length; rewrite map_length; congruence).
  pose proof (L s L1) as Ls. pose proof (L w L2) as Lw. rewrite <- Ly in Ls, Lw. clear -Ls Lw.
  revert Ls Lw. generalize (take s desc) (take y desc) (take w desc). clear.
  intros s; induction s as [|a s IH]; intros [|b y] [|d w] H1 H2; try discriminate; [reflexivity|].
  unfold wtl in *. cbn [map mask combine fst snd]. rewrite Rsum_cons, <- IH by (cbn in *; lia).
  destruct (eqb b c); cbv iota; rewrite ?Rsum_cons; lra.
Qed.

Lemma neg_sum_fin n s y w : length s = length y -> length w = length y -> neg_sum (map Fin s) y n (map Fin w) = Fin (w_all false s y w).
Proof.
  intros L1 L2. unfold neg_sum. rewrite <- (mask_sum n) by auto.
  erewrite (map_ext negb); [reflexivity|]. now intros [].
Qed.
Lemma pos_sum_fin n s y w : length s = length y -> length w = length y -> pos_sum (map Fin s) y n (map Fin w) = Fin (w_all true s y w).
Proof.
  intros L1 L2. unfold pos_sum. rewrite <- (mask_sum n) by auto. rewrite <- (map_id (take y _)) at 1.
  erewrite (map_ext (fun b : bool => b)); [reflexivity|]. now intros [].
Qed.

Lemma allclose_refl l : allclose (map Fin l) (map Fin l) = true.
Proof. unfold allclose. induction l; cbn [map combine forallb fst snd]; auto. now rewrite isclose_refl. Qed.

(** ** The assembled rows *)
Definition eps : R := 1 / IZR (10 ^ 10).
Lemma eps_pos : 0 < eps.
Proof. unfold eps. apply Rdiv_lt_0_compat; [lra|]. apply IZR_lt. lia. Qed.
Lemma EPSILON_fin : (EPSILON : xr) = Fin eps.
Proof.
  unfold EPSILON, eps. cbn [ndiv xr_num n1 nofZ xdiv]. assert (0 < IZR (10 ^ 10)) by (apply IZR_lt; lia).
  destruct (Reqb (IZR (10 ^ 10)) 0) eqn:Q; [|reflexivity]. apply Reqb_spec in Q. lra.
Qed.

(** Values at one threshold after the single-class correction. *)
Definition fpv (t : R) s y w : R := if existsb negb y then w_ge false t s y w else eps * w_ge true t s y w.
Definition tpv (t : R) s y w : R := if existsb (fun b => b) y then w_ge true t s y w else eps * w_ge false t s y w.
Definition fcol s y w : list R := 0 :: map (fun t => fpv t s y w) (D s).
Definition tcol s y w : list R := 0 :: map (fun t => tpv t s y w) (D s).

Lemma has_label c y : existsb (fun b => eqb b c) y = true <-> In c y.
Proof.
  rewrite existsb_exists. split.
  - intros (b & I & E). apply eqb_prop in E. now subst.
  - intros I. exists c. split; auto. apply eqb_reflx.
Qed.
Lemma existsb_ext {A} (p q : A -> bool) l : (forall a, p a = q a) -> existsb p l = existsb q l.
Proof. intros E. induction l; cbn; auto. now rewrite E, IHl. Qed.
Lemma has_neg y : existsb negb y = true <-> In false y.
Proof. rewrite <- has_label. erewrite existsb_ext; [reflexivity|]. now intros []. Qed.
Lemma has_pos y : existsb (fun b => b) y = true <-> In true y.
Proof. rewrite <- has_label. erewrite existsb_ext; [reflexivity|]. now intros []. Qed.

Lemma w_all_pos c s y w : length s = length y -> length w = length y -> wpos w -> In c y -> 0 < w_all c s y w.
Proof.
  intros L1 L2 W I. apply In_nth_error in I as [i Hi].
  destruct (nth_error s i) as [a|] eqn:Ha.
  - eapply wt_pos; eauto. apply eqb_reflx.
  - apply nth_error_None in Ha. assert (i < length y)%nat by (apply nth_error_Some; congruence). lia.
Qed.
Lemma w_all_zero c s y w : ~ In c y -> w_all c s y w = 0.
Proof. intros N. apply wt_false. intros a b _ I. destruct (eqb b c) eqn:E; auto. apply eqb_prop in E. now subst. Qed.
Lemma w_ge_zero c t s y w : ~ In c y -> w_ge c t s y w = 0.
Proof. intros N. apply wt_false. intros a b _ I. destruct (eqb b c) eqn:E; auto. apply eqb_prop in E. now subst. Qed.

Lemma w_ge_mono c t t' s y w : wpos w -> t' <= t -> w_ge c t s y w <= w_ge c t' s y w.
Proof.
  intros W L. apply wt_le; [now apply wpos_nonneg|]. intros a b _ _ H. apply andb_true_iff in H as [-> H].
  apply Rleb_spec in H. cbn. apply Rleb_spec. lra.
Qed.
Lemma w_ge_nonneg c t s y w : wpos w -> 0 <= w_ge c t s y w.
Proof. intros W. apply wt_nonneg. now apply wpos_nonneg. Qed.

Lemma fpv_mono t t' s y w : wpos w -> t' <= t -> 0 <= fpv t s y w <= fpv t' s y w.
Proof.
  intros W L. unfold fpv. pose proof eps_pos. pose proof (w_ge_nonneg false t s y w W). pose proof (w_ge_nonneg true t s y w W).
  destruct (existsb negb y); pose proof (w_ge_mono false t t' s y w W L); pose proof (w_ge_mono true t t' s y w W L).
  - lra. - split; [apply Rmult_le_pos|apply Rmult_le_compat_l]; lra.
Qed.
Lemma tpv_mono t t' s y w : wpos w -> t' <= t -> 0 <= tpv t s y w <= tpv t' s y w.
Proof.
  intros W L. unfold tpv. pose proof eps_pos. pose proof (w_ge_nonneg false t s y w W). pose proof (w_ge_nonneg true t s y w W).
  destruct (existsb (fun b => b) y); pose proof (w_ge_mono false t t' s y w W L); pose proof (w_ge_mono true t t' s y w W L).
  - lra. - split; [apply Rmult_le_pos|apply Rmult_le_compat_l]; lra.
Qed.

Lemma col_sorted (v : R -> R) l : (forall t t', t' <= t -> 0 <= v t <= v t') -> StronglySorted Rgt l ->
  StronglySorted Rle (0 :: map v l).
Proof.
  intros H S. constructor.
  - induction S as [|a l S IH F]; cbn; constructor; auto. apply Forall_forall. intros x Hx.
    apply in_map_iff in Hx as (t & <- & Ht). eapply Forall_forall in F; eauto. apply H. lra.
  - apply Forall_forall. intros x Hx. apply in_map_iff in Hx as (t & <- & Ht). apply (H t t). lra.
Qed.

Lemma fcol_sorted s y w : wpos w -> StronglySorted Rle (fcol s y w).
Proof. intros W. apply col_sorted; [intros; now apply fpv_mono|apply D_spec]. Qed.
Lemma tcol_sorted s y w : wpos w -> StronglySorted Rle (tcol s y w).
Proof. intros W. apply col_sorted; [intros; now apply tpv_mono|apply D_spec]. Qed.

Definition n_neg s y w : R := if existsb negb y then w_all false s y w else eps * w_all true s y w.
Definition n_pos s y w : R := if existsb (fun b => b) y then w_all true s y w else eps * w_all false s y w.

Lemma last_cons_ne {A} (a : A) l d : l <> [] -> last (a :: l) d = last l d.
Proof. destruct l; [congruence|reflexivity]. Qed.

Lemma fcol_last s y w d : s <> [] -> last (fcol s y w) d = n_neg s y w.
Proof.
  intros Ne. unfold fcol. pose proof (D_nonempty s Ne) as Nd.
  rewrite last_cons_ne by (destruct (D s); [congruence|discriminate]).
  rewrite (last_map (fun t => fpv t s y w) (D s) d 0 Nd). unfold fpv, n_neg. now rewrite !w_ge_last.
Qed.
Lemma tcol_last s y w d : s <> [] -> last (tcol s y w) d = n_pos s y w.
Proof.
  intros Ne. unfold tcol. pose proof (D_nonempty s Ne) as Nd.
  rewrite last_cons_ne by (destruct (D s); [congruence|discriminate]).
  rewrite (last_map (fun t => tpv t s y w) (D s) d 0 Nd). unfold tpv, n_pos. now rewrite !w_ge_last.
Qed.

Lemma some_label (y : list bool) : y <> [] -> In true y \/ In false y.
Proof. destruct y as [|[] y]; [congruence|left; now left|right; now left]. Qed.

Lemma n_neg_pos s y w : length s = length y -> length w = length y -> s <> [] -> wpos w -> 0 < n_neg s y w.
Proof.
  intros L1 L2 Ne W. unfold n_neg. destruct (existsb negb y) eqn:E.
  - apply w_all_pos; auto. now apply has_neg.
  - apply Rmult_lt_0_compat; [apply eps_pos|]. apply w_all_pos; auto.
    destruct (some_label y) as [H|H]; auto. { destruct s, y; cbn in *; congruence. }
    apply has_neg in H. congruence.
Qed.
Lemma n_pos_pos s y w : length s = length y -> length w = length y -> s <> [] -> wpos w -> 0 < n_pos s y w.
Proof.
  intros L1 L2 Ne W. unfold n_pos. destruct (existsb (fun b => b) y) eqn:E.
  - apply w_all_pos; auto. now apply has_pos.
  - apply Rmult_lt_0_compat; [apply eps_pos|]. apply w_all_pos; auto.
    destruct (some_label y) as [H|H]; auto. { destruct s, y; cbn in *; congruence. }
    apply has_pos in H. congruence.
Qed.

Lemma max_acc_fin l a : StronglySorted Rle (a :: l) -> max_acc_from (Fin a) (map Fin l) = map Fin l.
Proof.
  revert a; induction l as [|b l IH]; intros a S; [reflexivity|]. cbn [map max_acc_from].
  inversion S as [|? ? S' F]; subst. inversion F as [|? ? Hab F']; subst.
  assert (nmax (Fin a) (Fin b) = Fin b) as ->.
  { unfold nmax. cbn [nleb xr_num xleb nisnan xisnan]. destruct (Rleb b a) eqn:E; [|reflexivity].
    apply Rleb_spec in E. cbn. f_equal. lra. }
  f_equal. now apply IH.
Qed.
Lemma max_accumulate_fin l : StronglySorted Rle l -> max_accumulate (map Fin l) = map Fin l.
Proof. destruct l as [|a l]; intros S; [reflexivity|]. cbn [map max_accumulate]. f_equal. now apply max_acc_fin. Qed.

Lemma lastn_fin l : l <> [] -> lastn (map Fin l) = Fin (last l 0).
Proof. intros N. unfold lastn. apply (last_map Fin). exact N. Qed.

Lemma Reqb_false_iff a b : Reqb a b = false <-> a <> b.
Proof.
  split.
  - intros H E. apply Reqb_spec in E. congruence.
  - intros N. destruct (Reqb a b) eqn:E; auto. apply Reqb_spec in E. contradiction.
Qed.

Lemma map_eps l : map (nmul (Fin eps)) (map Fin l) = map Fin (map (Rmult eps) l).
Proof. rewrite !map_map. reflexivity. Qed.

Lemma fin_col (v : R -> R) l : map Fin (0 :: map v l) = Fin 0 :: map (fun t => Fin (v t)) l.
Proof. cbn [map]. now rewrite map_map. Qed.
Lemma eps_col (v : R -> R) l : map (nmul (Fin eps)) (Fin 0 :: map (fun t => Fin (v t)) l) = Fin 0 :: map (fun t => Fin (eps * v t)) l.
Proof. cbn [map]. rewrite map_map. cbn [nmul xr_num xmul]. now rewrite Rmult_0_r. Qed.

Section ExactRow.
  Context (s : list R) (y : list bool) (w : list R).
  Hypothesis (L1 : length s = length y) (L2 : length w = length y) (Ne : s <> []) (W : wpos w).
  Let f0_ := map (fun t => Fin (w_ge false t s y w)) (D s).
  Let t0_ := map (fun t => Fin (w_ge true t s y w)) (D s).

  Lemma last_raw c : lastn (n0 :: map (fun t => Fin (w_ge c t s y w)) (D s)) = Fin (w_all c s y w).
  Proof.
    unfold lastn. pose proof (D_nonempty s Ne) as Nd.
    rewrite last_cons_ne by (destruct (D s); [congruence|discriminate]).
    rewrite (last_map (fun t => Fin (w_ge c t s y w)) (D s) _ 0 Nd). now rewrite w_ge_last.
  Qed.

  Lemma fix_neg : neqb (Fin (w_all false s y w)) n0 = negb (existsb negb y).
  Proof.
    destruct (existsb negb y) eqn:E; cbn.
    - apply Reqb_false_iff. apply has_neg in E. pose proof (w_all_pos false s y w L1 L2 W E). lra.
    - apply Reqb_spec. apply w_all_zero. intros H. apply has_neg in H. congruence.
  Qed.
  Lemma fix_pos : neqb (Fin (w_all true s y w)) n0 = negb (existsb (fun b => b) y).
  Proof.
    destruct (existsb (fun b => b) y) eqn:E; cbn.
    - apply Reqb_false_iff. apply has_pos in E. pose proof (w_all_pos true s y w L1 L2 W E). lra.
    - apply Reqb_spec. apply w_all_zero. intros H. apply has_pos in H. congruence.
  Qed.

  Lemma row_pseudo_fin : row_pseudo f0_ t0_ = (map Fin (fcol s y w), map Fin (tcol s y w)).
  Proof.
    unfold row_pseudo, pseudo_row. unfold f0_, t0_. rewrite !last_raw, fix_neg, fix_pos, EPSILON_fin.
    assert (existsb negb y = true \/ existsb (fun b => b) y = true) as C.
    { destruct (some_label y) as [H|H]; [destruct s, y; cbn in *; congruence| |];
        [right; now apply has_pos|left; now apply has_neg]. }
    unfold fcol, tcol, fpv, tpv. change (@n0 xr _) with (Fin 0).
    destruct (existsb negb y), (existsb (fun b => b) y); cbn [negb]; rewrite ?eps_col, ?fin_col; try reflexivity.
    destruct C; discriminate.
  Qed.
  Lemma row_out_fin : row_out f0_ t0_ = (map Fin (fcol s y w), map Fin (tcol s y w)).
  Proof.
    unfold row_out. rewrite row_pseudo_fin. cbn [fst snd]. now rewrite max_accumulate_fin by now apply fcol_sorted.
  Qed.

  Lemma row_ok_fin : row_ok f0_ t0_ = true.
  Proof.
    unfold row_ok. rewrite row_out_fin, row_pseudo_fin. cbn [fst snd].
    rewrite !lastn_fin by discriminate. rewrite fcol_last, tcol_last by auto.
    rewrite !diff_sorted_nonneg by (auto using Forall_fin; apply sorted_fin; auto using fcol_sorted, tcol_sorted).
    rewrite !andb_true_r. apply andb_true_iff. split; apply Rltb_spec; auto using n_neg_pos, n_pos_pos.
  Qed.
End ExactRow.

(** Unweighted counts are weights of one. *)
Lemma cntZ_ones c (p : bool -> bool) s y t : (forall b, p b = eqb b c) -> length s = length y ->
  IZR (cntZ (map Fin s) y p (Fin t)) = w_ge c t s y (repeat 1 (length y)).
Proof.
  intros Hp. unfold cntZ, w_ge. revert y; induction s as [|a s IH]; intros [|b y] L; try discriminate; [reflexivity|].
  cbn [map combine filter length repeat wt]. change (nleb (Fin t) (fst (Fin a, b)) && p (snd (Fin a, b))) with (Rleb t a && p b). rewrite Hp, andb_comm.
  specialize (IH y ltac:(cbn in *; lia)).
  destruct (eqb b c && Rleb t a).
  - cbn [length]. rewrite Nat2Z.inj_succ, succ_IZR, IH. lra.
  - rewrite IH. lra.
Qed.

Lemma repeat_pos n : wpos (repeat 1 n).
Proof. apply Forall_forall. intros x H. apply repeat_spec in H. subst. lra. Qed.

(** ** The whole function in exact arithmetic *)
Theorem clf_exact s y sw : valid_input s y sw ->
  _binary_clf_curve y (map Fin s) (option_map (map (map Fin)) sw) =
  Ok (map (fun w => map Fin (fcol s y w)) (weight_rows sw (length y)),
      map (fun w => map Fin (tcol s y w)) (weight_rows sw (length y)), PInf :: map Fin (D s)).
Proof.
  intros (L1 & Ne & V).
  assert (length (map Fin s) = length y) as L1' by now rewrite map_length.
  assert (map Fin s <> []) as Ne' by now destruct s.
  destruct sw as [Ws|]; cbn [option_map weight_rows].
  - destruct V as [Nw V].
    assert (forall w, In w Ws -> length w = length y /\ wpos w) as HW by (intros w Hw; eapply Forall_forall in V; eauto; exact V).
    rewrite clf_weighted; auto using fins_map.
    2:{ apply forallb_forall. intros r Hr. apply in_map_iff in Hr as (w & <- & Hw). rewrite map_length. apply Nat.eqb_eq. now apply HW. }
    2:{ now destruct Ws. }
    2:{ apply forallb_forall. intros r Hr. apply in_map_iff in Hr as (w & <- & Hw). apply forallb_forall.
        intros x Hx. apply in_map_iff in Hx as (c & <- & _). reflexivity. }
    2:{ apply forallb_forall. intros r Hr. apply in_map_iff in Hr as (w & <- & Hw). apply forallb_forall.
        intros x Hx. apply in_map_iff in Hx as (c & <- & Hc). cbn. apply Rltb_spec. destruct (HW w Hw) as [_ P].
        eapply Forall_forall in P; eauto. }
    rewrite !map_map.
    assert (forall w, In w Ws -> lastn (fps_row (map Fin s) y (map Fin w)) = Fin (w_all false s y w)) as E1.
    { intros w Hw. rewrite fps_row_fin by (auto; now apply HW). rewrite <- last_raw by auto. unfold lastn.
      rewrite last_cons_ne; auto. pose proof (D_nonempty s Ne). now destruct (D s). }
    assert (forall w, In w Ws -> lastn (tps_row (map Fin s) y (map Fin w)) = Fin (w_all true s y w)) as E2.
    { intros w Hw. rewrite tps_row_fin by (auto; now apply HW). rewrite <- last_raw by auto. unfold lastn.
      rewrite last_cons_ne; auto. pose proof (D_nonempty s Ne). now destruct (D s). }
    rewrite (map_ext_in _ _ _ E1), (map_ext_in _ _ _ E2).
    rewrite (map_ext_in (fun x => neg_sum (map Fin s) y _ (map Fin x)) (fun w => Fin (w_all false s y w)))
      by (intros w Hw; apply neg_sum_fin; auto; now apply HW).
    rewrite (map_ext_in (fun x => pos_sum (map Fin s) y _ (map Fin x)) (fun w => Fin (w_all true s y w)))
      by (intros w Hw; apply pos_sum_fin; auto; now apply HW).
    rewrite <- !(map_map _ Fin Ws), !allclose_refl. cbn [py_assert bind].
    rewrite (map_ext_in _ (fun w => (map (fun t => Fin (w_ge false t s y w)) (D s), map (fun t => Fin (w_ge true t s y w)) (D s))))
      by (intros w Hw; rewrite fps_row_fin, tps_row_fin by (auto; now apply HW); reflexivity).
    unfold finish. rewrite forallb_map.
    rewrite (proj2 (forallb_forall _ _)) by (intros w Hw; destruct (HW w Hw); cbn [fst snd]; now apply row_ok_fin).
    cbn [py_assert bind]. rewrite !map_map, thr_fin. cbn [fst snd].
    rewrite (map_ext_in _ (fun w => map Fin (fcol s y w))) by (intros w Hw; destruct (HW w Hw); now rewrite row_out_fin).
    rewrite (map_ext_in (fun w => snd (row_out _ _)) (fun w => map Fin (tcol s y w))) by (intros w Hw; destruct (HW w Hw); now rewrite row_out_fin).
    reflexivity.
  - rewrite clf_unweighted by auto using fins_map. rewrite thr_fin, !map_map.
    cbn [nofZ xr_num].
    erewrite (map_ext (fun x => Fin (IZR (cntZ (map Fin s) y negb (Fin x))))) by (intros t; rewrite (cntZ_ones false) by (auto; now intros []); reflexivity).
    erewrite (map_ext (fun x => Fin (IZR (cntZ (map Fin s) y (fun b => b) (Fin x))))) by (intros t; rewrite (cntZ_ones true) by (auto; now intros []); reflexivity).
    unfold finish. cbn [forallb fst snd map]. pose proof (repeat_pos (length y)) as W.
    assert (length (repeat 1 (length y)) = length y) as L2 by apply repeat_length.
    rewrite row_ok_fin, row_out_fin by auto. reflexivity.
Qed.
