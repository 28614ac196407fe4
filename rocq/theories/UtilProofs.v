(** Lemmas on one_hot, normalize, sorting and epsilon_noise. *)
From Coq Require Import Reals Lra Permutation Sorted.
From Verif Require Import PyBase F64 Num NumOk Util.
Open Scope Z_scope.

(** ** one_hot *)

Lemma set_true_length r j : length (set_true r j) = length r.
Proof. revert j; induction r; intros [|j]; cbn; auto. Qed.

Lemma set_true_nth n j k : (k < n)%nat ->
  nth_error (set_true (repeat false n) j) k = Some (Nat.eqb k j).
Proof.
  revert j k; induction n; intros j k H; [lia|].
  destruct j as [|j], k as [|k]; cbn [repeat set_true nth_error]; try reflexivity.
  - rewrite nth_error_repeat by lia. reflexivity.
  - rewrite IHn by lia. reflexivity.
Qed.

Lemma one_hot_ok kd y L :
  one_hot kd y L =
  if (1 <=? L) && dkind_eqb kd Ki && forallb (fun v => (0 <=? v) && (v <? L)) y
  then Ok (map (fun v => set_true (repeat false (Z.to_nat L)) (Z.to_nat v)) y) else Err AssertionError.
Proof.
  unfold one_hot. destruct (1 <=? L); [|reflexivity]. destruct (dkind_eqb kd Ki); [|reflexivity].
  assert (forallb (fun v => 0 <=? v) y && forallb (fun v => v <? L) y
          = forallb (fun v => (0 <=? v) && (v <? L)) y) as ->.
  { induction y as [|a y IH]; [reflexivity|]. cbn [forallb]. rewrite <- IH.
    destruct (0 <=? a), (a <? L), (forallb (fun v => 0 <=? v) y), (forallb (fun v => v <? L) y); reflexivity. }
  cbn [andb]. destruct (forallb _ y); reflexivity.
Qed.

(** ** Sums and maxima over the extended reals *)
Open Scope R_scope.

Definition Rsum (l : list R) : R := fold_right Rplus 0 l.

Lemma Rsum_app l m : Rsum (l ++ m) = Rsum l + Rsum m.
Proof. unfold Rsum. induction l; cbn [app fold_right]; lra. Qed.
Lemma Rsum_cons a l : Rsum (a :: l) = a + Rsum l.
Proof. reflexivity. Qed.
Lemma Rsum_nonneg l : Forall (fun x => 0 <= x) l -> 0 <= Rsum l.
Proof. unfold Rsum. induction 1; cbn [fold_right]; lra. Qed.

Lemma fold_xadd_fin l a : fold_left (@nadd xr _) (map Fin l) (Fin a) = Fin (a + Rsum l).
Proof.
  revert a; induction l as [|b l IH]; intros a; cbn [map fold_left].
  - cbn. f_equal. lra.
  - cbn [nadd xr_num xadd]. rewrite IH, Rsum_cons. f_equal. lra.
Qed.
Lemma nsum_fin l : nsum (map Fin l) = Fin (Rsum l).
Proof. unfold nsum. cbn [n0 xr_num]. rewrite fold_xadd_fin. f_equal. lra. Qed.

(** ** normalize *)

(** log probabilities: finite or -inf *)
Definition logp (a : xr) : Prop := match a with Fin _ | NInf => True | _ => False end.
Definition is_fin (a : xr) : Prop := match a with Fin _ => True | _ => False end.
(** the probability they stand for *)
Definition pr (a : xr) : R := match a with Fin x => exp x | _ => 0 end.

Lemma pr_nonneg a : 0 <= pr a.
Proof. destruct a; cbn; try lra. apply Rlt_le, exp_pos. Qed.

Lemma fold_nmax_logp l a : logp a -> Forall logp l ->
  let m := fold_left nmax l a in
  logp m /\ (is_fin a \/ Exists is_fin l -> is_fin m).
Proof.
  revert a; induction l as [|b l IH]; intros a Ha Hl; cbn [fold_left].
  - cbn. split; auto. intros [H|H]; auto. inversion H.
  - inversion Hl as [|? ? Hb Hl']; subst.
    assert (logp (nmax a b) /\ (is_fin a \/ is_fin b -> is_fin (nmax a b))) as [M1 M2].
    { unfold nmax; cbn. destruct a as [x| | |], b as [y| | |]; cbn in *; try contradiction; cbn; auto;
        try (destruct (Rleb y x); cbn; auto); tauto. }
    destruct (IH (nmax a b) M1 Hl') as [I1 I2]. split; auto.
    intros H. apply I2. destruct H as [H|H]; [left; auto|]. inversion H; subst; auto.
Qed.

Lemma amax_logp row : Forall logp row -> Exists is_fin row -> exists M, amax row = Fin M.
Proof.
  intros F E. destruct row as [|a l]; [inversion E|]. inversion F; subst. cbn [amax].
  destruct (fold_nmax_logp l a) as [L I]; auto.
  assert (is_fin (fold_left nmax l a)) by (apply I; inversion E; auto).
  destruct (fold_left nmax l a); try contradiction. eauto.
Qed.

Definition shift (L : R) (a : xr) : xr := match a with Fin x => Fin (x - L) | _ => a end.

Lemma Exists_pr_pos row : Exists is_fin row -> 0 < Rsum (map pr row).
Proof.
  induction 1 as [a l H|a l H IH]; cbn [map]; rewrite Rsum_cons.
  - assert (0 <= Rsum (map pr l)) by (apply Rsum_nonneg, Forall_forall; intros x Hx; apply in_map_iff in Hx as (? & <- & _); apply pr_nonneg).
    destruct a; try contradiction. cbn [pr]. pose proof (exp_pos r). lra.
  - pose proof (pr_nonneg a). lra.
Qed.

Lemma normalize_row_spec row : Forall logp row -> Exists is_fin row ->
  normalize_row row = map (shift (ln (Rsum (map pr row)))) row.
Proof.
  intros F E. destruct (amax_logp row F E) as [M HM].
  pose proof (Exists_pr_pos row E) as P.
  assert (logsumexp row = Fin (ln (Rsum (map pr row)))) as HL.
  { unfold logsumexp. rewrite HM. cbn [nisfin xr_num xisfin].
    assert (map (fun a => xexp (nsub a (Fin M))) row = map Fin (map (fun a => pr a * exp (- M)) row)) as ->.
    { rewrite map_map. apply map_ext_in. intros a Ha. eapply Forall_forall in F; eauto.
      destruct a; cbn in *; try contradiction. - now rewrite <- exp_plus. - f_equal; lra. }
    rewrite nsum_fin.
    assert (Rsum (map (fun a => pr a * exp (- M)) row) = Rsum (map pr row) * exp (- M)) as ->.
    { clear. induction row; cbn [map]; rewrite ?Rsum_cons; [unfold Rsum; cbn [fold_right]; lra|]. rewrite IHrow. lra. }
    pose proof (exp_pos (- M)) as Q. cbn [nadd xr_num xlog].
    assert (0 < Rsum (map pr row) * exp (- M)) as PQ by (apply Rmult_lt_0_compat; lra).
    apply Rltb_spec in PQ. rewrite PQ. cbn [xadd]. f_equal. rewrite ln_mult by lra. rewrite ln_exp. lra. }
  unfold normalize_row. rewrite HL. apply map_ext_in. intros a Ha. eapply Forall_forall in F; eauto.
  destruct a; cbn in *; try contradiction; reflexivity.
Qed.

Lemma pr_shift L row : Forall logp row ->
  Rsum (map pr (map (shift L) row)) = Rsum (map pr row) * exp (- L).
Proof.
  induction 1 as [|a l H F IH]; cbn [map]; rewrite ?Rsum_cons; [unfold Rsum; cbn [fold_right]; lra|]. rewrite IH.
  destruct a; cbn in *; try contradiction; [|lra]. unfold Rminus. rewrite exp_plus. lra.
Qed.

Lemma shift_logp L row : Forall logp row -> Forall logp (map (shift L) row).
Proof. induction 1 as [|[] ? ?]; cbn; constructor; auto. Qed.
Lemma shift_fin L row : Exists is_fin row -> Exists is_fin (map (shift L) row).
Proof. induction 1 as [[] ? H| ]; cbn; try contradiction; [now left|now right]. Qed.

Lemma normalize_row_sum row : Forall logp row -> Exists is_fin row ->
  Rsum (map pr (normalize_row row)) = 1.
Proof.
  intros F E. rewrite normalize_row_spec by auto. rewrite pr_shift by auto.
  pose proof (Exists_pr_pos row E). rewrite exp_Ropp, exp_ln by auto. field. lra.
Qed.

Lemma normalize_row_idem row : Forall logp row -> Exists is_fin row ->
  normalize_row (normalize_row row) = normalize_row row.
Proof.
  intros F E. pose proof (normalize_row_sum row F E) as S.
  rewrite (normalize_row_spec row) in * by auto.
  rewrite (normalize_row_spec (map _ row)) by auto using shift_logp, shift_fin.
  rewrite S, ln_1, !map_map. apply map_ext_in. intros [] _; cbn; auto. f_equal; lra.
Qed.

Lemma normalize_row_offset c row : Forall logp row -> Exists is_fin row ->
  normalize_row (map (nadd (Fin c)) row) = normalize_row row.
Proof.
  intros F E.
  assert (map (nadd (Fin c)) row = map (shift (- c)) row) as ->.
  { apply map_ext_in. intros a Ha. eapply Forall_forall in F; eauto.
    destruct a; cbn in *; try contradiction; auto. f_equal; lra. }
  rewrite !normalize_row_spec by auto using shift_logp, shift_fin. rewrite pr_shift, map_map by auto.
  pose proof (Exists_pr_pos row E) as P. rewrite ln_mult by (auto; apply exp_pos). rewrite ln_exp.
  apply map_ext. intros []; cbn; auto. f_equal; lra.
Qed.

(** ** np.unique over an ordered number type *)
Section Sort.
  Context {T : Type} {NT : num T} {OK : num_ok NT}.
  Implicit Types l : list T.
  Definition okl l := Forall (fun x => nisnan x = false) l.
  Definition le (a b : T) := nleb a b = true.
  Definition lt (a b : T) := nltb a b = true.

  Lemma lt_le a b : lt a b -> le a b.
  Proof.
    unfold lt, le. intros H. destruct (ltb_notnan_ _ _ H) as [Na Nb]. rewrite ltb_leb_ in H by auto.
    destruct (leb_total_ a b Na Nb) as [|C]; auto. rewrite C in H. discriminate.
  Qed.
  Lemma lt_not_le a b : lt a b -> nleb b a = false.
  Proof.
    unfold lt. intros H. destruct (ltb_notnan_ _ _ H) as [Na Nb]. rewrite ltb_leb_ in H by auto.
    destruct (nleb b a); auto; discriminate.
  Qed.
  Lemma not_le_lt a b : nisnan a = false -> nisnan b = false -> nleb b a = false -> lt a b.
  Proof. intros Na Nb H. unfold lt. rewrite ltb_leb_, H by auto. reflexivity. Qed.
  Lemma le_lt_trans a b c : le a b -> lt b c -> lt a c.
  Proof.
    intros H1 H2. destruct (leb_notnan_ _ _ H1). destruct (ltb_notnan_ _ _ H2).
    apply not_le_lt; auto. destruct (nleb c a) eqn:E; auto.
    pose proof (lt_not_le _ _ H2) as N. unfold le in H1. rewrite (leb_trans_ _ _ _ E H1) in N. discriminate.
  Qed.
  Lemma lt_le_trans a b c : lt a b -> le b c -> lt a c.
  Proof.
    intros H1 H2. destruct (leb_notnan_ _ _ H2). destruct (ltb_notnan_ _ _ H1).
    apply not_le_lt; auto. destruct (nleb c a) eqn:E; auto.
    pose proof (lt_not_le _ _ H1) as N. unfold le in H2. rewrite (leb_trans_ _ _ _ H2 E) in N. discriminate.
  Qed.
  Lemma lt_trans a b c : lt a b -> lt b c -> lt a c.
  Proof. intros H1 H2. eapply le_lt_trans; eauto using lt_le. Qed.
  Lemma lt_irrefl a : ~ lt a a.
  Proof. intros H. pose proof (lt_not_le _ _ H) as N. pose proof (lt_le _ _ H) as L. unfold le in L. congruence. Qed.

  Lemma insert_perm x l : Permutation (x :: l) (insert x l).
  Proof.
    induction l as [|a l IH]; cbn; auto. destruct (nleb x a); auto.
    eapply perm_trans; [apply perm_swap|]. now constructor.
  Qed.
  Lemma sort_perm l : Permutation l (sort l).
  Proof. induction l; cbn; auto. eapply perm_trans; [|apply insert_perm]. now constructor. Qed.

  Lemma insert_sorted x l : nisnan x = false -> okl l -> StronglySorted le l -> StronglySorted le (insert x l).
  Proof.
    intros Nx O S. induction S as [|a l S IH H]; cbn.
    - repeat constructor.
    - inversion O as [|? ? Na Ol]; subst. destruct (nleb x a) eqn:E.
      + constructor; [now constructor|]. constructor; [exact E|].
        eapply Forall_impl; [|exact H]. intros b Hb. exact (leb_trans_ _ _ _ E Hb).
      + constructor; [now apply IH|]. eapply Permutation_Forall; [apply insert_perm|].
        constructor; auto. destruct (leb_total_ x a Nx Na) as [|L]; [congruence|exact L].
  Qed.
  Lemma sort_sorted l : okl l -> StronglySorted le (sort l).
  Proof.
    induction 1 as [|a l Na O IH]; cbn; [constructor|]. apply insert_sorted; auto.
    unfold okl. eapply Permutation_Forall; [apply sort_perm|]; auto.
  Qed.

  Lemma dedup_cons a b l : dedup (a :: b :: l) = if neqb a b then dedup (b :: l) else a :: dedup (b :: l).
  Proof. reflexivity. Qed.

  Lemma dedup_incl l x : In x (dedup l) -> In x l.
  Proof.
    induction l as [|a [|b l] IH]; auto. rewrite dedup_cons. destruct (neqb a b); intros H.
    - right; auto. - destruct H as [->|H]; [now left|right; auto].
  Qed.

  Lemma dedup_sorted l : StronglySorted le l -> okl l -> StronglySorted lt (dedup l).
  Proof.
    induction l as [|a [|b l] IH]; intros S O; try (repeat constructor).
    rewrite dedup_cons. inversion S as [|? ? S' H]; subst. inversion O as [|? ? Na O']; subst.
    destruct (neqb a b) eqn:E; [now apply IH|]. constructor; [now apply IH|].
    apply Forall_forall. intros x Hx. apply dedup_incl in Hx.
    inversion H as [|? ? Hab H']; subst. inversion O' as [|? ? Nb O'']; subst.
    assert (lt a b) as L.
    { apply not_le_lt; auto. rewrite eqb_leb_ in E. unfold le in Hab. rewrite Hab in E. exact E. }
    destruct Hx as [<-|Hx]; auto. eapply lt_le_trans; eauto.
    inversion S' as [|? ? _ Hb]; subst. eapply Forall_forall in Hb; eauto.
  Qed.

  Lemma dedup_complete l x : okl l -> In x l -> exists y, In y (dedup l) /\ neqb x y = true.
  Proof.
    assert (forall a : T, nisnan a = false -> neqb a a = true) as R.
    { intros a Na. rewrite eqb_leb_, leb_refl_ by auto. reflexivity. }
    revert x. induction l as [|a [|b l] IH]; intros x O H; [contradiction| |].
    - inversion O; subst. exists a. destruct H as [->|[]]. split; [now left|auto].
    - inversion O as [|? ? Na O']; subst. rewrite dedup_cons. destruct (neqb a b) eqn:E.
      + destruct H as [->|H]; [|now apply IH]. destruct (IH b O' (or_introl eq_refl)) as (y & I & Q).
        exists y; split; auto. rewrite eqb_leb_ in *. apply andb_true_iff in E as [], Q as [].
        apply andb_true_iff; split; eapply leb_trans_; eauto.
      + destruct H as [->|H].
        * exists x; split; [now left|auto].
        * destruct (IH x O' H) as (y & I & Q). exists y; split; auto. now right.
  Qed.

  (** *** Differences *)
  Lemma diff_cons (a b : T) l : diff (a :: b :: l) = nsub b a :: diff (b :: l).
  Proof. reflexivity. Qed.

  Lemma diff_sorted l : okl l ->
    (forallb (nltb n0) (diff l) = true <-> StronglySorted lt l).
  Proof.
    induction l as [|a [|b l] IH]; intros O.
    - split; [constructor|auto]. - split; [repeat constructor|auto].
    - inversion O as [|? ? Na O']; subst. inversion O' as [|? ? Nb _]; subst.
      rewrite diff_cons. cbn [forallb]. rewrite andb_true_iff, IH, diff_pos_ by auto. split.
      + intros [L S]. constructor; auto. constructor; [exact L|].
        inversion S as [|? ? _ H]; subst. eapply Forall_impl; [|exact H]. intros c Hc. eapply lt_trans; eauto.
      + intros S. inversion S as [|? ? S' H]; subst. inversion H; subst. split; auto.
  Qed.

  Lemma diff_nonneg_sorted l : okl l -> forallb (nleb n0) (diff l) = true -> StronglySorted le l.
  Proof.
    induction l as [|a [|b l] IH]; intros O H; [constructor|repeat constructor|].
    inversion O as [|? ? Na O']; subst. rewrite diff_cons in H. cbn [forallb] in H.
    apply andb_true_iff in H as [L H]. specialize (IH O' H). constructor; auto.
    apply diff_nonneg_le_ in L. constructor; [exact L|].
    inversion IH as [|? ? _ K]; subst. eapply Forall_impl; [|exact K]. intros c Hc. exact (leb_trans_ _ _ _ L Hc).
  Qed.
  Lemma diff_sorted_nonneg l : Forall (fun x => nisfin x = true) l -> StronglySorted le l ->
    forallb (nleb n0) (diff l) = true.
  Proof.
    induction l as [|a [|b l] IH]; intros O S; auto.
    inversion O as [|? ? Na O']; subst. inversion O' as [|? ? Nb _]; subst.
    inversion S as [|? ? S' H]; subst. inversion H; subst.
    rewrite diff_cons. cbn [forallb]. rewrite diff_nonneg_, IH by auto. rewrite andb_true_r. auto.
  Qed.
  Lemma lt_sorted_le l : StronglySorted lt l -> StronglySorted le l.
  Proof. induction 1; constructor; auto. eapply Forall_impl; [|eauto]. auto using lt_le. Qed.
End Sort.

(** ** epsilon_noise in exact arithmetic *)

Lemma fold_nmin_fin l a : exists m, fold_left nmin (map Fin l) (Fin a) = Fin m /\
  m <= a /\ Forall (fun d => m <= d) l /\ (m = a \/ In m l).
Proof.
  revert a; induction l as [|b l IH]; intros a; cbn [map fold_left].
  - exists a. repeat split; auto; lra.
  - unfold nmin at 2. cbn. destruct (Rleb a b) eqn:E; cbn.
    + destruct (IH a) as (m & -> & L & F & I). apply Rleb_spec in E. exists m. repeat split; auto.
      * constructor; auto; lra. * destruct I; auto.
    + destruct (IH b) as (m & -> & L & F & I). apply Rleb_false in E. exists m. repeat split; auto; try lra.
      destruct I as [->|]; auto.
Qed.

Lemma diff_fin l : exists d, diff (map Fin l) = map Fin d.
Proof.
  induction l as [|a [|b l] [d IH]]; try (exists []; reflexivity).
  cbn [map] in *. rewrite diff_cons, IH. exists ((b - a) :: d). reflexivity.
Qed.

(** In a strictly increasing list the smallest consecutive gap bounds every gap. *)
Lemma gap_bound m l : StronglySorted Rlt l ->
  (forall d, diff (map Fin l) = map Fin d -> Forall (fun x => m <= x) d) ->
  forall a b, In a l -> In b l -> a < b -> m <= b - a.
Proof.
  induction l as [|a [|b l] IH]; intros S D x y Hx Hy L; try contradiction.
  - destruct Hx as [<-|[]], Hy as [<-|[]]. lra.
  - inversion S as [|? ? S' H]; subst.
    destruct (diff_fin (b :: l)) as [d Hd].
    assert (diff (map Fin (a :: b :: l)) = map Fin ((b - a) :: d)) as D0.
    { cbn [map] in *. rewrite diff_cons, Hd. reflexivity. }
    specialize (D _ D0) as D1. inversion D1 as [|? ? G D2]; subst.
    assert (forall a0 b0, In a0 (b :: l) -> In b0 (b :: l) -> a0 < b0 -> m <= b0 - a0) as K.
    { apply IH; auto. intros d' Hd'. rewrite Hd in Hd'.
      assert (d = d') as <-; auto. clear -Hd'. revert d' Hd'; induction d; intros [|] E; inversion E; subst; auto.
      f_equal; auto. }
    inversion H as [|? ? Hab H']; subst.
    destruct Hx as [<-|Hx], Hy as [<-|Hy].
    + lra.
    + destruct Hy as [<-|Hy]; [lra|]. inversion S' as [|? ? _ Hb]; subst.
      eapply Forall_forall in Hb; eauto. cbv beta in Hb. lra.
    + exfalso. assert (a < x) by (destruct Hx as [<-|Hx]; auto; eapply Forall_forall in H'; eauto). lra.
    + apply K; auto.
Qed.

Lemma diff_pos_fin l d : StronglySorted Rlt l -> diff (map Fin l) = map Fin d -> Forall (fun x => 0 < x) d.
Proof.
  revert d. induction l as [|a [|b l] IH]; intros d S H;
    try (destruct d; [constructor|discriminate]).
  cbn [map] in H, IH. rewrite diff_cons in H. destruct d as [|d0 d]; [discriminate|].
  inversion H as [[H0 H1]]. inversion S as [|? ? S' F]; subst. inversion F; subst.
  constructor; [lra|]. apply IH; auto.
Qed.

Lemma unique_fin x : exists ux, unique (map Fin x) = map Fin ux /\ StronglySorted Rlt ux /\
  (forall v, In v ux <-> In v x).
Proof.
  assert (okl (map Fin x)) as O by (apply Forall_forall; intros a Ha; apply in_map_iff in Ha as (? & <- & _); reflexivity).
  pose proof (sort_perm (map Fin x)) as P. pose proof (sort_sorted _ O) as S.
  assert (okl (sort (map Fin x))) as O' by (unfold okl; eapply Permutation_Forall; eauto).
  pose proof (dedup_sorted _ S O') as D.
  assert (forall v, In v (unique (map Fin x)) -> exists r, v = Fin r /\ In r x) as I.
  { intros v Hv. apply dedup_incl in Hv. eapply Permutation_in in Hv; [|apply Permutation_sym; eauto].
    apply in_map_iff in Hv as (r & <- & Hr). eauto. }
  assert (exists ux, unique (map Fin x) = map Fin ux) as [ux U].
  { clear -I. induction (unique (map Fin x)) as [|a l IH]; [exists []; reflexivity|].
    destruct IH as [ux ->]; [intros; apply I; now right|]. destruct (I a) as (r & -> & _); [now left|].
    exists (r :: ux). reflexivity. }
  exists ux. split; auto. unfold unique in U. rewrite U in D. split.
  - clear -D. induction ux; [constructor|]. cbn [map] in D. inversion D as [|? ? D' F]; subst.
    constructor; auto. apply Forall_forall. intros v Hv.
    eapply Forall_forall in F; [|apply in_map; eauto]. now apply Rltb_spec.
  - intros v. split; intros H.
    + destruct (I (Fin v)) as (r & E & Hr); [unfold unique; rewrite U; now apply in_map|]. inversion E; subst; auto.
    + destruct (dedup_complete (sort (map Fin x)) (Fin v) O') as (y & Hy & E).
      { eapply Permutation_in; [exact P|]. now apply in_map. }
      rewrite U in Hy. apply in_map_iff in Hy as (w & <- & Hw). cbn in E. apply Reqb_spec in E. now subst.
Qed.

Lemma nhalf_xr : nhalf = Fin (1 / 2).
Proof. unfold nhalf; cbn. destruct (Reqb 2 0) eqn:E; [apply Reqb_spec in E; lra|reflexivity]. Qed.

Lemma epsilon_noise_exact u x d m : length u = length x -> 0 < d -> 0 < m ->
  exists delta,
    0 < delta <= m /\
    (forall a b, In a x -> In b x -> a < b -> delta <= b - a) /\
    epsilon_noise (map Fin u) (map Fin x) (Fin d) (Fin m)
    = Ok (map Fin (map (fun '(a, v) => a + delta * (v - 1 / 2)) (combine x u))).
Proof.
  intros HL Hd Hm. destruct (unique_fin x) as (ux & U & S & I).
  unfold epsilon_noise.
  assert (forallb nisfin (map Fin x) = true) as -> by (apply forallb_forall; intros a Ha; apply in_map_iff in Ha as (? & <- & _); reflexivity).
  cbn [py_assert bind]. rewrite U, map_length.
  assert (exists d', (if (length ux <=? 1)%nat then Fin d else amin (diff (map Fin ux))) = Fin d' /\ 0 < d' /\
            forall a b, In a ux -> In b ux -> a < b -> d' <= b - a) as (d' & -> & P & G).
  { destruct (length ux <=? 1)%nat eqn:E.
    - apply Nat.leb_le in E. exists d. repeat split; auto. intros a b Ha Hb L.
      destruct ux as [|c [|? ?]]; try contradiction; [|cbn in E; lia].
      destruct Ha as [<-|[]], Hb as [<-|[]]. lra.
    - apply Nat.leb_gt in E. destruct (diff_fin ux) as [dd Hdd].
      pose proof (diff_pos_fin _ _ S Hdd) as Pos.
      destruct dd as [|d0 dd]; [destruct ux as [|? [|? ?]]; cbn in *; try lia; discriminate|].
      destruct (fold_nmin_fin dd d0) as (mm & Em & L & F & Hin).
      exists mm. rewrite Hdd. cbn [map amin]. rewrite Em. repeat split; auto.
      + destruct Hin as [->|Hin]; [now inversion Pos|]. eapply Forall_forall in Hin; [|inversion Pos; eauto]. auto.
      + apply gap_bound; auto. intros d2 H2. rewrite Hdd in H2.
        assert (d0 :: dd = d2) as <-; [|constructor; auto].
        clear -H2. cbn [map] in H2. destruct d2 as [|e d2]; [discriminate|]. inversion H2 as [[Q1 Q2]]. f_equal.
        clear -Q2. revert d2 Q2; induction dd; intros [|] E; inversion E; subst; auto. f_equal; auto. }
  exists (Rmin m d').
  assert (nmin (Fin m) (Fin d') = Fin (Rmin m d')) as ->.
  { unfold nmin; cbn. destruct (Rleb m d') eqn:E; cbn.
    - apply Rleb_spec in E. now rewrite Rmin_left. - apply Rleb_false in E. rewrite Rmin_right; auto; lra. }
  pose proof (Rmin_l m d'). pose proof (Rmin_r m d').
  assert (0 < Rmin m d') by (apply Rmin_glb_lt; auto).
  repeat split; auto.
  - intros a b Ha Hb L. apply I in Ha, Hb. specialize (G a b Ha Hb L). lra.
  - cbn [nltb nleb xr_num n0 xltb xleb].
    assert (Rltb 0 (Rmin m d') = true) as -> by (now apply Rltb_spec).
    assert (Rleb (Rmin m d') m = true) as -> by (now apply Rleb_spec).
    cbn [andb py_assert bind]. f_equal. rewrite nhalf_xr. clear. revert u.
    induction x as [|a x IH]; intros [|v u]; cbn; auto. rewrite <- IH. reflexivity.
Qed.
