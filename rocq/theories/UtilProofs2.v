(** Lemmas on unique_take_last, eval_step_func and 'previous' interpolation,
    for any number type satisfying the order laws. *)
From Coq Require Import Permutation Sorted.
From Verif Require Import PyBase F64 Num NumOk Util UtilProofs ListLemmas.
Open Scope Z_scope.

Section Steps.
  Context {T : Type} {NT : num T} {OK : num_ok NT}.
  Context {A : Type}.
  Implicit Types xp : list T.
  Implicit Types yp : list A.

  Lemma Forall2_and_in {B C} (R Q : B -> C -> Prop) l m :
    Forall2 R l m -> (forall a b, In a l -> R a b -> Q a b) -> Forall2 Q l m.
  Proof.
    induction 1; intros H1; constructor; [apply H1; [now left|auto]|].
    apply IHForall2. intros; apply H1; [now right|auto].
  Qed.

  (** ** unique_take_last *)

  Lemma utl_idx_cons a b l : utl_idx (a :: b :: l) = nltb n0 (nsub b a) :: utl_idx (b :: l).
  Proof. reflexivity. Qed.

  Lemma mask_incl {B} m (l : list B) x : In x (mask m l) -> In x l.
  Proof.
    revert l; induction m as [|[] m IH]; intros [|a l]; cbn; auto; try contradiction.
    intros [->|H]; auto.
  Qed.

  Lemma utl_mask_length xp yp : length xp = length yp ->
    length (mask (utl_idx xp) xp) = length (mask (utl_idx xp) yp).
  Proof.
    generalize (utl_idx xp) as m. intros m. revert xp yp. induction m as [|[] m IH]; intros [|a xp] [|b yp] H; cbn in *; auto; discriminate.
  Qed.

  Lemma utl_sorted xp : okl xp -> StronglySorted le xp -> StronglySorted lt (mask (utl_idx xp) xp).
  Proof.
    induction xp as [|a [|b l] IH]; intros O S; [constructor|repeat constructor|].
    inversion O as [|? ? Na O']; subst. inversion O' as [|? ? Nb O'']; subst.
    inversion S as [|? ? S' F]; subst. rewrite utl_idx_cons, diff_pos_ by auto. cbn [mask].
    destruct (nltb a b) eqn:E; [|now apply IH]. constructor; [now apply IH|].
    apply Forall_forall. intros x Hx. apply mask_incl in Hx. destruct Hx as [<-|Hx]; [exact E|].
    inversion S' as [|? ? _ Hb]; subst. eapply Forall_forall in Hb; eauto. exact (lt_le_trans _ _ _ E Hb).
  Qed.

  Lemma utl_last xp yp : okl xp -> StronglySorted le xp -> length xp = length yp ->
    forall k x y, nth_error (mask (utl_idx xp) xp) k = Some x -> nth_error (mask (utl_idx xp) yp) k = Some y ->
    exists i, nth_error xp i = Some x /\ nth_error yp i = Some y /\
      forall j x', (i < j)%nat -> nth_error xp j = Some x' -> lt x x'.
  Proof.
    revert yp. induction xp as [|a [|b l] IH]; intros yp O S L k x y Hx Hy.
    - destruct k; discriminate.
    - destruct yp as [|c [|? ?]]; try discriminate. cbn in Hx, Hy. destruct k as [|[|]]; try discriminate.
      exists 0%nat. cbn. repeat split; auto. intros [|[|]] ? ? ?; try lia; discriminate.
    - destruct yp as [|c yp]; [discriminate|].
      inversion O as [|? ? Na O']; subst. inversion O' as [|? ? Nb O'']; subst.
      inversion S as [|? ? S' F]; subst. inversion L as [L'].
      rewrite utl_idx_cons, diff_pos_ in Hx, Hy by auto. cbn [mask] in Hx, Hy.
      assert (forall k x y, nth_error (mask (utl_idx (b :: l)) (b :: l)) k = Some x ->
        nth_error (mask (utl_idx (b :: l)) yp) k = Some y ->
        exists i, nth_error (a :: b :: l) i = Some x /\ nth_error (c :: yp) i = Some y /\
        forall j x', (i < j)%nat -> nth_error (a :: b :: l) j = Some x' -> lt x x') as K.
      { intros k' x' y' Hx' Hy'. destruct (IH yp O' S' L' k' x' y' Hx' Hy') as (i & I1 & I2 & I3).
        exists (Datatypes.S i). cbn [nth_error]. repeat split; auto. intros [|j] z Lj Hj; [lia|]. cbn in Hj. apply (I3 j); auto; lia. }
      destruct (nltb a b) eqn:E; [|now apply (K k)].
      destruct k as [|k]; [|now apply (K k)]. cbn in Hx, Hy. inversion Hx; inversion Hy; subst.
      exists 0%nat. repeat split; auto. intros [|j] z Lj Hj; [lia|]. cbn [nth_error] in Hj.
      apply nth_error_In in Hj. destruct Hj as [<-|Hj]; [exact E|].
      inversion S' as [|? ? _ Hb]; subst. eapply Forall_forall in Hb; eauto. exact (lt_le_trans _ _ _ E Hb).
  Qed.

  Lemma utl_complete xp x : okl xp -> StronglySorted le xp -> In x xp ->
    exists x', In x' (mask (utl_idx xp) xp) /\ neqb x x' = true.
  Proof.
    assert (forall a : T, nisnan a = false -> neqb a a = true) as R
      by (intros a Na; rewrite eqb_leb_, leb_refl_ by auto; reflexivity).
    revert x. induction xp as [|a [|b l] IH]; intros x O S H; [contradiction| |].
    - exists a. destruct H as [->|[]]. inversion O; subst. split; [now left|auto].
    - inversion O as [|? ? Na O']; subst. inversion O' as [|? ? Nb O'']; subst.
      inversion S as [|? ? S' F]; subst. rewrite utl_idx_cons, diff_pos_ by auto. cbn [mask].
      destruct (nltb a b) eqn:E.
      + destruct H as [->|H]; [exists x; split; [now left|auto]|].
        destruct (IH x O' S' H) as (y & I & Q). exists y; split; auto. now right.
      + destruct H as [->|H]; [|now apply IH]. destruct (IH b O' S' (or_introl eq_refl)) as (y & I & Q).
        exists y; split; auto. inversion F as [|? ? Hab _]; subst.
        rewrite eqb_leb_ in *. apply andb_true_iff in Q as [Q1 Q2]. unfold le in Hab.
        rewrite ltb_leb_ in E by auto. apply negb_false_iff in E.
        apply andb_true_iff; split; eapply leb_trans_; eauto.
  Qed.

  Lemma okl_existsb xp : negb (existsb nisnan xp) = true <-> okl xp.
  Proof.
    rewrite negb_true_iff. induction xp as [|a l IH]; cbn; [split; [constructor|auto]|].
    rewrite orb_false_iff, IH. split; [intros []; now constructor|intros H; inversion H; subst; auto].
  Qed.

  Lemma fin_okl xp : Forall (fun x => nisfin x = true) xp -> okl xp.
  Proof. intros H. eapply Forall_impl; [|exact H]. apply fin_notnan_. Qed.

  Lemma unique_take_last_ok xp (yp : option (list A)) r : unique_take_last xp yp = Ok r ->
    okl xp /\ StronglySorted le xp /\ match yp with Some y => length xp = length y | None => True end /\
    r = (mask (utl_idx xp) xp, option_map (mask (utl_idx xp)) yp).
  Proof.
    unfold unique_take_last. destruct (negb (existsb nisnan xp)) eqn:E1; [|discriminate]. cbn [py_assert bind].
    destruct (match yp with None => true | Some y => (length xp =? length y)%nat end) eqn:E2; [|discriminate].
    cbn [bind]. assert ((match yp with None => true | Some _ => true end) = true) as -> by (destruct yp; auto).
    cbn [bind]. destruct (forallb (nleb n0) (diff xp)) eqn:E3; [|discriminate]. cbn [bind].
    intros H. apply Ok_inj in H. subst. apply okl_existsb in E1. repeat split; auto.
    - now apply diff_nonneg_sorted.
    - destruct yp; auto. now apply Nat.eqb_eq.
  Qed.

  Lemma unique_take_last_succ xp yp : Forall (fun x => nisfin x = true) xp -> StronglySorted le xp ->
    length xp = length yp ->
    unique_take_last xp (Some yp) = Ok (mask (utl_idx xp) xp, Some (mask (utl_idx xp) yp)).
  Proof.
    intros F S L. unfold unique_take_last.
    rewrite (proj2 (okl_existsb xp)) by now apply fin_okl. cbn [py_assert bind].
    rewrite (proj2 (Nat.eqb_eq _ _) L). cbn [bind]. rewrite diff_sorted_nonneg by auto. reflexivity.
  Qed.

  (** ** Step functions *)

  Lemma npless_notnan (g x : T) : nisnan g = false -> nisnan x = false -> negb (npless g x) = nleb x g.
  Proof.
    intros Ng Nx. unfold npless. rewrite Nx, Ng. cbn. rewrite orb_false_r, ltb_leb_ by auto.
    apply negb_involutive.
  Qed.

  Lemma searchsorted_notnan xp g : okl xp -> nisnan g = false ->
    searchsorted_right xp g = Z.of_nat (length (filter (fun x => nleb x g) xp)).
  Proof.
    intros O Ng. unfold searchsorted_right. do 2 f_equal. induction O as [|a l Na O IH]; cbn; auto.
    rewrite npless_notnan, IH by auto. reflexivity.
  Qed.

  (** [i] is the position of the last entry not above [g]. *)
  Definition last_at xp (g : T) (i : nat) : Prop :=
    exists x, nth_error xp i = Some x /\ le x g /\
    forall j x', (i < j)%nat -> nth_error xp j = Some x' -> nleb x' g = false.

  Lemma last_at_fun xp g i i' : last_at xp g i -> last_at xp g i' -> i = i'.
  Proof.
    intros (x & H1 & H2 & H3) (x' & H1' & H2' & H3'). unfold le in *.
    destruct (Nat.lt_trichotomy i i') as [L|[E|L]]; auto.
    - rewrite (H3 _ _ L H1') in H2'. discriminate. - rewrite (H3' _ _ L H1) in H2. discriminate.
  Qed.

  Lemma searchsorted_last xp g : okl xp -> StronglySorted le xp -> nisnan g = false ->
    (exists x, In x xp /\ le x g) ->
    exists i, last_at xp g i /\ searchsorted_right xp g - 1 = Z.of_nat i.
  Proof.
    intros O S Ng (x & Hx & L). rewrite searchsorted_notnan by auto.
    set (p := fun x => nleb x g). fold p.
    assert (forall i a, nth_error xp i = Some a -> (p a = true <-> (i < length (filter p xp))%nat)) as K.
    { apply filter_prefix. intros i j a b Lij Ha Hb Pb.
      pose proof (SSorted_nth _ _ S _ _ _ _ Lij Ha Hb) as R. exact (leb_trans_ _ _ _ R Pb). }
    apply In_nth_error in Hx as [i0 H0].
    assert (i0 < length (filter p xp))%nat as B by (apply (K i0 x H0); exact L).
    exists (length (filter p xp) - 1)%nat. split; [|lia].
    assert (length (filter p xp) - 1 < length xp)%nat as B2.
    { assert (length (filter p xp) <= length xp)%nat; [|lia].
      clear. induction xp; cbn; auto. destruct (p a); cbn; lia. }
    destruct (nth_error xp (length (filter p xp) - 1)) as [y|] eqn:E; [|apply nth_error_None in E; lia].
    exists y. repeat split; auto.
    - apply (K _ y E). lia.
    - intros j x' Lj Hj. destruct (nleb x' g) eqn:Q; auto. apply (K j x' Hj) in Q. lia.
  Qed.

  (** The value of a step function: the [y] of the step with the largest
      [x <= g]; pairs are an unordered collection. *)
  Definition step_at (P : list (T * A)) (g : T) (v : A) : Prop :=
    exists x, In (x, v) P /\ le x g /\ forall x' v', In (x', v') P -> le x' g -> le x' x.

  Lemma last_step xp yp g i v : length xp = length yp -> StronglySorted le xp -> okl xp ->
    last_at xp g i -> nth_error yp i = Some v -> step_at (combine xp yp) g v.
  Proof.
    intros L S O (x & Hx & Lx & Hlast) Hv. exists x. repeat split; auto.
    - apply (nth_error_In _ i). rewrite nth_combine, Hx, Hv. reflexivity.
    - intros x' v' Hin Lx'. apply in_combine_l in Hin. apply In_nth_error in Hin as [j Hj].
      destruct (Nat.lt_trichotomy i j) as [Lij|[->|Lij]].
      + unfold le in Lx'. rewrite (Hlast _ _ Lij Hj) in Lx'. discriminate.
      + rewrite Hx in Hj. inversion Hj; subst. apply leb_refl_. eapply Forall_forall in O; [eauto|].
        eapply nth_error_In; eauto.
      + exact (SSorted_nth _ _ S _ _ _ _ Lij Hj Hx).
  Qed.

  (** Distinct step positions. *)
  Definition distinct (l : list T) : Prop := ForallOrdPairs (fun a b => neqb a b = false) l.

  Lemma neqb_sym (a b : T) : neqb a b = neqb b a.
  Proof. rewrite !eqb_leb_. apply andb_comm. Qed.

  Lemma distinct_perm l l' : Permutation l l' -> distinct l -> distinct l'.
  Proof.
    unfold distinct. induction 1 as [|a l l' P IH|a b l|l l1 l2 P1 IH1 P2 IH2]; intros D; auto.
    - inversion D; subst. constructor; auto. eapply Permutation_Forall; eauto.
    - inversion D as [|? ? F1 D1]; subst. inversion D1 as [|? ? F2 D2]; subst. inversion F1; subst.
      constructor; [constructor|constructor]; auto. now rewrite neqb_sym.
  Qed.

  Lemma sorted_distinct l : okl l -> StronglySorted le l -> (distinct l <-> StronglySorted lt l).
  Proof.
    unfold distinct. intros O S. induction S as [|a l S IH F]; [split; constructor|].
    inversion O as [|? ? Na O']; subst. split; intros H; inversion H as [|? ? H1 H2]; subst.
    - constructor; [apply IH; auto|]. apply Forall_forall. intros b Hb.
      eapply Forall_forall in F, H1, O'; eauto. apply not_le_lt; auto. rewrite eqb_leb_ in H1.
      unfold le in F. rewrite F in H1. exact H1.
    - constructor; [|apply IH; auto]. eapply Forall_impl; [|exact H2]. intros b Hb.
      rewrite eqb_leb_, (lt_not_le _ _ Hb). apply andb_false_r.
  Qed.

  Definition argsort_spec (argsort : list T -> list nat) : Prop :=
    forall l, okl l -> Permutation (argsort l) (seq 0 (length l)) /\ StronglySorted le (take l (argsort l)).

  (** What [eval_step_func] computes once the steps are sorted. *)
  Lemma eval_sorted argsort x_grid xp yp ival skip :
    length xp = length yp -> okl xp -> StronglySorted lt xp -> okl x_grid ->
    (ival = None -> forall g, In g x_grid -> exists x, In x xp /\ le x g) ->
    exists out, eval_step_func argsort x_grid xp yp ival true skip = Ok out /\
    Forall2 (fun g v => (exists i, last_at xp g i /\ nth_error yp i = Some v) \/
                        ((forall x, In x xp -> nleb x g = false) /\ ival = Some v)) x_grid out.
  Proof.
    intros L O S Og Hg. unfold eval_step_func. rewrite (proj2 (Nat.eqb_eq _ _) L). cbn [py_assert bind].
    rewrite (proj2 (diff_sorted xp O) S), orb_true_r. cbn [bind].
    destruct ival as [v0|].
    - cbn [bind].
      assert (okl (nninf :: xp)) as O2 by (constructor; auto; apply ninf_notnan_).
      assert (StronglySorted le (nninf :: xp)) as S2.
      { constructor; [now apply lt_sorted_le|]. eapply Forall_impl; [|exact O]. intros a Na. now apply ninf_le_. }
      destruct (mapM_total (fun g => py_index (v0 :: yp) (searchsorted_right (nninf :: xp) g - 1)) x_grid) as [out Hout].
      { intros g Hgi. eapply Forall_forall in Og; eauto.
        destruct (searchsorted_last (nninf :: xp) g O2 S2 Og) as (i & (x & Hx & _) & ->).
        { exists nninf. split; [now left|now apply ninf_le_]. }
        assert (i < length (v0 :: yp))%nat as B.
        { cbn [length]. rewrite <- L. assert (i < length (nninf :: xp))%nat; [apply nth_error_Some; congruence|auto]. }
        destruct (nth_error (v0 :: yp) i) as [v|] eqn:E; [|apply nth_error_None in E; lia].
        exists v. now apply py_index_nat. }
      exists out. split; auto. apply mapM_Forall2 in Hout. clear Hg.
      eapply Forall2_and_in; [exact Hout|]. intros g v Hgi Hv. cbv beta in Hv.
      eapply Forall_forall in Og; eauto.
      destruct (searchsorted_last (nninf :: xp) g O2 S2 Og) as (i & (x & Hx & Lx & Hl) & Ei).
      { exists nninf. split; [now left|now apply ninf_le_]. }
      rewrite Ei in Hv. destruct i as [|i].
      + right. cbn in Hv. apply Ok_inj in Hv. subst. split; auto. intros x' Hx'.
        apply In_nth_error in Hx' as [j Hj]. apply (Hl (Datatypes.S j)); [lia|exact Hj].
      + left. cbn [nth_error] in Hx. exists i. split.
        * exists x. repeat split; auto. intros j x' Lj Hj. apply (Hl (Datatypes.S j)); [lia|exact Hj].
        * assert (i < length yp)%nat as B by (rewrite <- L; apply nth_error_Some; congruence).
          destruct (nth_error yp i) as [w|] eqn:E; [|apply nth_error_None in E; lia].
          rewrite (py_index_nat _ (Datatypes.S i) w) in Hv by exact E. apply Ok_inj in Hv. now subst.
    - specialize (Hg eq_refl).
      assert ((match x_grid with
               | [] => Ok (xp, yp)
               | _ :: _ => do x0 <- py_index xp 0; assert! forallb (nleb x0) x_grid; Ok (xp, yp)
               end) = Ok (xp, yp)) as ->.
      { destruct x_grid as [|g0 gr]; auto. destruct xp as [|x0 xr].
        - destruct (Hg g0 (or_introl eq_refl)) as (? & [] & _).
        - change (py_index (x0 :: xr) 0) with (Ok x0). cbn [bind].
          assert (forallb (nleb x0) (g0 :: gr) = true) as ->; [|reflexivity].
          apply forallb_forall. intros g Hgi. destruct (Hg g Hgi) as (x & Hx & Lx).
          destruct Hx as [->|Hx]; [exact Lx|]. inversion S as [|? ? _ F]; subst.
          eapply Forall_forall in F; eauto. apply lt_le in F. exact (leb_trans_ _ _ _ F Lx). }
      cbn [bind]. apply lt_sorted_le in S.
      destruct (mapM_total (fun g => py_index yp (searchsorted_right xp g - 1)) x_grid) as [out Hout].
      { intros g Hgi. eapply Forall_forall in Og; eauto.
        destruct (searchsorted_last xp g O S Og (Hg g Hgi)) as (i & (x & Hx & _) & ->).
        assert (i < length yp)%nat as B by (rewrite <- L; apply nth_error_Some; congruence).
        destruct (nth_error yp i) as [v|] eqn:E; [|apply nth_error_None in E; lia].
        exists v. now apply py_index_nat. }
      exists out. split; auto. apply mapM_Forall2 in Hout.
      eapply Forall2_and_in; [exact Hout|]. intros g v Hgi Hv. cbv beta in Hv. left.
      eapply Forall_forall in Og; eauto.
      destruct (searchsorted_last xp g O S Og (Hg g Hgi)) as (i & Hl & Ei).
      exists i. split; auto. destruct Hl as (x & Hx & _). rewrite Ei in Hv.
      assert (i < length yp)%nat as B by (rewrite <- L; apply nth_error_Some; congruence).
      destruct (nth_error yp i) as [w|] eqn:E; [|apply nth_error_None in E; lia].
      rewrite (py_index_nat _ i w) in Hv by exact E. apply Ok_inj in Hv. now subst.
  Qed.

  (** Sorting first is the same as giving the sorted lists. *)
  Lemma eval_unsorted argsort x_grid xp yp ival skip :
    argsort_spec argsort -> okl xp -> length xp = length yp ->
    eval_step_func argsort x_grid xp yp ival false skip
    = eval_step_func argsort x_grid (take xp (argsort xp)) (take yp (argsort xp)) ival true skip.
  Proof.
    intros AS O L. destruct (AS xp O) as [P _]. unfold eval_step_func.
    rewrite (proj2 (Nat.eqb_eq _ _) L).
    rewrite (proj2 (Nat.eqb_eq (length (take xp (argsort xp))) (length (take yp (argsort xp))))).
    - reflexivity.
    - rewrite !take_length; auto. now rewrite <- L.
  Qed.

  Lemma eval_not_distinct argsort x_grid xp yp ival : length xp = length yp -> okl xp ->
    ~ StronglySorted lt xp -> eval_step_func argsort x_grid xp yp ival true false = Err AssertionError.
  Proof.
    intros L O N. unfold eval_step_func. rewrite (proj2 (Nat.eqb_eq _ _) L). cbn [py_assert bind orb].
    destruct (forallb (nltb n0) (diff xp)) eqn:E; [|reflexivity]. apply diff_sorted in E; auto. contradiction.
  Qed.

  (** Without an initial value, a grid point before the first step raises. *)
  Lemma eval_before argsort x_grid xp yp skip g : length xp = length yp -> okl xp -> StronglySorted lt xp ->
    In g x_grid -> (forall x, In x xp -> nleb x g = false) ->
    eval_step_func argsort x_grid xp yp None true skip
    = Err (match xp with [] => IndexError | _ => AssertionError end).
  Proof.
    intros L Hn Hs Hg N. unfold eval_step_func. rewrite (proj2 (Nat.eqb_eq _ _) L). cbn [py_assert bind].
    rewrite (proj2 (diff_sorted xp Hn) Hs), orb_true_r. cbn [bind]. destruct x_grid as [|g0 gr]; [contradiction|].
    destruct xp as [|x0 xr]; [reflexivity|].
    change (py_index (x0 :: xr) 0) with (Ok x0). cbn [bind].
    destruct (forallb (nleb x0) (g0 :: gr)) eqn:F; auto.
    rewrite forallb_forall in F. specialize (F g Hg). rewrite (N x0) in F by now left. discriminate.
  Qed.

  Lemma step_at_fun P g v v' : distinct (map fst P) -> step_at P g v -> step_at P g v' -> v = v'.
  Proof.
    intros D (x & I & L & M) (x' & I' & L' & M').
    assert (neqb x x' = true) as E.
    { rewrite eqb_leb_. apply andb_true_iff. split; [exact (M' _ _ I L)|exact (M _ _ I' L')]. }
    clear -D I I' E OK. unfold distinct in D. induction P as [|[a w] P IH]; [contradiction|].
    cbn [map fst] in D. inversion D as [|? ? F D']; subst.
    destruct I as [I|I], I' as [I'|I'].
    - congruence.
    - inversion I; subst. eapply Forall_forall in F; [|apply (in_map fst) in I'; exact I']. cbn in F. congruence.
    - inversion I'; subst. eapply Forall_forall in F; [|apply (in_map fst) in I; exact I]. cbn in F.
      rewrite neqb_sym in E. congruence.
    - auto.
  Qed.

  Lemma step_at_perm P P' g v : Permutation P P' -> step_at P g v -> step_at P' g v.
  Proof.
    intros Pm (x & I & L & M). exists x. repeat split; auto.
    - eapply Permutation_in; eauto.
    - intros x' v' I'. apply M with v'. eapply Permutation_in; [apply Permutation_sym|]; eauto.
  Qed.

  (** The sorted form of a step list. *)
  Lemma sorted_form argsort xp yp : argsort_spec argsort -> okl xp -> length xp = length yp ->
    let xs := take xp (argsort xp) in let ys := take yp (argsort xp) in
    length xs = length ys /\ okl xs /\ StronglySorted le xs /\ Permutation (combine xs ys) (combine xp yp) /\
    Permutation xs xp.
  Proof.
    intros AS Hn L. destruct (AS xp Hn) as [P Hs]. cbv zeta. repeat split; auto.
    - rewrite !take_length; auto. now rewrite <- L.
    - unfold okl. eapply Permutation_Forall; [apply Permutation_sym, take_perm; exact P|exact Hn].
    - rewrite <- take_combine by auto. apply take_perm. rewrite combine_length, <- L, Nat.min_id. exact P.
    - now apply take_perm.
  Qed.

  Lemma step_ok argsort x_grid xp yp ival skip :
    argsort_spec argsort -> okl xp -> length xp = length yp -> okl x_grid -> distinct xp ->
    (ival = None -> forall g, In g x_grid -> exists x, In x xp /\ le x g) ->
    exists out, eval_step_func argsort x_grid xp yp ival false skip = Ok out /\
    Forall2 (fun g v => step_at (combine xp yp) g v \/
                        ((forall x, In x xp -> nleb x g = false) /\ ival = Some v)) x_grid out.
  Proof.
    intros AS Hn L Hg D Hi. rewrite eval_unsorted by auto.
    destruct (sorted_form argsort xp yp AS Hn L) as (L2 & Hn2 & Hs2 & Pc & Px).
    assert (StronglySorted lt (take xp (argsort xp))) as Hlt.
    { apply sorted_distinct; auto. eapply distinct_perm; [apply Permutation_sym; exact Px|exact D]. }
    destruct (eval_sorted argsort x_grid _ _ ival skip L2 Hn2 Hlt Hg) as (out & E & F).
    { intros -> g Hgi. destruct (Hi eq_refl g Hgi) as (x & Hx & Lx). exists x. split; auto.
      eapply Permutation_in; [apply Permutation_sym; exact Px|exact Hx]. }
    exists out. split; auto. eapply Forall2_and_in; [exact F|]. cbv beta. intros g v _ [(i & H1 & H2)|[H1 H2]].
    - left. eapply step_at_perm; [exact Pc|]. eapply last_step; eauto.
    - right. split; auto. intros x Hx. apply H1. eapply Permutation_in; [apply Permutation_sym; exact Px|exact Hx].
  Qed.

  Lemma step_not_distinct argsort x_grid xp yp ival :
    argsort_spec argsort -> okl xp -> length xp = length yp -> ~ distinct xp ->
    eval_step_func argsort x_grid xp yp ival false false = Err AssertionError.
  Proof.
    intros AS Hn L D. rewrite eval_unsorted by auto.
    destruct (sorted_form argsort xp yp AS Hn L) as (L2 & Hn2 & Hs2 & Pc & Px).
    apply eval_not_distinct; auto. intros C. apply D. eapply distinct_perm; [exact Px|].
    apply sorted_distinct; auto.
  Qed.

  Lemma step_before argsort x_grid xp yp skip g :
    argsort_spec argsort -> okl xp -> length xp = length yp -> distinct xp -> In g x_grid ->
    (forall x, In x xp -> nleb x g = false) ->
    eval_step_func argsort x_grid xp yp None false skip
    = Err (match xp with [] => IndexError | _ => AssertionError end).
  Proof.
    intros AS Hn L D Hg N. rewrite eval_unsorted by auto.
    destruct (sorted_form argsort xp yp AS Hn L) as (L2 & Hn2 & Hs2 & Pc & Px).
    rewrite eval_before with (g := g); auto.
    - destruct xp, (take _ _); auto; apply Permutation_length in Px; discriminate.
    - apply sorted_distinct; auto. eapply distinct_perm; [apply Permutation_sym; exact Px|exact D].
    - intros x Hx. apply N. eapply Permutation_in; [exact Px|exact Hx].
  Qed.

  Lemma distinct_dec l : {distinct l} + {~ distinct l}.
  Proof.
    unfold distinct. induction l as [|a l [D|D]]; [left; constructor| |right; intros C; inversion C; auto].
    destruct (forallb (fun b => negb (neqb a b)) l) eqn:E.
    - left. constructor; auto. apply Forall_forall. intros b Hb. rewrite forallb_forall in E.
      apply negb_true_iff, E, Hb.
    - right. intros C. inversion C as [|? ? F _]; subst.
      assert (forallb (fun b => negb (neqb a b)) l = true); [|congruence].
      apply forallb_forall. intros b Hb. eapply Forall_forall in F; eauto. now rewrite F.
  Qed.

  Lemma grid_dec (x_grid xp : list T) : (forall g, In g x_grid -> exists x, In x xp /\ le x g) \/
    (exists g, In g x_grid /\ forall x, In x xp -> nleb x g = false).
  Proof.
    destruct (forallb (fun g => existsb (fun x => nleb x g) xp) x_grid) eqn:E.
    - left. intros g Hg. rewrite forallb_forall in E. specialize (E g Hg). apply existsb_exists in E. exact E.
    - right. assert (exists g, In g x_grid /\ existsb (fun x => nleb x g) xp = false) as (g & Hg & F).
      { induction x_grid as [|g l IH]; [discriminate|]. cbn in E. apply andb_false_iff in E as [E|E].
        - exists g. split; [now left|auto]. - destruct (IH E) as (g' & ? & ?). exists g'. split; [now right|auto]. }
      exists g. split; auto. intros x Hx. destruct (nleb x g) eqn:Q; auto.
      assert (existsb (fun x => nleb x g) xp = true); [apply existsb_exists; eauto|congruence].
  Qed.

  (** Giving the steps in another order changes nothing. *)
  Lemma step_order argsort argsort' x_grid xp yp xp' yp' ival :
    argsort_spec argsort -> argsort_spec argsort' -> okl xp -> okl x_grid ->
    length xp = length yp -> length xp' = length yp' -> Permutation (combine xp yp) (combine xp' yp') ->
    eval_step_func argsort x_grid xp yp ival false false = eval_step_func argsort' x_grid xp' yp' ival false false.
  Proof.
    intros AS AS' Hn Hg L L' P.
    assert (Permutation xp xp') as Px.
    { rewrite <- (map_fst_combine xp yp), <- (map_fst_combine xp' yp') by auto. now apply Permutation_map. }
    assert (okl xp') as Hn' by (unfold okl; eapply Permutation_Forall; eauto).
    destruct (distinct_dec xp) as [D|D].
    2:{ rewrite !step_not_distinct; auto. intros C. apply D. eapply distinct_perm; [apply Permutation_sym; eauto|auto]. }
    assert (distinct xp') as D' by (eapply distinct_perm; eauto).
    assert ((ival = None -> forall g, In g x_grid -> exists x, In x xp /\ le x g) \/
            (ival = None /\ exists g, In g x_grid /\ forall x, In x xp -> nleb x g = false)) as [Hi|[-> (g & Gi & N)]].
    { destruct ival; [left; discriminate|]. destruct (grid_dec x_grid xp); [left|right]; auto. }
    - destruct (step_ok argsort x_grid xp yp ival false AS Hn L Hg D Hi) as (out & -> & F).
      destruct (step_ok argsort' x_grid xp' yp' ival false AS' Hn' L' Hg D') as (out' & -> & F').
      { intros E g Gi. destruct (Hi E g Gi) as (x & Hx & Lx). exists x. split; auto. eapply Permutation_in; eauto. }
      f_equal. clear -F F' P Px D D' L L' OK. revert out' F'. induction F as [|g v gs out H F IH]; intros out' F';
        inversion F' as [|? v' ? out2 H' F2]; subst; auto. f_equal; [|auto].
      destruct H as [H|[N ->]], H' as [H'|[N' E]].
      + apply step_at_fun with (P := combine xp' yp') (g := g); [now rewrite map_fst_combine| |auto].
        eapply step_at_perm; eauto.
      + exfalso. destruct H as (x & I & Lx & _). apply in_combine_l in I. unfold le in Lx.
        rewrite N' in Lx; [discriminate|]. eapply Permutation_in; eauto.
      + exfalso. destruct H' as (x & I & Lx & _). apply in_combine_l in I. unfold le in Lx.
        rewrite N in Lx; [discriminate|]. eapply Permutation_in; [apply Permutation_sym|]; eauto.
      + congruence.
    - rewrite !step_before with (g := g); auto.
      + destruct xp, xp'; auto; apply Permutation_length in Px; discriminate.
      + intros x Hx. apply N. eapply Permutation_in; [apply Permutation_sym|]; eauto.
  Qed.

  (** ** unique_take_last followed by a lookup: the last point with x <= g *)
  Lemma utl_lookup xp yp g k v : okl xp -> StronglySorted le xp -> length xp = length yp -> nisnan g = false ->
    last_at (mask (utl_idx xp) xp) g k -> nth_error (mask (utl_idx xp) yp) k = Some v ->
    exists i, last_at xp g i /\ nth_error yp i = Some v.
  Proof.
    intros Hn Hs L Ng (x & Hx & Lx & Hl) Hv.
    destruct (utl_last xp yp Hn Hs L k x v Hx Hv) as (i & I1 & I2 & I3).
    exists i. split; auto. exists x. repeat split; auto. intros j x' Lj Hj.
    specialize (I3 j x' Lj Hj).
    destruct (utl_complete xp x' Hn Hs (nth_error_In _ _ Hj)) as (x2 & H2 & E2).
    apply In_nth_error in H2 as [k2 H2]. rewrite eqb_leb_ in E2. apply andb_true_iff in E2 as [E3 E4].
    assert (lt x x2) as Lt by (eapply lt_le_trans; [exact I3|exact E3]).
    assert (k < k2)%nat as Lk.
    { pose proof (utl_sorted xp Hn Hs) as So. destruct (Nat.lt_trichotomy k k2) as [|[->|C]]; auto.
      - rewrite Hx in H2. inversion H2; subst. exfalso. exact (lt_irrefl _ Lt).
      - pose proof (SSorted_nth _ _ So _ _ _ _ C H2 Hx) as R. exfalso. exact (lt_irrefl _ (lt_trans _ _ _ R Lt)). }
    specialize (Hl k2 x2 Lk H2). destruct (nleb x' g) eqn:Q; auto.
    rewrite (leb_trans_ _ _ _ E4 Q) in Hl. discriminate.
  Qed.
End Steps.

Section Interp.
  Context {T : Type} {NT : num T} {OK : num_ok NT}.
  Implicit Types xp yp x_grid : list T.

  Lemma interp1d_previous xp yp x_grid : Forall (fun x => nisfin x = true) xp -> StronglySorted le xp ->
    length xp = length yp -> (2 <= length xp)%nat -> okl x_grid ->
    (forall g, In g x_grid -> exists x, In x xp /\ le x g) ->
    exists out, _interp1d x_grid xp yp Previous = Ok out /\
    Forall2 (fun g v => exists i, last_at xp g i /\ nth_error yp i = Some v) x_grid out.
  Proof.
    intros F Hs L L2 Hg Hgi. pose proof (fin_okl xp F) as Hn. unfold _interp1d.
    rewrite (proj2 (Nat.eqb_eq _ _) L), (proj2 (Nat.leb_le _ _) L2), diff_sorted_nonneg by auto.
    cbn [py_assert bind]. rewrite unique_take_last_succ by auto. cbn [bind].
    destruct (eval_sorted (fun _ => []) x_grid (mask (utl_idx xp) xp) (mask (utl_idx xp) yp) None false) as (out & E & R); auto.
    - now apply utl_mask_length.
    - apply Forall_forall. intros x Hx. apply mask_incl in Hx. eapply Forall_forall in Hn; eauto.
    - now apply utl_sorted.
    - intros _ g Gi. destruct (Hgi g Gi) as (x & Hx & Lx). destruct (utl_complete xp x Hn Hs Hx) as (x' & I & Q).
      exists x'. split; auto. rewrite eqb_leb_ in Q. apply andb_true_iff in Q as [_ Q]. exact (leb_trans_ _ _ _ Q Lx).
    - exists out. split; auto. eapply Forall2_and_in; [exact R|]. cbv beta. intros g v Gi [(k & H1 & H2)|[_ C]]; [|discriminate].
      eapply Forall_forall in Hg; eauto. eapply utl_lookup; eauto.
  Qed.

  Lemma interp1d_previous_before xp yp x_grid g : Forall (fun x => nisfin x = true) xp -> StronglySorted le xp ->
    length xp = length yp -> (2 <= length xp)%nat -> In g x_grid -> (forall x, In x xp -> nleb x g = false) ->
    _interp1d x_grid xp yp Previous = Err AssertionError.
  Proof.
    intros F Hs L L2 Gi N. pose proof (fin_okl xp F) as Hn. unfold _interp1d.
    rewrite (proj2 (Nat.eqb_eq _ _) L), (proj2 (Nat.leb_le _ _) L2), diff_sorted_nonneg by auto.
    cbn [py_assert bind]. rewrite unique_take_last_succ by auto. cbn [bind].
    rewrite eval_before with (g := g); auto.
    - destruct xp as [|x xp]; [cbn in L2; lia|].
      destruct (utl_complete (x :: xp) x Hn Hs (or_introl eq_refl)) as (x' & I & _).
      destruct (mask _ _); [contradiction|reflexivity].
    - now apply utl_mask_length.
    - apply Forall_forall. intros x Hx. apply mask_incl in Hx. eapply Forall_forall in Hn; eauto.
    - now apply utl_sorted.
    - intros x Hx. apply mask_incl in Hx. auto.
  Qed.
End Interp.

(** A concrete argsort (insertion sort of the positions). *)
Section Argsort.
  Context {T : Type} {NT : num T} {OK : num_ok NT}.
  Definition argsort_isort (l : list T) : list nat :=
    map snd (isort (fun p q => nleb (fst p) (fst q)) (combine l (seq 0 (length l)))).

  Lemma argsort_isort_spec : argsort_spec argsort_isort.
  Proof.
    intros l Hn. unfold argsort_isort.
    set (P := combine l (seq 0 (length l))). set (s := isort _ P).
    assert (Permutation P s) as Pm by apply isort_perm.
    assert (length l = length (seq 0 (length l))) as L by now rewrite seq_length.
    split.
    - rewrite <- (map_snd_combine l (seq 0 (length l))) by auto. apply Permutation_map, Permutation_sym, Pm.
    - assert (Forall (fun p => nisnan (fst p) = false) P) as O.
      { apply Forall_forall. intros [x i] H. apply in_combine_l in H. eapply Forall_forall in Hn; eauto. }
      assert (StronglySorted (fun p q => nleb (fst p) (fst q) = true) s) as So.
      { apply isort_sorted with (ok := fun p => nisnan (fst p) = false); auto.
        - intros; now apply leb_total_. - intros [] [] [] ? ?; eapply leb_trans_; eauto. }
      assert (take l (map snd s) = map fst s) as ->.
      { assert (forall p, In p s -> nth_error l (snd p) = Some (fst p)) as I.
        { intros [x i] H. eapply Permutation_in in H; [|apply Permutation_sym; exact Pm].
          apply In_nth_error in H as [j Hj]. unfold P in Hj. rewrite nth_combine in Hj.
          destruct (nth_error l j) eqn:E1; [|discriminate].
          destruct (nth_error (seq 0 (length l)) j) eqn:E2; [|discriminate]. inversion Hj; subst.
          assert (j < length l)%nat as B by (apply nth_error_Some; congruence).
          rewrite (nth_error_nth' _ 0%nat) in E2 by now rewrite seq_length. rewrite seq_nth in E2 by auto.
          inversion E2; subst. exact E1. }
        clear -I. unfold take. induction s as [|p s IH]; cbn; auto.
        rewrite (I p) by now left. cbn. f_equal. apply IH. intros; apply I; now right. }
      clear -So. induction So; cbn; constructor; auto.
      apply Forall_map. exact H.
  Qed.
End Argsort.
