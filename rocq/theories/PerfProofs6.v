(** Facts about the curves that hold in any arithmetic (so also in doubles):
    rows are independent, only the order of the scores matters, unweighted
    curves do not depend on the order of the samples. *)
From Coq Require Import Permutation Sorted.
From Verif Require Import PyBase F64 Num NumOk Util UtilProofs ListLemmas UtilProofs2 PerfCurves PerfProofs PerfProofs2.
Open Scope Z_scope.

Section Generic.
  Context {T : Type} {NT : num T} {OK : num_ok NT}.
  Notation fins l := (Forall (fun x => nisfin x = true) l).

  (** ** Rows are independent *)
  Lemma allclose_row (f g : list T -> T) sw w : allclose (map f sw) (map g sw) = true -> In w sw -> allclose (map f [w]) (map g [w]) = true.
  Proof.
    unfold allclose. intros H I. cbn. rewrite andb_true_r. rewrite forallb_forall in H.
    apply (H (f w, g w)). clear H. induction sw as [|a sw IH]; [destruct I|]. destruct I as [->|I]; [now left|right; auto].
  Qed.

  (* the assertion on the sum of the weights adds a single row in another order *)
  Theorem clf_rows y s sw fps tps th : _binary_clf_curve y s (Some sw) = Ok (fps, tps, th) ->
    length fps = length sw /\ length tps = length sw /\
    forall i w, nth_error sw i = Some w -> exists f t, nth_error fps i = Some f /\ nth_error tps i = Some t /\
      forall o, _binary_clf_curve y s (Some [w]) = Ok o -> o = ([f], [t], th).
  Proof.
    intros H. destruct (clf_inputs _ _ _ _ H) as (L & F & N & H1 & H2 & H3 & H4).
    rewrite clf_weighted in H by auto.
    destruct (allclose (map (fun r => lastn (fps_row s y r)) sw) (map (neg_sum s y (length sw)) sw)) eqn:A1; [|discriminate].
    destruct (allclose (map (fun r => lastn (tps_row s y r)) sw) (map (pos_sum s y (length sw)) sw)) eqn:A2; [|discriminate].
    cbn [py_assert bind] in H. unfold finish in H.
    destruct (forallb _ (map _ sw)) eqn:R in H; [|discriminate]. cbn [py_assert bind] in H. apply Ok_inj in H.
    injection H as <- <- <-. rewrite !map_length. do 2 (split; [reflexivity|]). intros i w Hi.
    exists (fst (row_out (fps_row s y w) (tps_row s y w))), (snd (row_out (fps_row s y w) (tps_row s y w))).
    rewrite !nth_error_map, Hi. cbn [option_map fst snd]. do 2 (split; [reflexivity|]).
    pose proof (nth_error_In _ _ Hi) as I.
    assert (forall p : list T -> bool, forallb p sw = true -> forallb p [w] = true) as One.
    { intros p Hp. cbn. rewrite forallb_forall in Hp. now rewrite Hp. }
    intros o. rewrite clf_weighted; auto; [|discriminate].
    match goal with |- (assert! ?a; assert! ?b; _) = _ -> _ => destruct a; [|discriminate]; destruct b; [|discriminate] end.
    cbn [py_assert bind]. unfold finish. rewrite forallb_forall in R. cbn [map forallb fst snd].
    specialize (R (fps_row s y w, tps_row s y w) (in_map (fun r => (fps_row s y r, tps_row s y r)) _ _ I)). cbn [fst snd] in R.
    rewrite R. cbn [andb py_assert bind]. intros Ho. now apply Ok_inj in Ho.
  Qed.

  (** ** Only the order of the scores matters *)
  Section Transform.
    Context (g : T -> T) (s : list T).
    Hypothesis (Hg : forall a b, In a s -> In b s -> nleb (g a) (g b) = nleb a b).
    Let gp (p : T * nat) : T * nat := (g (fst p), snd p).

    Lemma insert_idx_map p l : In (fst p) s -> (forall q, In q l -> In (fst q) s) ->
      insert_idx (gp p) (map gp l) = map gp (insert_idx p l).
    Proof.
      intros Hp. induction l as [|q l IH]; intros Hl; [reflexivity|]. cbn [map insert_idx]. unfold gp at 1 2. cbn [fst].
      rewrite Hg by (auto; apply Hl; now left). destruct (nleb (fst p) (fst q)); [reflexivity|]. cbn [map]. f_equal.
      apply IH. intros; apply Hl; now right.
    Qed.
    Lemma insert_idx_in p l q : In q (insert_idx p l) -> q = p \/ In q l.
    Proof.
      induction l as [|a l IH]; cbn; [intros [<-|[]]; auto|]. destruct (nleb (fst p) (fst a)).
      - intros [<-|H]; auto.
      - intros [<-|H]; [auto|]. destruct (IH H); auto.
    Qed.
    Lemma fold_insert_in l q : In q (fold_right insert_idx [] l) -> In q l.
    Proof.
      induction l as [|a l IH]; cbn; auto. intros H. destruct (insert_idx_in _ _ _ H) as [->|H']; auto.
    Qed.
    Lemma argsort_map : argsort_stable (map g s) = argsort_stable s.
    Proof.
      unfold argsort_stable. rewrite map_length.
      assert (forall l i, (forall a, In a l -> In a s) ->
        fold_right insert_idx [] (combine (map g l) i) = map gp (fold_right insert_idx [] (combine l i))) as E.
      { induction l as [|a l IH]; intros [|i0 i] H; try reflexivity. cbn [map combine fold_right].
        rewrite IH by (intros; apply H; now right). change (g a, i0) with (gp (a, i0)). apply insert_idx_map.
        - apply H. now left.
        - intros q Hq. apply fold_insert_in in Hq. destruct q as [q k]. apply in_combine_l in Hq. apply H. now right. }
      rewrite E by auto. rewrite map_map. reflexivity.
    Qed.

    Lemma neqb_map a b : In a s -> In b s -> neqb (g a) (g b) = neqb a b.
    Proof. intros. now rewrite !eqb_leb_, !Hg. Qed.

    Lemma diff_mask_map l : (forall a, In a l -> In a s) -> fins l -> fins (map g l) ->
      map (fun d => negb (neqb d n0)) (diff (map g l)) = map (fun d => negb (neqb d n0)) (diff l).
    Proof.
      induction l as [|a [|b l] IH]; intros H F Fg; try reflexivity.
      change (map g (a :: b :: l)) with (g a :: map g (b :: l)). inversion F as [|? ? Fa F']; subst. inversion F' as [|? ? Fb _]; subst.
      inversion Fg as [|? ? Fa' Fg']; subst. inversion Fg' as [|? ? Fb' _]; subst.
      change (map g (b :: l)) with (g b :: map g l). rewrite !diff_cons. cbn [map].
      rewrite !diff_zero by auto. rewrite neqb_map by (apply H; cbn; auto). f_equal.
      change (g b :: map g l) with (map g (b :: l)). apply IH; auto. intros; apply H; now right.
    Qed.

    Theorem clf_transform y sw : fins s -> fins (map g s) ->
      _binary_clf_curve y (map g s) sw =
      match _binary_clf_curve y s sw with
      | Ok (fps, tps, th) => Ok (fps, tps, match th with h :: l => h :: map g l | [] => [] end)
      | Err e => Err e
      end.
    Proof.
      intros F Fg. unfold _binary_clf_curve. rewrite map_length.
      destruct (length s =? length y)%nat eqn:E1; [|reflexivity]. cbn [py_assert bind]. apply Nat.eqb_eq in E1.
      assert (forallb nisfin (map g s) = true) as -> by (apply forallb_forall; intros x Hx; eapply Forall_forall in Fg; eauto).
      assert (forallb nisfin s = true) as -> by (apply forallb_forall; intros x Hx; eapply Forall_forall in F; eauto).
      cbn [py_assert bind]. destruct (1 <=? length y)%nat; [|reflexivity]. cbn [py_assert bind].
      rewrite argsort_map, take_map, diff_mask_map.
      2:{ intros a Ha. eapply Permutation_in; [|exact Ha]. apply take_perm, desc_perm. }
      2:{ eapply Permutation_Forall; [apply Permutation_sym, take_perm, desc_perm|auto]. }
      2:{ rewrite <- take_map. eapply Permutation_Forall; [apply Permutation_sym, take_perm|auto]. rewrite map_length. apply desc_perm. }
      match goal with |- bind ?m _ = _ => destruct m as [[fps tps]|e]; [|reflexivity] end. cbn [bind].
      rewrite take_map. cbn [length]. rewrite map_length.
      match goal with |- bind (py_assert ?b) _ = _ => destruct b; [|reflexivity] end. cbn [py_assert bind].
      match goal with |- bind ?m _ = _ => destruct m as [[f t]|e]; [|reflexivity] end. cbn [bind].
      match goal with |- bind (py_assert ?b) _ = _ => destruct b; [|reflexivity] end. cbn [py_assert bind].
      match goal with |- bind (py_assert ?b) _ = _ => destruct b; [|reflexivity] end. reflexivity.
    Qed.
  End Transform.

  (** Curves of strictly increasing transforms of the scores are the same. *)
  Definition thr_map (g : T -> T) (r : res (curve T * list T)) : res (curve T * list T) :=
    match r with
    | Ok (c, th) => Ok (c, match th with h :: l => h :: map g l | [] => [] end)
    | Err e => Err e
    end.

  Theorem curves_transform (g : T -> T) s y sw :
    (forall a b, In a s -> In b s -> nleb (g a) (g b) = nleb a b) -> fins s -> fins (map g s) ->
    roc_curve y (map g s) sw = thr_map g (roc_curve y s sw) /\
    recall_precision_curve y (map g s) sw = thr_map g (recall_precision_curve y s sw) /\
    prg_curve y (map g s) sw = thr_map g (prg_curve y s sw).
  Proof.
    intros Hg F Fg. unfold roc_curve, recall_precision_curve, prg_curve. rewrite (clf_transform g s Hg y sw F Fg).
    destruct (_binary_clf_curve y s sw) as [[[fps tps] th]|e]; [|repeat split; reflexivity]. cbn [bind].
    split; [reflexivity|]. split.
    - match goal with |- bind (py_assert ?b) _ = _ => destruct b; reflexivity end.
    - match goal with |- bind (py_assert ?b) _ = _ => destruct b; [|reflexivity] end. cbn [py_assert bind].
      match goal with |- bind (py_assert ?b) _ = _ => destruct b; [|reflexivity] end. cbn [py_assert bind].
      match goal with |- bind (py_assert ?b) _ = _ => destruct b; reflexivity end.
  Qed.

  (** ** Thresholds are determined by the set of scores *)
  Lemma neqb_sym_ (a b : T) : neqb a b = neqb b a.
  Proof. rewrite !eqb_leb_. apply andb_comm. Qed.
  Lemma gt_irrefl_eq (a b : T) : gt a b -> neqb a b = false.
  Proof. intros H. rewrite eqb_leb_, (gt_not_le a b H). reflexivity. Qed.
  Lemma gt_asym (a b : T) : gt a b -> gt b a -> False.
  Proof.
    intros H1 H2. pose proof (gt_not_le _ _ H1). unfold gt in H2. destruct (ltb_notnan_ _ _ H2). rewrite ltb_leb_ in H2 by auto.
    unfold gt in H1. rewrite ltb_leb_ in H1 by auto. apply negb_true_iff in H1, H2.
    destruct (leb_total_ a b); auto; congruence.
  Qed.
  Lemma gt_eq_l (a b c : T) : gt a b -> neqb a c = true -> gt c b.
  Proof.
    intros H E. rewrite eqb_leb_ in E. apply andb_true_iff in E as [E1 E2]. unfold gt in *.
    destruct (ltb_notnan_ _ _ H). destruct (leb_notnan_ _ _ E1). rewrite ltb_leb_ in * by auto. apply negb_true_iff in H. apply negb_true_iff.
    destruct (nleb c b) eqn:Q; auto. rewrite (leb_trans_ _ _ _ E1 Q) in H. discriminate.
  Qed.

  Lemma sorted_sets_eq (l m : list T) : StronglySorted gt l -> StronglySorted gt m ->
    (forall a, In a l -> exists b, In b m /\ neqb a b = true) -> (forall b, In b m -> exists a, In a l /\ neqb b a = true) ->
    Forall2 (fun a b => neqb a b = true) l m.
  Proof.
    intros S1. revert m. induction S1 as [|a l S IH F]; intros m S2 H1 H2.
    - destruct m as [|b m]; [constructor|]. destruct (H2 b (or_introl eq_refl)) as (x & [] & _).
    - destruct S2 as [|b m S2 F2]; [destruct (H1 a (or_introl eq_refl)) as (x & [] & _)|].
      assert (neqb a b = true) as Hab.
      { destruct (H1 a (or_introl eq_refl)) as (b' & [<-|Ib] & E); auto.
        destruct (H2 b (or_introl eq_refl)) as (a' & [<-|Ia] & E'); [now rewrite neqb_sym_|]. exfalso.
        eapply Forall_forall in F; eauto. eapply Forall_forall in F2; eauto.
        apply (gt_asym b' b); auto. eapply gt_eq_l; eauto.
        unfold gt. assert (gt a a') as G by exact F. assert (neqb a' b = true) as E'' by now rewrite neqb_sym_.
        rewrite eqb_leb_ in E''. apply andb_true_iff in E'' as [_ E2]. exact (gt_ge_trans a a' b G E2). }
      constructor; auto. apply IH; auto.
      + intros x Hx. destruct (H1 x (or_intror Hx)) as (z & [<-|Hz] & E); eauto. exfalso.
        eapply Forall_forall in F; eauto. apply gt_irrefl_eq in F.
        rewrite (neqb_trans_ a b x) in F; [discriminate|auto|now rewrite neqb_sym_].
      + intros x Hx. destruct (H2 x (or_intror Hx)) as (z & [<-|Hz] & E); eauto. exfalso.
        eapply Forall_forall in F2; eauto. apply gt_irrefl_eq in F2.
        rewrite (neqb_trans_ b a x) in F2; [discriminate| |]; now rewrite neqb_sym_.
  Qed.

  Lemma thr_same s s' : fins s -> fins s' -> (forall x, In x s <-> In x s') -> Forall2 (fun a b => neqb a b = true) (thr s) (thr s').
  Proof.
    intros F F' E. apply sorted_sets_eq; auto using thr_sorted.
    - intros a Ha. apply thr_complete; auto. apply E. now apply thr_in.
    - intros a Ha. apply thr_complete; auto. apply E. now apply thr_in.
  Qed.

  Lemma cntZ_eq s y p t t' : neqb t t' = true -> cntZ s y p t = cntZ s y p t'.
  Proof.
    intros E. rewrite eqb_leb_ in E. apply andb_true_iff in E as [E1 E2]. unfold cntZ. do 2 f_equal. apply filter_ext.
    intros q. f_equal. destruct (nleb t (fst q)) eqn:A, (nleb t' (fst q)) eqn:B; auto.
    - rewrite (leb_trans_ _ _ _ E2 A) in B. discriminate.
    - rewrite (leb_trans_ _ _ _ E1 B) in A. discriminate.
  Qed.
  Lemma filter_len_perm {A} (p : A -> bool) l m : Permutation l m -> length (filter p l) = length (filter p m).
  Proof. induction 1; cbn; auto; repeat destruct (p _); cbn; try lia. Qed.
  Lemma cntZ_perm s y s' y' p t : Permutation (combine s y) (combine s' y') -> cntZ s y p t = cntZ s' y' p t.
  Proof. intros P. unfold cntZ. f_equal. now apply filter_len_perm. Qed.

  (** Reordering the samples of an unweighted curve. *)
  Theorem clf_reorder s y s' y' : length s = length y -> length s' = length y' ->
    Permutation (combine s y) (combine s' y') ->
    match _binary_clf_curve y s None, _binary_clf_curve y' s' None with
    | Ok (fps, tps, th), Ok (fps', tps', th') => fps = fps' /\ tps = tps' /\ Forall2 (fun a b => neqb a b = true) (tl th) (tl th')
    | Err e, Err e' => e = e'
    | _, _ => False
    end.
  Proof.
    intros L L' P.
    assert (Permutation s s') as Ps.
    { rewrite <- (map_fst_combine s y), <- (map_fst_combine s' y') by auto. now apply Permutation_map. }
    assert (length s = length s') as Ls by now apply Permutation_length.
    destruct (forallb nisfin s) eqn:F.
    2:{ assert (forallb nisfin s' = false) as F'.
        { destruct (forallb nisfin s') eqn:F'; auto. rewrite forallb_forall in F'.
          assert (forallb nisfin s = true); [|congruence]. apply forallb_forall. intros x Hx. apply F'. eapply Permutation_in; eauto. }
        unfold _binary_clf_curve. rewrite L, L', !Nat.eqb_refl, F, F'. reflexivity. }
    assert (fins s) as Fs by (apply Forall_forall; intros x Hx; eapply forallb_forall in F; eauto).
    assert (fins s') as Fs' by (eapply Permutation_Forall; eauto).
    destruct s as [|a s0].
    { destruct s'; [|discriminate]. destruct y; [|discriminate]. destruct y'; [|discriminate]. cbn. reflexivity. }
    set (s := a :: s0) in *. assert (s <> []) as N by discriminate. assert (s' <> []) as N' by (destruct s'; [discriminate|discriminate]).
    rewrite !clf_unweighted by auto.
    assert (Forall2 (fun a b => neqb a b = true) (thr s) (thr s')) as Q.
    { apply thr_same; auto. intros x. split; intros; eapply Permutation_in; try eassumption. now apply Permutation_sym. }
    assert (forall p, map (fun t => nofZ (cntZ s y p t) : T) (thr s) = map (fun t => nofZ (cntZ s' y' p t)) (thr s')) as E.
    { intros p. clear -Q P OK. induction Q as [|t t' l l' H Q IH]; cbn; auto. rewrite IH. f_equal. f_equal.
      rewrite (cntZ_eq s y p t t' H). now apply cntZ_perm. }
    rewrite !E. unfold finish. match goal with |- context [py_assert ?b] => destruct b end; cbn [py_assert bind]; auto.
  Qed.

  Definition same_rows (r r' : res (curve T * list T)) : Prop :=
    match r, r' with
    | Ok (c, th), Ok (c', th') => c = c' /\ Forall2 (fun a b => neqb a b = true) (tl th) (tl th')
    | Err e, Err e' => e = e'
    | _, _ => False
    end.

  Theorem curves_reorder s y s' y' : length s = length y -> length s' = length y' ->
    Permutation (combine s y) (combine s' y') ->
    same_rows (roc_curve y s None) (roc_curve y' s' None) /\
    same_rows (recall_precision_curve y s None) (recall_precision_curve y' s' None) /\
    same_rows (prg_curve y s None) (prg_curve y' s' None).
  Proof.
    intros L L' P. pose proof (clf_reorder s y s' y' L L' P) as H. unfold roc_curve, recall_precision_curve, prg_curve.
    destruct (_binary_clf_curve y s None) as [[[fps tps] th]|e], (_binary_clf_curve y' s' None) as [[[fps' tps'] th']|e'];
      try (destruct H; fail); cbn [bind]; [|unfold same_rows; auto].
    destruct H as (-> & -> & Q). split; [split; auto|]. split.
    - match goal with |- context [py_assert ?b] => destruct b end; cbn [py_assert bind]; unfold same_rows; auto.
    - match goal with |- context [py_assert ?b] => destruct b end; cbn [py_assert bind]; [|unfold same_rows; auto].
      match goal with |- context [py_assert ?b] => destruct b end; cbn [py_assert bind]; [|unfold same_rows; auto].
      match goal with |- context [py_assert ?b] => destruct b end; cbn [py_assert bind]; unfold same_rows; auto.
  Qed.
End Generic.
