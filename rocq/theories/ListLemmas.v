(** Lists: mapM, take, mask, sorted prefixes. *)
From Coq Require Import Permutation Sorted.
From Verif Require Import PyBase Num Util.
Open Scope Z_scope.

Lemma mapM_Forall2 {A B} (f : A -> res B) l out :
  mapM f l = Ok out <-> Forall2 (fun a b => f a = Ok b) l out.
Proof.
  revert out; induction l as [|a l IH]; intros out; cbn [mapM].
  - split; intros H; [apply Ok_inj in H; subst; constructor|inversion H; reflexivity].
  - split; intros H.
    + destruct (f a) as [b|] eqn:E; [|discriminate]. cbn [bind] in H.
      destruct (mapM f l) as [bs|] eqn:F; [|discriminate]. apply Ok_inj in H. subst.
      constructor; auto. now apply IH.
    + inversion H as [|? b ? bs Hb F]; subst. rewrite Hb. cbn [bind]. apply IH in F. rewrite F. reflexivity.
Qed.

Lemma mapM_total {A B} (f : A -> res B) l :
  (forall a, In a l -> exists b, f a = Ok b) -> exists out, mapM f l = Ok out.
Proof.
  induction l as [|a l IH]; intros H; [exists []; reflexivity|].
  destruct (H a (or_introl eq_refl)) as [b Hb]. destruct IH as [bs Hbs]; [intros; apply H; now right|].
  exists (b :: bs). cbn [mapM]. rewrite Hb. cbn [bind]. rewrite Hbs. reflexivity.
Qed.

Lemma mapM_ext {A B} (f g : A -> res B) l :
  (forall a, In a l -> f a = g a) -> mapM f l = mapM g l.
Proof.
  induction l as [|a l IH]; intros H; cbn [mapM]; auto. rewrite (H a) by now left.
  rewrite IH by (intros; apply H; now right). reflexivity.
Qed.

Lemma Forall2_len {A B} (R : A -> B -> Prop) l m : Forall2 R l m -> length l = length m.
Proof. induction 1; cbn; auto. Qed.

Lemma Forall2_nth {A B} (R : A -> B -> Prop) l m i a b :
  Forall2 R l m -> nth_error l i = Some a -> nth_error m i = Some b -> R a b.
Proof.
  intros F; revert i; induction F; intros [|i] Ha Hb; cbn in *; try discriminate.
  - now inversion Ha; inversion Hb; subst. - eauto.
Qed.

Lemma Forall2_intro {A B} (R : A -> B -> Prop) l m : length l = length m ->
  (forall i a b, nth_error l i = Some a -> nth_error m i = Some b -> R a b) -> Forall2 R l m.
Proof.
  revert m; induction l as [|a l IH]; intros [|b m] L H; try discriminate; constructor.
  - apply (H O); reflexivity. - apply IH; [now inversion L|]. intros i. apply (H (S i)).
Qed.

Lemma py_index_nat {A} (l : list A) (i : nat) a : nth_error l i = Some a -> py_index l (Z.of_nat i) = Ok a.
Proof.
  intros H. unfold py_index. assert (Z.of_nat i <? 0 = false) as -> by (apply Z.ltb_ge; lia).
  assert (Z.of_nat i <? 0 = false) as -> by (apply Z.ltb_ge; lia). now rewrite Nat2Z.id, H.
Qed.
Lemma py_index_last {A} (l : list A) a : nth_error l (length l - 1) = Some a -> py_index l (-1) = Ok a.
Proof.
  intros H. assert (length l <> 0)%nat by (intros E; destruct l; [discriminate H|discriminate E]).
  unfold py_index. change (-1 <? 0) with true. cbv iota.
  assert (-1 + Z.of_nat (length l) <? 0 = false) as -> by (apply Z.ltb_ge; lia).
  replace (Z.to_nat (-1 + Z.of_nat (length l))) with (length l - 1)%nat by lia. now rewrite H.
Qed.

Lemma nth_combine {A B} (l : list A) (m : list B) i :
  nth_error (combine l m) i =
  match nth_error l i, nth_error m i with Some a, Some b => Some (a, b) | _, _ => None end.
Proof.
  revert m i; induction l as [|a l IH]; intros [|b m] [|i]; cbn; auto.
  destruct (nth_error l i); auto.
Qed.

Lemma map_fst_combine {A B} (l : list A) (m : list B) : length l = length m -> map fst (combine l m) = l.
Proof. revert m; induction l; intros [|] H; cbn in *; try discriminate; auto. f_equal; auto. Qed.
Lemma map_snd_combine {A B} (l : list A) (m : list B) : length l = length m -> map snd (combine l m) = m.
Proof. revert m; induction l; intros [|] H; cbn in *; try discriminate; auto. f_equal; auto. Qed.

(** ** take *)
Lemma take_map {A B} (f : A -> B) l idx : take (map f l) idx = map f (take l idx).
Proof.
  unfold take. induction idx as [|i idx IH]; cbn; auto. rewrite IH, map_app. f_equal.
  rewrite nth_error_map. destruct (nth_error l i); reflexivity.
Qed.

Lemma take_seq {A} (l : list A) : take l (seq 0 (length l)) = l.
Proof.
  assert (forall p, take (p ++ l) (seq (length p) (length l)) = l) as H.
  { induction l as [|a l IH]; intros p; [reflexivity|]. cbn [length seq]. unfold take. cbn [flat_map].
    rewrite nth_error_app2, Nat.sub_diag by lia. cbn [nth_error app]. f_equal.
    specialize (IH (p ++ [a])). rewrite <- app_assoc in IH. rewrite app_length, Nat.add_1_r in IH. apply IH. }
  apply (H []).
Qed.

Lemma take_perm {A} (l : list A) idx : Permutation idx (seq 0 (length l)) -> Permutation (take l idx) l.
Proof.
  intros P. rewrite <- (take_seq l) at 2. unfold take. now apply Permutation_flat_map.
Qed.

Lemma take_length {A} (l : list A) idx : Permutation idx (seq 0 (length l)) -> length (take l idx) = length l.
Proof. intros. now apply Permutation_length, take_perm. Qed.

Lemma take_combine {A B} (l : list A) (m : list B) idx : length l = length m ->
  take (combine l m) idx = combine (take l idx) (take m idx).
Proof.
  intros L. unfold take. induction idx as [|i idx IH]; cbn [flat_map]; auto. rewrite IH.
  rewrite nth_combine. destruct (nth_error l i) eqn:E1, (nth_error m i) eqn:E2; cbn; auto.
  - apply nth_error_None in E2. assert (i < length l)%nat by (apply nth_error_Some; congruence). lia.
  - apply nth_error_None in E1. assert (i < length m)%nat by (apply nth_error_Some; congruence). lia.
Qed.

(** ** A downward closed predicate on a list selects a prefix *)
Lemma filter_prefix {A} (p : A -> bool) l :
  (forall i j a b, (i < j)%nat -> nth_error l i = Some a -> nth_error l j = Some b -> p b = true -> p a = true) ->
  forall i a, nth_error l i = Some a -> (p a = true <-> (i < length (filter p l))%nat).
Proof.
  induction l as [|b l IH]; intros H i a Ha; [destruct i; discriminate|].
  assert (forall i a, nth_error l i = Some a -> (p a = true <-> (i < length (filter p l))%nat)) as K.
  { apply IH. intros i' j' a' b' Lij Hi Hj. apply (H (S i') (S j')); auto; lia. }
  cbn [filter]. destruct (p b) eqn:E.
  - destruct i as [|i]; cbn in *.
    + inversion Ha; subst. split; intros; auto; lia.
    + rewrite (K i a Ha). lia.
  - assert (filter p l = []) as Z.
    { assert (forall x, In x l -> p x = false) as N.
      { intros x Hx. apply In_nth_error in Hx as [j Hj]. destruct (p x) eqn:Ex; auto.
        rewrite (H O (S j) b x) in E; auto; lia. }
      clear -N. induction l; cbn; auto. rewrite N by now left. apply IHl. intros; apply N; now right. }
    rewrite Z. cbn. split; [|lia]. intros Pa. destruct i as [|i]; cbn in Ha.
    + inversion Ha; subst. congruence.
    + apply (K i a Ha) in Pa. rewrite Z in Pa. cbn in Pa. lia.
Qed.

Lemma SSorted_nth {A} (R : A -> A -> Prop) l : StronglySorted R l ->
  forall i j a b, (i < j)%nat -> nth_error l i = Some a -> nth_error l j = Some b -> R a b.
Proof.
  induction 1 as [|c l S IH F]; intros i j a b L Ha Hb; [destruct i; discriminate|].
  destruct j as [|j]; [lia|]. destruct i as [|i]; cbn in *.
  - inversion Ha; subst. eapply Forall_forall in F; eauto. eapply nth_error_In; eauto.
  - eapply IH; [|eauto|eauto]. lia.
Qed.

Lemma nth_SSorted {A} (R : A -> A -> Prop) l :
  (forall i j a b, (i < j)%nat -> nth_error l i = Some a -> nth_error l j = Some b -> R a b) ->
  StronglySorted R l.
Proof.
  induction l as [|c l IH]; intros H; constructor.
  - apply IH. intros i j a b L Ha Hb. apply (H (S i) (S j)); auto; lia.
  - apply Forall_forall. intros b Hb. apply In_nth_error in Hb as [j Hj]. apply (H O (S j)); auto; lia.
Qed.

(** ** Insertion sort and a concrete argsort (stable) *)
Section ISort.
  Context {A : Type} (leb : A -> A -> bool).
  Fixpoint iinsert (x : A) (l : list A) : list A :=
    match l with [] => [x] | a :: l' => if leb x a then x :: l else a :: iinsert x l' end.
  Fixpoint isort (l : list A) : list A := match l with [] => [] | a :: l' => iinsert a (isort l') end.
  Lemma iinsert_perm x l : Permutation (x :: l) (iinsert x l).
  Proof.
    induction l as [|a l IH]; cbn; auto. destruct (leb x a); auto.
    eapply perm_trans; [apply perm_swap|]. now constructor.
  Qed.
  Lemma isort_perm l : Permutation l (isort l).
  Proof. induction l; cbn; auto. eapply perm_trans; [|apply iinsert_perm]. now constructor. Qed.
  Variable ok : A -> Prop.
  Hypothesis total : forall x y, ok x -> ok y -> leb x y = true \/ leb y x = true.
  Hypothesis trans : forall x y z, leb x y = true -> leb y z = true -> leb x z = true.
  Lemma isort_sorted l : Forall ok l -> StronglySorted (fun a b => leb a b = true) (isort l).
  Proof.
    induction 1 as [|x l Hx F IH]; cbn; [constructor|].
    assert (Forall ok (isort l)) as F' by (eapply Permutation_Forall; [apply isort_perm|auto]).
    clear F. induction IH as [|a m S IH' H]; cbn; [repeat constructor|].
    inversion F' as [|? ? Ha Fm]; subst. destruct (leb x a) eqn:E.
    - constructor; [now constructor|]. constructor; auto. eapply Forall_impl; [|exact H]. cbv beta; eauto.
    - constructor; [auto|]. eapply Permutation_Forall; [apply iinsert_perm|]. constructor; auto.
      destruct (total x a Hx Ha); [congruence|auto].
  Qed.
End ISort.
