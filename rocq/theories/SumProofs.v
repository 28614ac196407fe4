(** Every order of summation: [psum] adds its terms in some order, starting
    from zeros, and in exact arithmetic the order does not matter. *)
From Coq Require Import Reals Lra Lia Permutation.
From Verif Require Import PyBase F64 Num.

(** [v] is the sum of the terms [l], in some order and with some brackets,
    possibly with zeros in between. *)
Inductive sums_to {T} {NT : num T} : list T -> T -> Prop :=
| st_nil : sums_to [] n0
| st_one a : sums_to [a] a
| st_add l m v w : sums_to l v -> sums_to m w -> sums_to (l ++ m) (nadd v w)
| st_perm l m v : Permutation l m -> sums_to l v -> sums_to m v.

Lemma perm_front {A} (x y z w : list A) : Permutation w (x ++ z) -> Permutation (y ++ w) (x ++ y ++ z).
Proof. intros P. eapply Permutation_trans; [apply Permutation_app_head, P|]. apply Permutation_app_swap_app. Qed.
Lemma perm_step {A} (x l r z : list A) : Permutation l (x ++ z) -> Permutation z r -> Permutation l (x ++ r).
Proof. intros P Q. eapply Permutation_trans; [exact P|]. now apply Permutation_app_head. Qed.
(* [w] is [x ++ ?z] up to order, [w] a right-nested concatenation *)
Ltac find_front x :=
  lazymatch goal with
  | |- Permutation (x ++ _) _ => apply Permutation_refl
  | _ => eapply perm_front; find_front x
  end.
(* equality up to order of two right-nested concatenations of the same parts *)
Ltac perm_app :=
  lazymatch goal with
  | |- Permutation ?L (?x ++ ?R) => eapply perm_step; [find_front x|perm_app]
  | _ => apply Permutation_refl
  end.

Lemma F2_length {A B} {R : A -> B -> Prop} {l m} : Forall2 R l m -> length l = length m.
Proof. induction 1; cbn; congruence. Qed.

Section Order.
  Context {T : Type} {NT : num T}.

  Lemma st_snoc m v a : sums_to m v -> sums_to (m ++ [a]) (nadd v a : T).
  Proof. intros H. apply st_add; [exact H|apply st_one]. Qed.
  Lemma fold_sums (l m : list T) v : sums_to m v -> sums_to (m ++ l) (fold_left nadd l v).
  Proof.
    revert m v. induction l as [|a l IH]; intros m v H; cbn [fold_left].
    - now rewrite app_nil_r.
    - change (a :: l) with ([a] ++ l). rewrite app_assoc. apply IH. now apply st_snoc.
  Qed.
  Lemma nsum_sums (l : list T) : sums_to l (nsum l).
  Proof. exact (fold_sums l [] n0 st_nil). Qed.

  Lemma perm_snoc8 (a : T) m l : Permutation (m ++ a :: l) ((m ++ [a]) ++ l).
  Proof. now rewrite <- app_assoc. Qed.
  (* induction eight elements at a time *)
  Lemma list8_ind (P : list T -> Prop) :
    (forall l, (length l < 8)%nat -> P l) ->
    (forall a0 a1 a2 a3 a4 a5 a6 a7 l, P l -> P (a0 :: a1 :: a2 :: a3 :: a4 :: a5 :: a6 :: a7 :: l)) -> forall l, P l.
  Proof.
    intros H0 H8 l. remember (length l) as n eqn:E. revert l E. induction n as [n IH] using lt_wf_ind. intros l E.
    destruct l as [|a0 [|a1 [|a2 [|a3 [|a4 [|a5 [|a6 [|a7 l]]]]]]]]; try (apply H0; cbn; lia).
    apply H8. apply (IH (length l)); [cbn in E; lia|reflexivity].
  Qed.
  Lemma sum8_short r0 r1 r2 r3 r4 r5 r6 r7 (l : list T) : (length l < 8)%nat ->
    sum8 r0 r1 r2 r3 r4 r5 r6 r7 l = fold_left nadd l (nadd (nadd (nadd r0 r1) (nadd r2 r3)) (nadd (nadd r4 r5) (nadd r6 r7))).
  Proof. intros H. destruct l as [|a0 [|a1 [|a2 [|a3 [|a4 [|a5 [|a6 [|a7 l]]]]]]]]; try reflexivity. cbn in H. lia. Qed.
  Lemma sum_block_short (l : list T) : (length l < 8)%nat -> sum_block l = fold_left nadd l n0.
  Proof. intros H. destruct l as [|a0 [|a1 [|a2 [|a3 [|a4 [|a5 [|a6 [|a7 l]]]]]]]]; try reflexivity. cbn in H. lia. Qed.

  Lemma sum8_sums (l : list T) : forall m0 m1 m2 m3 m4 m5 m6 m7 r0 r1 r2 r3 r4 r5 r6 r7,
    sums_to m0 r0 -> sums_to m1 r1 -> sums_to m2 r2 -> sums_to m3 r3 -> sums_to m4 r4 -> sums_to m5 r5 -> sums_to m6 r6 -> sums_to m7 r7 ->
    sums_to ((((m0 ++ m1) ++ (m2 ++ m3)) ++ ((m4 ++ m5) ++ (m6 ++ m7))) ++ l) (sum8 r0 r1 r2 r3 r4 r5 r6 r7 l).
  Proof.
    induction l as [l L|a0 a1 a2 a3 a4 a5 a6 a7 l IH] using list8_ind; intros.
    - rewrite sum8_short by exact L. apply fold_sums. repeat apply st_add; assumption.
    - cbn [sum8]. eapply st_perm; [|apply (IH (m0 ++ [a0]) (m1 ++ [a1]) (m2 ++ [a2]) (m3 ++ [a3]) (m4 ++ [a4]) (m5 ++ [a5]) (m6 ++ [a6]) (m7 ++ [a7])); now apply st_snoc].
      clear. change (a0 :: a1 :: a2 :: a3 :: a4 :: a5 :: a6 :: a7 :: l) with ([a0] ++ [a1] ++ [a2] ++ [a3] ++ [a4] ++ [a5] ++ [a6] ++ [a7] ++ l).
      generalize [a0] [a1] [a2] [a3] [a4] [a5] [a6] [a7]. intros b0 b1 b2 b3 b4 b5 b6 b7. rewrite <- !app_assoc.
      apply Permutation_sym. perm_app.
  Qed.

  Lemma sum_block_sums (l : list T) : sums_to l (sum_block l).
  Proof.
    destruct (lt_dec (length l) 8) as [L|L].
    - rewrite sum_block_short by exact L. apply nsum_sums.
    - destruct l as [|a0 [|a1 [|a2 [|a3 [|a4 [|a5 [|a6 [|a7 l]]]]]]]]; try (cbn in L; lia).
      exact (sum8_sums l [a0] [a1] [a2] [a3] [a4] [a5] [a6] [a7] _ _ _ _ _ _ _ _ (st_one _) (st_one _) (st_one _) (st_one _) (st_one _) (st_one _) (st_one _) (st_one _)).
  Qed.
  Lemma pairwise_sums k : forall l : list T, sums_to l (pairwise_sum k l).
  Proof.
    induction k as [|k IH]; intros l; cbn [pairwise_sum]; [apply sum_block_sums|].
    destruct (length l <=? 128)%nat; [apply sum_block_sums|].
    cbv zeta. rewrite <- (firstn_skipn (length l / 2 - (length l / 2) mod 8) l) at 1. now apply st_add.
  Qed.
  Theorem psum_sums (l : list T) : sums_to l (psum l).
  Proof. exact (st_add [] l _ _ st_nil (pairwise_sums _ l)). Qed.

  (* what holds of zero and the terms and is kept by addition holds of the sum *)
  Lemma sums_to_ind1 (P : T -> Prop) : P n0 -> (forall a b, P a -> P b -> P (nadd a b)) ->
    forall l v, sums_to l v -> Forall P l -> P v.
  Proof.
    intros P0 PA l v H. induction H as [|a|l m v w _ IHv _ IHw|l m v PE _ IH]; intros F.
    - exact P0.
    - now inversion F.
    - apply Forall_app in F. destruct F. auto.
    - apply IH. now apply (Permutation_Forall (Permutation_sym PE)).
  Qed.
  Lemma psum_closed (P : T -> Prop) : P n0 -> (forall a b, P a -> P b -> P (nadd a b)) ->
    forall l, Forall P l -> P (psum l).
  Proof. intros P0 PA l. exact (sums_to_ind1 P P0 PA l _ (psum_sums l)). Qed.
  Lemma nsum_closed (P : T -> Prop) : P n0 -> (forall a b, P a -> P b -> P (nadd a b)) ->
    forall l, Forall P l -> P (nsum l).
  Proof. intros P0 PA l. exact (sums_to_ind1 P P0 PA l _ (nsum_sums l)). Qed.

  Lemma row_sums n (l : list T) : sums_to l (row_sum n l).
  Proof. unfold row_sum. destruct (n =? 1)%nat; [apply psum_sums|apply nsum_sums]. Qed.
  Lemma row_sum_closed (P : T -> Prop) : P n0 -> (forall a b, P a -> P b -> P (nadd a b)) ->
    forall n l, Forall P l -> P (row_sum n l).
  Proof. intros P0 PA n l. exact (sums_to_ind1 P P0 PA l _ (row_sums n l)). Qed.

  (* short vectors are summed from left to right *)
  Lemma psum_short (l : list T) : (length l < 8)%nat -> psum l = nadd n0 (nsum l).
  Proof.
    intros L. unfold psum. f_equal. destruct (length l) as [|n] eqn:E.
    - cbn [pairwise_sum]. apply sum_block_short. lia.
    - cbn [pairwise_sum]. rewrite E. replace (Datatypes.S n <=? 128)%nat with true by (symmetry; apply Nat.leb_le; lia).
      apply sum_block_short. lia.
  Qed.
End Order.

(** Two vectors related entry by entry have related sums. *)
Section Related.
  Context {A B : Type} {NA : num A} {NB : num B} (R : A -> B -> Prop).
  Context (R0 : R n0 n0) (RA : forall a a' b b', R a b -> R a' b' -> R (nadd a a') (nadd b b')).

  Lemma fold_rel l m : Forall2 R l m -> forall a b, R a b -> R (fold_left nadd l a) (fold_left nadd m b).
  Proof. induction 1 as [|x y l m H _ IH]; intros a b AB; cbn [fold_left]; auto. Qed.
  Lemma nsum_rel l m : Forall2 R l m -> R (nsum l) (nsum m).
  Proof. intros H. now apply fold_rel. Qed.
  Lemma sum8_rel (l : list A) : forall m, Forall2 R l m -> forall a0 a1 a2 a3 a4 a5 a6 a7 b0 b1 b2 b3 b4 b5 b6 b7,
    R a0 b0 -> R a1 b1 -> R a2 b2 -> R a3 b3 -> R a4 b4 -> R a5 b5 -> R a6 b6 -> R a7 b7 ->
    R (sum8 a0 a1 a2 a3 a4 a5 a6 a7 l) (sum8 b0 b1 b2 b3 b4 b5 b6 b7 m).
  Proof.
    induction l as [l L|x0 x1 x2 x3 x4 x5 x6 x7 l IH] using list8_ind; intros m F; intros.
    - rewrite sum8_short by exact L. rewrite sum8_short by (rewrite <- (F2_length F); exact L).
      apply fold_rel; [exact F|]. auto 10.
    - repeat match goal with H : Forall2 R (_ :: _) _ |- _ => inversion H; clear H; subst end.
      cbn [sum8]. apply IH; auto.
  Qed.
  Lemma sum_block_rel l m : Forall2 R l m -> R (sum_block l) (sum_block m).
  Proof.
    intros F. destruct (lt_dec (length l) 8) as [L|L].
    - rewrite sum_block_short by exact L. rewrite sum_block_short by (rewrite <- (F2_length F); exact L). now apply fold_rel.
    - destruct l as [|a0 [|a1 [|a2 [|a3 [|a4 [|a5 [|a6 [|a7 l]]]]]]]]; try (cbn in L; lia).
      repeat match goal with H : Forall2 R (_ :: _) _ |- _ => inversion H; clear H; subst end.
      cbn [sum_block]. now apply sum8_rel.
  Qed.
  Lemma pairwise_rel k : forall l m, Forall2 R l m -> R (pairwise_sum k l) (pairwise_sum k m).
  Proof.
    induction k as [|k IH]; intros l m F; cbn [pairwise_sum]; [now apply sum_block_rel|].
    rewrite <- (F2_length F). destruct (length l <=? 128)%nat; [now apply sum_block_rel|].
    cbv zeta. set (n2 := (length l / 2 - (length l / 2) mod 8)%nat).
    assert (Forall2 R (firstn n2 l) (firstn n2 m) /\ Forall2 R (skipn n2 l) (skipn n2 m)) as [F1 F2].
    { clearbody n2. revert n2. induction F as [|x y l m XY F IHF]; intros [|n]; cbn; split; auto; try (constructor; auto); now apply IHF. }
    apply RA; now apply IH.
  Qed.
  Lemma psum_rel l m : Forall2 R l m -> R (psum l) (psum m).
  Proof. intros F. unfold psum. rewrite <- (F2_length F). apply RA; [exact R0|now apply pairwise_rel]. Qed.
End Related.

(** In exact arithmetic every order gives the same sum. *)
Lemma xadd_comm a b : xadd a b = xadd b a.
Proof. destruct a, b; cbn; try reflexivity. f_equal. lra. Qed.
Lemma xadd_assoc a b c : xadd a (xadd b c) = xadd (xadd a b) c.
Proof. destruct a, b, c; cbn; try reflexivity. f_equal. lra. Qed.
Lemma xadd_0_l a : xadd (Fin 0) a = a.
Proof. destruct a; cbn; try reflexivity. f_equal. lra. Qed.

Lemma xfold_add l : forall a, fold_left xadd l a = xadd a (fold_left xadd l (Fin 0)).
Proof.
  induction l as [|x l IH]; intros a; cbn [fold_left]; [now rewrite xadd_comm, xadd_0_l|].
  rewrite (IH (xadd a x)), (IH (xadd (Fin 0) x)), xadd_0_l. now rewrite xadd_assoc.
Qed.
Lemma sums_to_xr (l : list xr) v : sums_to l v -> v = nsum l.
Proof.
  unfold nsum. cbn [nadd n0 xr_num]. induction 1 as [|a|l m v w _ IHv _ IHw|l m v P _ IH]; cbn [fold_left nadd n0 xr_num].
  - reflexivity.
  - now rewrite xadd_0_l.
  - rewrite fold_left_app, (xfold_add m). congruence.
  - rewrite IH. clear -P. induction P as [|x l m P IH|x y l|l m k P IH P' IH']; cbn [fold_left]; try congruence.
    + now rewrite (xfold_add l), (xfold_add m), IH.
    + f_equal. rewrite <- !xadd_assoc. f_equal. apply xadd_comm.
Qed.
Theorem psum_xr (l : list xr) : psum l = nsum l.
Proof. apply sums_to_xr, psum_sums. Qed.
Theorem row_sum_xr n (l : list xr) : row_sum n l = nsum l.
Proof. apply sums_to_xr, row_sums. Qed.
