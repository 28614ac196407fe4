(** Order statistics, and the index arithmetic of the percentile bootstrap. *)
From Coq Require Import Reals Lra Permutation Sorted.
From Flocq Require Import Core BinarySingleNaN.
From Verif Require Import PyBase F64 F64Lemmas Num NumOk Util UtilProofs ListLemmas UtilProofs2 BootUtil.
Open Scope R_scope.

(** ** Order statistics, any number type *)
Section Os.
  Context {T : Type} {NT : num T} {NO : num_ok NT}.

  Definition cnt_le (b : list T) r : nat := length (filter (fun x => nleb x r) b).
  Definition cnt_ge (b : list T) r : nat := length (filter (fun x => nleb r x) b).

  Lemma perm_filter_length (p : T -> bool) l m : Permutation l m -> length (filter p l) = length (filter p m).
  Proof. induction 1; cbn; auto; repeat destruct (p _); cbn; try lia. Qed.

  Lemma sort_okl b : okl b -> okl (sort b).
  Proof. intros O. unfold okl. eapply Permutation_Forall; [apply sort_perm|]; auto. Qed.
  Lemma sort_length b : length (sort b) = length b.
  Proof. symmetry. apply Permutation_length, sort_perm. Qed.

  Lemma os_le b r k v : okl b -> nth_error (sort b) k = Some v -> (nleb v r = true <-> (k < cnt_le b r)%nat).
  Proof.
    intros O E. unfold cnt_le. rewrite (perm_filter_length _ _ _ (sort_perm b)).
    apply (filter_prefix (fun x => nleb x r)); auto.
    intros i j a c L Ha Hc H. pose proof (SSorted_nth _ _ (sort_sorted b O) _ _ _ _ L Ha Hc) as S.
    unfold le in S. eapply leb_trans_; eauto.
  Qed.

  Lemma filter_negb_length (p : T -> bool) l :
    (length (filter p l) + length (filter (fun x => negb (p x)) l) = length l)%nat.
  Proof. induction l as [|a l IH]; cbn; auto. destruct (p a); cbn; lia. Qed.

  Lemma os_ge b r k v : okl b -> nth_error (sort b) k = Some v ->
    (nleb r v = true <-> (length b <= k + cnt_ge b r)%nat).
  Proof.
    intros O E.
    assert (negb (nleb r v) = true <-> (k < length (filter (fun x => negb (nleb r x)) (sort b)))%nat) as H.
    { apply (filter_prefix (fun x => negb (nleb r x))); auto.
      intros i j a c L Ha Hc H. pose proof (SSorted_nth _ _ (sort_sorted b O) _ _ _ _ L Ha Hc) as S.
      unfold le in S. destruct (nleb r a) eqn:E'; auto. rewrite (leb_trans_ _ _ _ E' S) in H. discriminate. }
    pose proof (filter_negb_length (fun x => nleb r x) (sort b)) as F. rewrite sort_length in F.
    unfold cnt_ge. rewrite (perm_filter_length _ _ _ (sort_perm b)).
    destruct (nleb r v); cbn in H.
    - split; auto. intros _. destruct (Nat.lt_ge_cases k (length (filter (fun x => negb (nleb r x)) (sort b)))) as [L|L]; [|lia].
      apply H in L. discriminate.
    - split; [discriminate|]. intros L. destruct H as [H _]. specialize (H eq_refl). lia.
  Qed.

  Lemma sort_nth_ex b k : (k < length b)%nat -> exists v, nth_error (sort b) k = Some v.
  Proof.
    intros H. destruct (nth_error (sort b) k) eqn:E; eauto. apply nth_error_None in E. rewrite sort_length in E. lia.
  Qed.
  Lemma sort_nth_in b k v : nth_error (sort b) k = Some v -> In v b.
  Proof.
    intros E. eapply Permutation_in; [apply Permutation_sym, sort_perm|]. eapply nth_error_In; eauto.
  Qed.
  Lemma sort_nth_mono b i j v w : okl b -> (i <= j)%nat -> nth_error (sort b) i = Some v -> nth_error (sort b) j = Some w ->
    nleb v w = true.
  Proof.
    intros O L E1 E2. destruct (Nat.eq_dec i j) as [->|].
    - rewrite E1 in E2. injection E2 as ->. apply leb_refl_. eapply Forall_forall in O; [exact O|].
      eapply sort_nth_in; eauto.
    - exact (SSorted_nth _ _ (sort_sorted b O) i j v w ltac:(lia) E1 E2).
  Qed.
  Lemma okl_in b v : okl b -> In v b -> nisnan v = false.
  Proof. intros O H. eapply Forall_forall in O; eauto. Qed.

  (** order statistics of permuted samples are the same numbers *)
  Lemma os_perm b b' k v v' : okl b -> Permutation b b' ->
    nth_error (sort b) k = Some v -> nth_error (sort b') k = Some v' -> neqb v v' = true.
  Proof.
    intros O P E E'. assert (okl b') as O' by (unfold okl; eapply Permutation_Forall; eauto).
    rewrite eqb_leb_. apply andb_true_iff. split.
    - apply (os_le b v' k v O E). unfold cnt_le. rewrite (perm_filter_length _ _ _ P).
      apply (os_le b' v' k v' O' E'). apply leb_refl_. exact (okl_in b' v' O' (sort_nth_in _ _ _ E')).
    - apply (os_le b' v k v' O' E'). unfold cnt_le. rewrite <- (perm_filter_length _ _ _ P).
      apply (os_le b v k v O E). apply leb_refl_. exact (okl_in b v O (sort_nth_in _ _ _ E)).
  Qed.
End Os.

(** ** The indices *)
Section Idx.
  Context {T : Type} {NT : num T}.
  Definition alpha_ (c : T) : T := nmul nhalf (nsub n1 c).
  Definition lbp (c : T) : T := nmul (nofZ 100) (alpha_ c).
  Definition ubp (c : T) : T := nmul (nofZ 100) (nsub n1 (alpha_ c)).
  Definition qlo (c : T) : T := ndiv (lbp c) (nofZ 100).
  Definition qhi (c : T) : T := ndiv (ubp c) (nofZ 100).
  Definition xlo (c : T) (n : Z) : T := nmul (qlo c) (nofZ (n - 1)).
  Definition xhi (c : T) (n : Z) : T := nmul (qhi c) (nofZ (n - 1)).
  Definition kL (c : T) n : Z := nfloorZ (xlo c n).
  Definition kU (c : T) n : Z := nceilZ (xhi c n).

  Definition in01 (c : T) : bool := nltb n0 c && nltb c n1.

  Lemma percentile_unfold b c lb ub : percentile b c = Ok (lb, ub) ->
    okl b /\ in01 c = true /\
    py_index (sort b) (kL c (Z.of_nat (length b))) = Ok lb /\
    py_index (sort b) (kU c (Z.of_nat (length b))) = Ok ub.
  Proof.
    unfold percentile, confidence_to_percentiles, np_percentile. fold (in01 c).
    destruct (negb (existsb nisnan b)) eqn:E1; [|discriminate].
    destruct (in01 c) eqn:E2; [|discriminate]. cbn [py_assert bind fst snd].
    intros H. split; [now apply okl_existsb|]. split; [reflexivity|].
    change (nmul nhalf (nsub n1 c)) with (alpha_ c) in H.
    change (nmul (nofZ 100) (alpha_ c)) with (lbp c) in H.
    change (nmul (nofZ 100) (nsub n1 (alpha_ c))) with (ubp c) in H.
    change (ndiv (lbp c) (nofZ 100)) with (qlo c) in H. change (ndiv (ubp c) (nofZ 100)) with (qhi c) in H.
    change (nmul (qlo c) (nofZ (Z.of_nat (length b) - 1))) with (xlo c (Z.of_nat (length b))) in H.
    change (nmul (qhi c) (nofZ (Z.of_nat (length b) - 1))) with (xhi c (Z.of_nat (length b))) in H.
    change (nfloorZ (xlo c (Z.of_nat (length b)))) with (kL c (Z.of_nat (length b))) in H.
    change (nceilZ (xhi c (Z.of_nat (length b)))) with (kU c (Z.of_nat (length b))) in H.
    destruct (nltb (qlo c) n0 || nltb n1 (qlo c)); [discriminate|].
    destruct (py_index _ (kL _ _)); [|discriminate]. cbn [bind] in H.
    destruct (nltb (qhi c) n0 || nltb n1 (qhi c)); [discriminate|].
    destruct (py_index _ (kU _ _)); [|discriminate]. cbn [bind] in H. injection H as -> ->. auto.
  Qed.

  (** What the two arithmetics have to guarantee. *)
  Definition idx_ok (c : T) (n : Z) : Prop :=
    nltb (qlo c) n0 = false /\ nltb n1 (qlo c) = false /\ nltb (qhi c) n0 = false /\ nltb n1 (qhi c) = false /\
    (0 <= kL c n <= kU c n)%Z /\ (kU c n < n)%Z.

  Lemma percentile_total b c : okl b -> in01 c = true -> idx_ok c (Z.of_nat (length b)) ->
    exists i j lb ub, percentile b c = Ok (lb, ub) /\ (i <= j)%nat /\ (j < length b)%nat /\
      Z.of_nat i = kL c (Z.of_nat (length b)) /\ Z.of_nat j = kU c (Z.of_nat (length b)) /\
      nth_error (sort b) i = Some lb /\ nth_error (sort b) j = Some ub.
  Proof.
    intros O C (Q1 & Q2 & Q3 & Q4 & K1 & K2).
    destruct (sort_nth_ex b (Z.to_nat (kL c (Z.of_nat (length b))))) as [lb El]; [lia|].
    destruct (sort_nth_ex b (Z.to_nat (kU c (Z.of_nat (length b))))) as [ub Eu]; [lia|].
    exists (Z.to_nat (kL c (Z.of_nat (length b)))), (Z.to_nat (kU c (Z.of_nat (length b)))), lb, ub.
    split; [|repeat split; auto; lia].
    unfold percentile, confidence_to_percentiles, np_percentile. fold (in01 c). rewrite C.
    apply okl_existsb in O. rewrite O. cbn [py_assert bind fst snd].
    change (nmul nhalf (nsub n1 c)) with (alpha_ c).
    change (nmul (nofZ 100) (alpha_ c)) with (lbp c).
    change (nmul (nofZ 100) (nsub n1 (alpha_ c))) with (ubp c).
    change (ndiv (lbp c) (nofZ 100)) with (qlo c). change (ndiv (ubp c) (nofZ 100)) with (qhi c).
    change (nmul (qlo c) (nofZ (Z.of_nat (length b) - 1))) with (xlo c (Z.of_nat (length b))).
    change (nmul (qhi c) (nofZ (Z.of_nat (length b) - 1))) with (xhi c (Z.of_nat (length b))).
    change (nfloorZ (xlo c (Z.of_nat (length b)))) with (kL c (Z.of_nat (length b))).
    change (nceilZ (xhi c (Z.of_nat (length b)))) with (kU c (Z.of_nat (length b))).
    rewrite Q1, Q2, Q3, Q4. cbn [orb].
    apply py_index_nat in El. apply py_index_nat in Eu. rewrite Z2Nat.id in El, Eu by lia.
    rewrite El, Eu. reflexivity.
  Qed.

  Lemma percentile_inv b c lb ub : percentile b c = Ok (lb, ub) -> idx_ok c (Z.of_nat (length b)) ->
    okl b /\ in01 c = true /\
    exists i j, (i <= j)%nat /\ (j < length b)%nat /\
      Z.of_nat i = kL c (Z.of_nat (length b)) /\ Z.of_nat j = kU c (Z.of_nat (length b)) /\
      nth_error (sort b) i = Some lb /\ nth_error (sort b) j = Some ub.
  Proof.
    intros H K. destruct (percentile_unfold _ _ _ _ H) as (O & C & _). split; auto. split; auto.
    destruct (percentile_total b c O C K) as (i & j & lb' & ub' & E & L1 & L2 & L3 & L4 & L5 & L6).
    rewrite E in H. injection H as -> ->. exists i, j. auto 10.
  Qed.
End Idx.

(** ** Significance, any number type *)
Section Sig.
  Context {T : Type} {NT : num T} {NO : num_ok NT}.

  Definition rate (k n : nat) : T := ndiv (nofZ (Z.of_nat k)) (nofZ (Z.of_nat n)).

  Lemma map2_repeat {B} (f : T -> T -> B) b r : map2 f b (repeat r (length b)) = map (fun x => f x r) b.
  Proof. induction b; cbn; f_equal; auto. Qed.
  Lemma map2_repeat_l {B} (f : T -> T -> B) b r : map2 f (repeat r (length b)) b = map (fun x => f r x) b.
  Proof. induction b; cbn; f_equal; auto. Qed.
  Lemma filter_id_map {A} (f : A -> bool) l : length (filter (fun x => x) (map f l)) = length (filter f l).
  Proof. induction l as [|a l IH]; cbn; auto. destruct (f a); cbn; auto. Qed.

  Lemma significance_scalar b r : okl b -> nisnan r = false ->
    significance b (Scalar r) =
    Ok (nmin n1 (nmul (nofZ 2) (nmin (rate (cnt_le b r) (length b)) (rate (cnt_ge b r) (length b))))).
  Proof.
    intros O N. unfold significance. apply okl_existsb in O. rewrite O, N. cbn [py_assert bind negb ref_values].
    rewrite map2_repeat, map2_repeat_l. unfold mean_bool, rate. rewrite !filter_id_map, !map_length. reflexivity.
  Qed.
  Lemma significance_scalar_inv b r p : significance b (Scalar r) = Ok p ->
    okl b /\ nisnan r = false /\
    p = nmin n1 (nmul (nofZ 2) (nmin (rate (cnt_le b r) (length b)) (rate (cnt_ge b r) (length b)))).
  Proof.
    intros H. assert (okl b /\ nisnan r = false) as [O N].
    { unfold significance in H. cbn [py_assert bind] in H.
      destruct (negb (existsb nisnan b)) eqn:E; [|discriminate].
      destruct (nisnan r); [discriminate|]. split; auto. now apply okl_existsb. }
    split; auto. split; auto. rewrite significance_scalar in H by auto. now injection H.
  Qed.
End Sig.

(** ** Bookkeeping common to both arithmetics *)

Lemma core_out n k cnt x a r e u : (1 <= n)%Z -> (0 <= cnt <= k)%Z -> IZR k <= x -> x <= a * (IZR n - 1) + e ->
  r <= IZR cnt / IZR n * (1 + u) -> 0 < a -> 0 <= u -> 0 <= e -> IZR n * e + IZR n * u < 1 -> r < a.
Proof.
  intros Hn Hc Hk Hx Hr Ha Hu He Hs. apply IZR_le in Hn.
  assert (0 <= IZR cnt /\ IZR cnt <= IZR k) as [C1 C2] by (split; apply IZR_le; lia).
  destruct (Z.eq_dec cnt 0) as [->|NZ].
  { unfold Rdiv in Hr. rewrite !Rmult_0_l in Hr. lra. }
  assert (1 <= IZR cnt) as C3 by (apply IZR_le; lia).
  apply Rnot_le_lt. intros Hle.
  assert (IZR n * a <= IZR cnt * (1 + u)) as E1.
  { apply Rle_trans with (IZR n * (IZR cnt / IZR n * (1 + u))).
    - apply Rmult_le_compat_l; lra.
    - right. field. lra. }
  (* n*cnt <= n a (n-1) + n e <= cnt (1+u) (n-1) + n e *)
  assert (IZR n * IZR cnt <= IZR n * a * (IZR n - 1) + IZR n * e) as E2.
  { apply Rle_trans with (IZR n * (a * (IZR n - 1) + e)); [apply Rmult_le_compat_l; lra|lra]. }
  assert (IZR n * a * (IZR n - 1) <= IZR cnt * (1 + u) * (IZR n - 1)) as E3 by (apply Rmult_le_compat_r; lra).
  assert (IZR cnt * (1 - u * (IZR n - 1)) <= IZR n * e) as E4 by lra.
  assert (0 <= u * (IZR n - 1) <= u * IZR n) as E5 by (split; [apply Rmult_le_pos|apply Rmult_le_compat_l]; lra).
  assert (1 * (1 - u * (IZR n - 1)) <= IZR cnt * (1 - u * (IZR n - 1))) as E6.
  { apply Rmult_le_compat_r; [|lra]. assert (0 <= IZR n * e) by (apply Rmult_le_pos; lra). lra. }
  lra.
Qed.

Lemma core_in n k cnt x a r e u : (1 <= n)%Z -> (0 <= cnt <= n)%Z -> x < IZR k + 1 -> a * (IZR n - 1) - e <= x ->
  IZR cnt / IZR n * (1 - u) <= r -> r < a -> a <= / 2 -> 0 <= u -> e + IZR n * u < / 2 -> (cnt <= k + 1)%Z.
Proof.
  intros Hn Hc Hk Hx Hr Ha Ha2 Hu Hs. apply IZR_le in Hn.
  assert (0 <= IZR cnt /\ IZR cnt <= IZR n) as [C1 C2] by (split; apply IZR_le; lia).
  assert (IZR cnt * (1 - u) <= IZR n * a) as E1.
  { apply Rle_trans with (IZR n * (IZR cnt / IZR n * (1 - u))).
    - right. field. lra. - apply Rmult_le_compat_l; lra. }
  assert (IZR cnt * u <= IZR n * u) by (apply Rmult_le_compat_r; lra).
  assert (IZR cnt < IZR k + 2) as L by lra.
  rewrite <- plus_IZR in L. apply lt_IZR in L. lia.
Qed.

Lemma core_inv n k cnt x a e d : (1 <= n)%Z -> (1 <= cnt)%Z -> IZR k <= x -> x <= a * (IZR n - 1) + e ->
  a <= IZR cnt / IZR n + d -> 0 <= d -> 0 <= e -> IZR n * (IZR n * d + e) < 1 -> (k < cnt)%Z.
Proof.
  intros Hn Hc Hk Hx Ha Hd He Hs. apply IZR_le in Hn. apply IZR_le in Hc. apply lt_IZR.
  assert (a * (IZR n - 1) <= (IZR cnt / IZR n + d) * (IZR n - 1)) as E1 by (apply Rmult_le_compat_r; lra).
  replace ((IZR cnt / IZR n + d) * (IZR n - 1)) with (IZR cnt - IZR cnt / IZR n + d * (IZR n - 1)) in E1 by (field; lra).
  assert (d * (IZR n - 1) <= IZR n * d) as E2 by (rewrite (Rmult_comm (IZR n)); apply Rmult_le_compat_l; lra).
  assert (IZR n * d + e < IZR cnt / IZR n); [|lra].
  apply Rmult_lt_reg_l with (IZR n); [lra|]. replace (IZR n * (IZR cnt / IZR n)) with (IZR cnt) by (field; lra). lra.
Qed.
