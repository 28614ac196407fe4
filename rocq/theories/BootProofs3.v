(** Coherence of the percentile interval and the p-value. *)
From Coq Require Import Reals Lra Permutation Sorted.
From Flocq Require Import Core BinarySingleNaN Relative Mult_error.
From Verif Require Import PyBase F64 F64Lemmas Num NumOk Util UtilProofs ListLemmas UtilProofs2 BootUtil BootProofs BootProofs2.
Open Scope R_scope.

(** ** The argument, for any arithmetic with index error [e] and relative rate
    error [u] *)
Section Coh.
  Context {T : Type} {NT : num T} {NO : num_ok NT}.

  Definition idx_err (c : T) (n : Z) (a e : R) : Prop :=
    0 < a <= / 2 /\ 0 <= e /\
    IZR (kL c n) <= a * (IZR n - 1) + e /\ a * (IZR n - 1) - e < IZR (kL c n) + 1 /\
    IZR (n - 1 - kU c n) <= a * (IZR n - 1) + e /\ a * (IZR n - 1) - e < IZR (n - 1 - kU c n) + 1.

  Definition rate_err (rr : nat -> R) (n : nat) (u : R) : Prop :=
    0 <= u /\ forall k, (k <= n)%nat -> INR k / INR n * (1 - u) <= rr k <= INR k / INR n * (1 + u).

  Lemma cnt_le_le b (r : T) : (cnt_le b r <= length b)%nat.
  Proof. unfold cnt_le. rewrite <- (filter_negb_length (fun x => nleb x r) b). apply Nat.le_add_r. Qed.
  Lemma cnt_ge_le b (r : T) : (cnt_ge b r <= length b)%nat.
  Proof. unfold cnt_ge. rewrite <- (filter_negb_length (fun x => nleb r x) b). apply Nat.le_add_r. Qed.

  Lemma coh_out b c lb ub r a e u rr : percentile b c = Ok (lb, ub) -> idx_ok c (Z.of_nat (length b)) ->
    idx_err c (Z.of_nat (length b)) a e -> rate_err rr (length b) u ->
    INR (length b) * e + INR (length b) * u < 1 ->
    nltb r lb || nltb ub r = true -> Rmin (rr (cnt_le b r)) (rr (cnt_ge b r)) < a.
  Proof.
    intros P K (A & He & E1 & _ & E2 & _) (Hu & RE) S H.
    destruct (percentile_inv _ _ _ _ P K) as (O & C & i & j & L1 & L2 & Zi & Zj & Ni & Nj).
    rewrite INR_IZR_INZ in *. apply orb_true_iff in H as [H|H].
    - eapply Rle_lt_trans; [apply Rmin_l|].
      assert (cnt_le b r <= i)%nat as Ci.
      { destruct (Nat.le_gt_cases (cnt_le b r) i) as [|G]; auto. exfalso.
        apply (os_le b r i lb O Ni) in G. pose proof (lt_not_le _ _ H). congruence. }
      destruct (RE (cnt_le b r) (cnt_le_le b r)) as [_ R1]. rewrite !INR_IZR_INZ in R1.
      apply (core_out (Z.of_nat (length b)) (Z.of_nat i) (Z.of_nat (cnt_le b r)) (a * (IZR (Z.of_nat (length b)) - 1) + e)
               a _ e u); auto; try lia; try lra. rewrite Zi. exact E1.
    - eapply Rle_lt_trans; [apply Rmin_r|].
      assert (j + cnt_ge b r < length b)%nat as Ci.
      { destruct (Nat.le_gt_cases (length b) (j + cnt_ge b r)) as [G|]; auto. exfalso.
        apply (os_ge b r j ub O Nj) in G. pose proof (lt_not_le _ _ H). congruence. }
      destruct (RE (cnt_ge b r) (cnt_ge_le b r)) as [_ R1]. rewrite !INR_IZR_INZ in R1.
      apply (core_out (Z.of_nat (length b)) (Z.of_nat (length b) - 1 - Z.of_nat j) (Z.of_nat (cnt_ge b r))
               (a * (IZR (Z.of_nat (length b)) - 1) + e) a _ e u); auto; try lia; try lra. rewrite Zj. exact E2.
  Qed.

  Lemma coh_in b c lb ub r a e u rr : percentile b c = Ok (lb, ub) -> idx_ok c (Z.of_nat (length b)) ->
    idx_err c (Z.of_nat (length b)) a e -> rate_err rr (length b) u ->
    e + INR (length b) * u < / 2 ->
    Rmin (rr (cnt_le b r)) (rr (cnt_ge b r)) < a ->
    (forall v, In v b -> nleb v r = true -> nleb v lb = true) \/
    (forall v, In v b -> nleb r v = true -> nleb ub v = true).
  Proof.
    intros P K (A & He & _ & E1 & _ & E2) (Hu & RE) S H.
    destruct (percentile_inv _ _ _ _ P K) as (O & C & i & j & L1 & L2 & Zi & Zj & Ni & Nj).
    assert (forall v, In v b -> exists k, (k < length b)%nat /\ nth_error (sort b) k = Some v) as IN.
    { intros v Hv. eapply Permutation_in in Hv; [|apply sort_perm]. apply In_nth_error in Hv as [k Hk]. exists k.
      split; auto. rewrite <- sort_length. apply nth_error_Some. congruence. }
    assert (rr (cnt_le b r) < a \/ rr (cnt_ge b r) < a) as [H'|H'].
    { unfold Rmin in H. destruct (Rle_dec _ _); auto. }
    - left. intros v Hv Lv. destruct (IN v Hv) as (k & Lk & Ek).
      destruct (RE (cnt_le b r) (cnt_le_le b r)) as [R1 _]. rewrite !INR_IZR_INZ in *.
      assert (Z.of_nat (cnt_le b r) <= kL c (Z.of_nat (length b)) + 1)%Z as G.
      { pose proof (cnt_le_le b r).
        eapply (core_in (Z.of_nat (length b)) _ _ (a * (IZR (Z.of_nat (length b)) - 1) - e) a _ e u); eauto; try lia; try lra. }
      apply (os_le b r k v O Ek) in Lv. eapply sort_nth_mono; [exact O| |exact Ek|exact Ni]. lia.
    - right. intros v Hv Lv. destruct (IN v Hv) as (k & Lk & Ek).
      destruct (RE (cnt_ge b r) (cnt_ge_le b r)) as [R1 _]. rewrite !INR_IZR_INZ in *.
      assert (Z.of_nat (cnt_ge b r) <= (Z.of_nat (length b) - 1 - kU c (Z.of_nat (length b))) + 1)%Z as G.
      { pose proof (cnt_ge_le b r).
        eapply (core_in (Z.of_nat (length b)) _ _ (a * (IZR (Z.of_nat (length b)) - 1) - e) a _ e u); eauto; try lia; try lra. }
      apply (os_ge b r k v O Ek) in Lv. eapply sort_nth_mono; [exact O| |exact Nj|exact Ek]. lia.
  Qed.

  Lemma coh_inv b c lb ub r a e d : percentile b c = Ok (lb, ub) -> idx_ok c (Z.of_nat (length b)) ->
    idx_err c (Z.of_nat (length b)) a e ->
    (1 <= Nat.min (cnt_le b r) (cnt_ge b r))%nat ->
    a <= INR (Nat.min (cnt_le b r) (cnt_ge b r)) / INR (length b) + d -> 0 <= d ->
    INR (length b) * (INR (length b) * d + e) < 1 ->
    nleb lb r = true /\ nleb r ub = true.
  Proof.
    intros P K (A & He & E1 & _ & E2 & _) Hc Ha Hd S.
    destruct (percentile_inv _ _ _ _ P K) as (O & C & i & j & L1 & L2 & Zi & Zj & Ni & Nj).
    rewrite !INR_IZR_INZ in *.
    assert (kL c (Z.of_nat (length b)) < Z.of_nat (Nat.min (cnt_le b r) (cnt_ge b r)))%Z as G1.
    { eapply (core_inv (Z.of_nat (length b)) _ _ (a * (IZR (Z.of_nat (length b)) - 1) + e) a e d); eauto; try lia; try lra. }
    assert (Z.of_nat (length b) - 1 - kU c (Z.of_nat (length b)) < Z.of_nat (Nat.min (cnt_le b r) (cnt_ge b r)))%Z as G2.
    { eapply (core_inv (Z.of_nat (length b)) _ _ (a * (IZR (Z.of_nat (length b)) - 1) + e) a e d); eauto; try lia; try lra. }
    split; [apply (os_le b r i lb O Ni)|apply (os_ge b r j ub O Nj)]; lia.
  Qed.
End Coh.

(** ** Doubles *)

Lemma idx_err_f64 (c : f64) n : in01 c = true -> (1 <= n <= 2 ^ 53)%Z ->
  idx_err c n (B2R (nsub n1 c : f64) / 2) (6 * u64 * IZR n).
Proof.
  intros C N. pose proof (xlo_err c n C N) as EL. pose proof (xhi_err c n C N) as EU.
  pose proof (sub1_val c C) as (_ & _ & D). cbv zeta in *. unfold idx_err.
  rewrite kL_val, kU_val by auto. set (d := B2R (nsub n1 c : f64)) in *.
  set (x := rnd64 (Qlo d * (IZR n - 1))) in *. set (y := rnd64 (Qhi d * (IZR n - 1))) in *.
  apply Rabs_le_inv in EL. apply Rabs_le_inv in EU. assert (1 <= IZR n) by (apply IZR_le; lia).
  pose proof (Zfloor_lb x). pose proof (Zfloor_ub x). pose proof (Zceil_ub y). pose proof (Zceil_lb y).
  rewrite !minus_IZR. assert (0 < 6 * u64) by (unfold u64; lra).
  assert (0 <= 6 * u64 * IZR n) by (apply Rmult_le_pos; lra). repeat split; lra.
Qed.

Lemma rate_val k n : (k <= n)%nat -> (1 <= Z.of_nat n <= 2 ^ 53)%Z ->
  B2R (rate k n : f64) = rnd64 (INR k / INR n) /\ fisfin (rate k n : f64) = true /\ 0 <= INR k / INR n <= 1.
Proof.
  intros L N. unfold rate. cbn [ndiv nofZ f64_num].
  assert (1 <= INR n) as Nn by (rewrite INR_IZR_INZ; apply IZR_le; lia).
  assert (0 <= INR k / INR n <= 1) as B.
  { assert (0 <= INR k <= INR n) by (split; [apply pos_INR|now apply le_INR]). split.
    - apply Rmult_le_pos; [lra|]. left. apply Rinv_0_lt_compat. lra.
    - apply Rmult_le_reg_r with (INR n); [lra|]. replace (INR k / INR n * INR n) with (INR k) by (field; lra). lra. }
  rewrite !INR_IZR_INZ in *.
  destruct (fdiv_small (f_of_Z (Z.of_nat k)) (f_of_Z (Z.of_nat n))) as [V F].
  - apply f_of_Z_fin; lia.
  - rewrite f_of_Z_val by lia. lra.
  - rewrite !f_of_Z_val by lia. lra.
  - rewrite !f_of_Z_val in V by lia. auto.
Qed.

Lemma rate_err_f64 n : (1 <= Z.of_nat n <= 2 ^ 53)%Z -> rate_err (fun k => rnd64 (INR k / INR n)) n (2 * u64).
Proof.
  intros N. split; [unfold u64; lra|]. intros k L. destruct (rate_val k n L N) as (_ & _ & B).
  pose proof (rnd64_err_pos _ (proj1 B)) as E.
  destruct k as [|k].
  - cbn [INR]. unfold Rdiv. rewrite !Rmult_0_l, rnd64_0. lra.
  - assert (/ 9007199254740992 <= INR (S k) / INR n) as Lo.
    { assert (1 <= INR (S k)) by (change 1 with (INR 1); apply le_INR; lia).
      assert (1 <= INR n <= 9007199254740992) as Nn by (rewrite INR_IZR_INZ; split; apply IZR_le; lia).
      apply Rmult_le_reg_r with (INR n); [lra|]. replace (INR (S k) / INR n * INR n) with (INR (S k)) by (field; lra).
      apply Rle_trans with 1; auto. apply Rmult_le_reg_l with 9007199254740992; [lra|].
      rewrite <- Rmult_assoc, Rinv_r, Rmult_1_l by lra. lra. }
    set (q := INR (S k) / INR n) in *. unfold u64, tiny in *. lra.
Qed.

Lemma nmin_val (a b : f64) : fisfin a = true -> fisfin b = true ->
  B2R (nmin a b) = Rmin (B2R a) (B2R b) /\ fisfin (nmin a b) = true.
Proof.
  intros Fa Fb. unfold nmin. cbn [nleb nisnan f64_num]. rewrite (fisfin_notnan a Fa), orb_false_r.
  destruct (fleb a b) eqn:E.
  - apply fleb_fin in E; auto. split; auto. now rewrite Rmin_left.
  - split; auto. assert (~ B2R a <= B2R b) by (intros H; apply fleb_fin in H; auto; congruence).
    rewrite Rmin_right; lra.
Qed.

Lemma double_val (x : f64) : fisfin x = true -> 0 <= B2R x <= 1 -> (B2R x = 0 \/ / 9007199254740992 <= B2R x) ->
  B2R (nmul (nofZ 2) x) = 2 * B2R x /\ fisfin (nmul (nofZ 2) x : f64) = true.
Proof.
  intros F B NZ. cbn [nmul nofZ f64_num].
  destruct (fmul_small (f_of_Z 2) x) as [V F']; [apply f_of_Z_fin; lia|auto|rewrite f_of_Z_val by lia; lra|].
  split; auto. rewrite V, f_of_Z_val by lia. apply rnd64_id. destruct NZ as [->|Lo].
  - rewrite Rmult_0_r. apply format64_0.
  - rewrite Rmult_comm. change 2 with (bpow radix2 1). apply mult_bpow_exact_FLT; [apply B2R_format|].
    assert (-52 <= mag radix2 (B2R x))%Z as M.
    { apply mag_ge_bpow. change (bpow radix2 (-52 - 1)) with (/ 9007199254740992). rewrite Rabs_pos_eq; lra. }
    clear - M. set (z := mag_val _ _ (mag radix2 (B2R x))) in *. clearbody z.
    change (-1074 + 53 - z <= 1)%Z. lia.
Qed.

Lemma rate_zero_or n k : (1 <= Z.of_nat n <= 2 ^ 53)%Z -> (k <= n)%nat ->
  rnd64 (INR k / INR n) = 0 /\ k = O \/ / 9007199254740992 <= rnd64 (INR k / INR n) /\ (1 <= k)%nat.
Proof.
  intros N L. destruct k as [|k].
  - left. cbn [INR]. unfold Rdiv. rewrite Rmult_0_l, rnd64_0. auto.
  - right. split; [|lia]. apply rnd64_ge.
    + change (/ 9007199254740992) with (bpow radix2 (-53)). apply format64_pow; lia.
    + assert (1 <= INR (S k)) by (change 1 with (INR 1); apply le_INR; lia).
      assert (1 <= INR n <= 9007199254740992) as Nn by (rewrite INR_IZR_INZ; split; apply IZR_le; lia).
      apply Rmult_le_reg_r with (INR n); [lra|]. replace (INR (S k) / INR n * INR n) with (INR (S k)) by (field; lra).
      apply Rle_trans with 1; auto. apply Rmult_le_reg_l with 9007199254740992; [lra|].
      rewrite <- Rmult_assoc, Rinv_r, Rmult_1_l by lra. lra.
Qed.

(** value of a p-value computed from two counts *)
Lemma pval_val n k1 k2 : (1 <= Z.of_nat n <= 2 ^ 53)%Z -> (k1 <= n)%nat -> (k2 <= n)%nat ->
  let p : f64 := nmin n1 (nmul (nofZ 2) (nmin (rate k1 n) (rate k2 n))) in
  B2R p = Rmin 1 (2 * Rmin (rnd64 (INR k1 / INR n)) (rnd64 (INR k2 / INR n))) /\ fisfin p = true.
Proof.
  intros N L1 L2. destruct (rate_val k1 n L1 N) as (V1 & F1 & B1). destruct (rate_val k2 n L2 N) as (V2 & F2 & B2).
  destruct (nmin_val _ _ F1 F2) as [Vm Fm]. rewrite V1, V2 in Vm.
  assert (0 <= rnd64 (INR k1 / INR n) <= 1) as C1.
  { split; [apply rnd64_ge; [apply format64_0|lra]|apply rnd64_le; [apply format64_1|lra]]. }
  assert (0 <= rnd64 (INR k2 / INR n) <= 1) as C2.
  { split; [apply rnd64_ge; [apply format64_0|lra]|apply rnd64_le; [apply format64_1|lra]]. }
  destruct (double_val (nmin (rate k1 n) (rate k2 n)) Fm) as [Vd Fd].
  - rewrite Vm. unfold Rmin. destruct (Rle_dec _ _); lra.
  - rewrite Vm. unfold Rmin. destruct (Rle_dec _ _).
    + destruct (rate_zero_or n k1 N L1) as [[]|[]]; auto.
    + destruct (rate_zero_or n k2 N L2) as [[]|[]]; auto.
  - cbv zeta. assert (fisfin (n1 : f64) = true) as Fo by (cbn [n1 f64_num]; apply f_of_Z_fin; lia).
    destruct (nmin_val n1 _ Fo Fd) as [Vp Fp]. split; auto. rewrite Vp, Vd, Vm. cbn [n1 f64_num].
    rewrite f_of_Z_val by lia. reflexivity.
Qed.

Lemma sig_val b r p : significance b (Scalar r) = Ok p -> (1 <= Z.of_nat (length b) <= 2 ^ 53)%Z ->
  fisfin p = true /\
  B2R p = Rmin 1 (2 * Rmin (rnd64 (INR (cnt_le b r) / INR (length b))) (rnd64 (INR (cnt_ge b r) / INR (length b)))).
Proof.
  intros H N. destruct (significance_scalar_inv _ _ _ H) as (O & Nr & ->).
  destruct (pval_val (length b) (cnt_le b r) (cnt_ge b r) N (cnt_le_le _ _) (cnt_ge_le _ _)). auto.
Qed.

Lemma sig_lt_f64 b r p (c : f64) : significance b (Scalar r) = Ok p -> (1 <= Z.of_nat (length b) <= 2 ^ 53)%Z ->
  in01 c = true ->
  (fltb p (fsub (f_of_Z 1) c) = true <->
   Rmin (rnd64 (INR (cnt_le b r) / INR (length b))) (rnd64 (INR (cnt_ge b r) / INR (length b))) < B2R (nsub n1 c : f64) / 2).
Proof.
  intros H N C. destruct (sig_val _ _ _ H N) as [F V]. destruct (sub1_val c C) as (_ & Fd & D).
  change (fsub (f_of_Z 1) c) with (nsub n1 c : f64). rewrite fltb_fin, V by auto.
  set (m := Rmin (rnd64 _) _). set (d := B2R (nsub n1 c : f64)) in *.
  unfold Rmin at 1. destruct (Rle_dec 1 (2 * m)); split; intros; lra.
Qed.

Lemma percentile_nonempty {T} {NT : num T} b (c : T) lb ub : percentile b c = Ok (lb, ub) -> (1 <= length b)%nat.
Proof.
  intros H. destruct b; [|cbn; lia]. exfalso. apply percentile_unfold in H as (_ & _ & H & _).
  cbn [sort] in H. unfold py_index in H. revert H. generalize (kL c (Z.of_nat (length (@nil T)))). intros z H.
  destruct (z <? 0)%Z; [destruct (_ <? 0)%Z; [discriminate|]|destruct (z <? 0)%Z; [discriminate|]];
    cbn in H; destruct (Z.to_nat _); discriminate.
Qed.

Lemma small_n n : (Z.of_nat n <= 2 ^ 24)%Z -> 0 <= INR n <= 16777216.
Proof. intros H. rewrite INR_IZR_INZ. split; apply IZR_le; lia. Qed.

Theorem out_f64 (b : list f64) c lb ub r p : percentile b c = Ok (lb, ub) -> (Z.of_nat (length b) <= 2 ^ 24)%Z ->
  significance b (Scalar r) = Ok p -> fltb r lb || fltb ub r = true -> fltb p (fsub (f_of_Z 1) c) = true.
Proof.
  intros P N S H. pose proof (percentile_nonempty _ _ _ _ P) as NE.
  destruct (percentile_unfold _ _ _ _ P) as (O & C & _).
  assert (1 <= Z.of_nat (length b) <= 2 ^ 53)%Z as NN by lia.
  apply (sig_lt_f64 b r p c S NN C).
  refine (coh_out b c lb ub r _ (6 * u64 * IZR (Z.of_nat (length b))) (2 * u64)
            (fun k => rnd64 (INR k / INR (length b))) P (idx_ok_f64 c _ C NN) (idx_err_f64 c _ C NN) (rate_err_f64 _ NN) _ H).
  rewrite <- INR_IZR_INZ. pose proof (small_n _ N) as B. set (n := INR (length b)) in *.
  assert (n * n <= 16777216 * n) by (apply Rmult_le_compat_r; lra). unfold u64. lra.
Qed.

Theorem in_f64 (b : list f64) c lb ub r p : percentile b c = Ok (lb, ub) -> (Z.of_nat (length b) <= 2 ^ 48)%Z ->
  significance b (Scalar r) = Ok p -> fltb p (fsub (f_of_Z 1) c) = true ->
  (forall v, In v b -> fleb v r = true -> fleb v lb = true) \/
  (forall v, In v b -> fleb r v = true -> fleb ub v = true).
Proof.
  intros P N S H. pose proof (percentile_nonempty _ _ _ _ P) as NE.
  destruct (percentile_unfold _ _ _ _ P) as (O & C & _).
  assert (1 <= Z.of_nat (length b) <= 2 ^ 53)%Z as NN by lia.
  apply (sig_lt_f64 b r p c S NN C) in H.
  refine (coh_in b c lb ub r _ (6 * u64 * IZR (Z.of_nat (length b))) (2 * u64)
            (fun k => rnd64 (INR k / INR (length b))) P (idx_ok_f64 c _ C NN) (idx_err_f64 c _ C NN) (rate_err_f64 _ NN) _ H).
  rewrite <- INR_IZR_INZ. assert (INR (length b) <= 281474976710656) by (rewrite INR_IZR_INZ; apply IZR_le; lia).
  unfold u64. lra.
Qed.

Lemma Rmin_rnd k1 k2 n : 0 < INR n ->
  Rmin (rnd64 (INR k1 / INR n)) (rnd64 (INR k2 / INR n)) = rnd64 (INR (Nat.min k1 k2) / INR n).
Proof.
  intros Hn. assert (0 < / INR n) as Hi by now apply Rinv_0_lt_compat.
  destruct (Nat.le_ge_cases k1 k2) as [L|L].
  - rewrite Nat.min_l by auto. apply Rmin_left. apply rnd64_mono. apply Rmult_le_compat_r; [lra|]. now apply le_INR.
  - rewrite Nat.min_r by auto. apply Rmin_right. apply rnd64_mono. apply Rmult_le_compat_r; [lra|]. now apply le_INR.
Qed.

Theorem inv_f64 (b : list f64) r p : significance b (Scalar r) = Ok p -> (Z.of_nat (length b) <= 2 ^ 24)%Z -> b <> [] ->
  fltb f0 p = true -> fltb p (f_of_Z 1) = true ->
  exists lb ub, percentile b (fsub (f_of_Z 1) p) = Ok (lb, ub) /\ fleb lb r = true /\ fleb r ub = true.
Proof.
  intros S N NE P0 P1. assert (1 <= length b)%nat as Hl by (destruct b; cbn; [congruence|lia]).
  assert (1 <= Z.of_nat (length b) <= 2 ^ 53)%Z as NN by lia.
  destruct (sig_val _ _ _ S NN) as [F V]. destruct (significance_scalar_inv _ _ _ S) as (O & Nr & _).
  assert (in01 p = true) as Ip by (unfold in01; apply andb_true_iff; split; [exact P0|exact P1]).
  destruct (sub1_val p Ip) as (Vc & Fc & Dc). cbn [nsub n1 f64_num] in Vc, Fc, Dc.
  set (c := fsub (f_of_Z 1) p) in *.
  apply in01_f64 in Ip as (_ & B1 & B2).
  assert (1 <= INR (length b) <= 16777216) as Bn by (rewrite INR_IZR_INZ; split; apply IZR_le; lia).
  rewrite Rmin_rnd in V by lra. set (cnt := Nat.min (cnt_le b r) (cnt_ge b r)) in *.
  assert (cnt <= length b)%nat as Cl by (pose proof (cnt_le_le b r); unfold cnt; lia).
  assert (2 * rnd64 (INR cnt / INR (length b)) = B2R p) as Vp.
  { rewrite V in *. unfold Rmin in *. destruct (Rle_dec _ _); lra. }
  destruct (rate_zero_or (length b) cnt NN Cl) as [[Z0 _]|[_ C1]]; [lra|].
  assert (bpow radix2 (-24) <= rnd64 (INR cnt / INR (length b))) as Lo.
  { apply rnd64_ge; [apply format64_pow; lia|]. change (bpow radix2 (-24)) with (/ 16777216).
    assert (1 <= INR cnt) by (change 1 with (INR 1); apply le_INR; lia).
    apply Rmult_le_reg_r with (INR (length b)); [lra|].
    replace (INR cnt / INR (length b) * INR (length b)) with (INR cnt) by (field; lra). lra. }
  change (bpow radix2 (-24)) with (/ 16777216) in Lo.
  assert (in01 c = true) as Ic.
  { apply in01_f64. split; [exact Fc|]. split; [lra|]. rewrite Vc.
    apply Rle_lt_trans with (1 - bpow radix2 (-24)); [|change (bpow radix2 (-24)) with (/ 16777216); lra].
    apply rnd64_le.
    - replace (1 - bpow radix2 (-24)) with (IZR 16777215 * bpow radix2 (-24))
        by (change (bpow radix2 (-24)) with (/ 16777216); lra).
      apply mult_bpow_exact_FLT; [apply format64_IZR; lia|].
      assert (1 <= mag radix2 (IZR 16777215))%Z as M.
      { apply mag_ge_bpow. change (bpow radix2 (1 - 1)) with 1. rewrite Rabs_pos_eq; lra. }
      set (z := mag_val _ _ (mag radix2 (IZR 16777215))) in *. clearbody z.
      change (-1074 + 53 - z <= -24)%Z. lia.
    - change (bpow radix2 (-24)) with (/ 16777216). lra. }
  pose proof (idx_ok_f64 c _ Ic NN) as K.
  destruct (percentile_total b c O Ic K) as (i & j & lb & ub & P & _).
  exists lb, ub. split; [exact P|].
  refine (coh_inv b c lb ub r _ (6 * u64 * IZR (Z.of_nat (length b))) (3 * u64) P K (idx_err_f64 c _ Ic NN) _ _ _ _).
  - fold cnt. exact C1.
  - fold cnt. destruct (sub1_val c Ic) as (Vd & _ & _). rewrite Vd, Vc.
    destruct (rate_val cnt (length b) Cl NN) as (_ & _ & Bq).
    pose proof (rnd64_err_pos _ (proj1 Bq)) as E1.
    pose proof (rnd64_err_pos (1 - B2R p) ltac:(lra)) as E2.
    assert (0 <= 1 - rnd64 (1 - B2R p)) as P3 by (rewrite <- Vc; apply in01_f64 in Ic; lra).
    pose proof (rnd64_err_pos _ P3) as E3. set (q := INR cnt / INR (length b)) in *.
    unfold u64, tiny in *. lra.
  - unfold u64; lra.
  - rewrite <- INR_IZR_INZ. set (n := INR (length b)) in *.
    assert (n * n <= 16777216 * n) by (apply Rmult_le_compat_r; lra). unfold u64. lra.
Qed.
