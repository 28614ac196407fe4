(** A sample that was not drawn is lost in the running sum of a million others. *)
From Coq Require Import Reals ZArith Lra Lia List Sorted Bool Permutation.
From Flocq Require Import Core BinarySingleNaN.
From Verif Require Import PyBase F64 F64Lemmas Num NumOk Util UtilProofs ListLemmas UtilProofs2 UtilProofs3 BootUtil BootProofs2 BootProofs4 BootProofs5
  PerfCurves PerfProofs PerfProofs2 PerfProofs6 PerfProofs7 PerfProofs8 PerfProofs9 PerfProofs10 SumProofs CompareProofs SwapProofs MeanProofs DoublesProofs
  CurveBoot CurveProofs CurveProofs2 CurveProofs3 CurveProofs4 CurveProofs5 CurveProofs6 CurveProofs7 Props_Boot.
Open Scope R_scope.
Open Scope list_scope.

(** ** The residue of 1e-10 after adding k ones *)
(** in units of the last place, for k between 2^b and 2^(b+1) *)
Definition J (b : Z) : Z := nth (Z.to_nat b)
  [450360; 225180; 112590; 56295; 28148; 14074; 7037; 3518; 1759; 880; 440; 220; 110; 55; 28; 14; 7; 4; 2; 1]%Z 0%Z.
Definition partial (k : Z) : R := IZR k + IZR (J (Z.log2 k)) * P2 (Z.log2 k - 52).

Lemma J_big b : (20 <= b)%Z -> J b = 0%Z.
Proof. intros H. unfold J. apply nth_overflow. cbn [length]. lia. Qed.
Lemma J_range b : (0 <= b)%Z -> (0 <= J b <= 450360)%Z.
Proof.
  intros H. unfold J. destruct (nth_in_or_default (Z.to_nat b) [450360; 225180; 112590; 56295; 28148; 14074; 7037; 3518; 1759; 880; 440; 220; 110; 55; 28; 14; 7; 4; 2; 1]%Z 0%Z) as [I| ->]; [|lia].
  revert I. generalize (nth (Z.to_nat b) [450360; 225180; 112590; 56295; 28148; 14074; 7037; 3518; 1759; 880; 440; 220; 110; 55; 28; 14; 7; 4; 2; 1]%Z 0%Z). intros z I.
  cbn [In] in I. lia.
Qed.

Lemma scale a j b : (0 <= b <= 52)%Z -> IZR (a * 2 ^ (52 - b) + j) * P2 (b - 52) = IZR a + IZR j * P2 (b - 52).
Proof.
  intros B. rewrite plus_IZR, mult_IZR. change 2%Z with (radix_val radix2) at 1. rewrite (IZR_Zpower radix2) by lia.
  rewrite Rmult_plus_distr_r, Rmult_assoc, <- bpow_plus. replace (52 - b + (b - 52))%Z with 0%Z by lia. cbn [bpow]. ring.
Qed.

Lemma tie x M N e : (0 < M)%Z -> (0 < N)%Z -> B2SF x = SpecFloat.S754_finite false (Z.to_pos M) e -> 
  B2SF (fadd x (f_of_Z 1)) = SpecFloat.S754_finite false (Z.to_pos N) (e + 1) -> (IZR M * P2 e <= P2 60) ->
  rnd64 (IZR M * P2 e + 1) = IZR N * P2 (e + 1).
Proof.
  intros PM PN EM EN B. destruct f1_val as [V1 [F1 _]].
  assert (fisfin x = true) as Fx by (destruct x; try discriminate; reflexivity).
  assert (B2R x = IZR M * P2 e) as Vx. { rewrite <- SF2R_B2SF, EM. cbn [SF2R]. unfold F2R. cbn [Fnum Fexp cond_Zopp]. rewrite Z2Pos.id by lia. reflexivity. }
  assert (B2R (fadd x (f_of_Z 1)) = IZR N * P2 (e + 1)) as Vs. { rewrite <- SF2R_B2SF, EN. cbn [SF2R]. unfold F2R. cbn [Fnum Fexp cond_Zopp]. rewrite Z2Pos.id by lia. reflexivity. }
  assert (0 <= IZR M * P2 e) as P0 by (apply Rmult_le_pos; [apply IZR_le; lia|apply bpow_ge_0]).
  destruct (fadd_correct x (f_of_Z 1) Fx F1) as [V _].
  { apply no_ovf, abs_nn. rewrite Vx, V1. assert (P2 60 + 1 <= P2 61) as T by (replace (P2 61) with (P2 60 + P2 60) by (rewrite P2_dbl; reflexivity); assert (1 <= P2 60) by (change 1 with (P2 0); apply bpow_le; lia); lra).
    assert (P2 61 <= P2 1000) by (apply bpow_le; lia). lra. }
  rewrite Vs, Vx, V1 in V. now symmetry.
Qed.

Ltac at_b b :=
  let M := eval vm_compute in ((2 ^ (b + 1) - 1) * 2 ^ (52 - b) + J b)%Z in
  let D := eval vm_compute in (2 ^ (52 - b))%Z in
  let N := eval vm_compute in (2 ^ (b + 1) * 2 ^ (52 - (b + 1)) + J (b + 1))%Z in
  apply (tie (fdiv (f_of_Z M) (f_of_Z D)) M N (b - 52)); [lia|lia|vm_compute; reflexivity|vm_compute; reflexivity|].

Lemma carry b : (0 <= b < 20)%Z -> rnd64 (IZR (2 ^ (b + 1)) + IZR (J b) * P2 (b - 52)) = IZR (2 ^ (b + 1)) + IZR (J (b + 1)) * P2 (b + 1 - 52).
Proof.
  intros B. rewrite <- (scale (2 ^ (b + 1)) (J (b + 1)) (b + 1)) by lia.
  replace (IZR (2 ^ (b + 1)) + IZR (J b) * P2 (b - 52)) with (IZR ((2 ^ (b + 1) - 1) * 2 ^ (52 - b) + J b) * P2 (b - 52) + 1).
  2: { rewrite scale by lia. rewrite minus_IZR. ring. }
  replace (b + 1 - 52)%Z with (b - 52 + 1)%Z by lia.
  assert (IZR ((2 ^ (b + 1) - 1) * 2 ^ (52 - b) + J b) * P2 (b - 52) <= P2 60) as U.
  { rewrite scale by lia. pose proof (J_range b ltac:(lia)) as R. assert (2 ^ (b + 1) <= 2 ^ 21)%Z by (apply Z.pow_le_mono_r; lia).
    assert (IZR (2 ^ (b + 1) - 1) <= 2097152) by (apply IZR_le; lia).
    assert (0 <= IZR (J b) <= 450360) by (split; apply IZR_le; lia).
    assert (0 <= P2 (b - 52) <= 1) by (split; [apply bpow_ge_0|change 1 with (P2 0); apply bpow_le; lia]).
    apply Rle_trans with (P2 30); [change (P2 30) with 1073741824; nra|apply bpow_le; lia]. }
  assert (b = 0 \/ b = 1 \/ b = 2 \/ b = 3 \/ b = 4 \/ b = 5 \/ b = 6 \/ b = 7 \/ b = 8 \/ b = 9 \/ b = 10 \/ b = 11 \/ b = 12 \/ b = 13 \/ b = 14 \/ b = 15 \/ b = 16 \/ b = 17 \/ b = 18 \/ b = 19)%Z as Cs by lia.
  repeat (destruct Cs as [->|Cs]); [..|subst b];
  match goal with |- rnd64 (IZR (_ * 2 ^ (52 - ?b) + _) * _ + 1) = _ => at_b b; exact U end.
Qed.

Lemma ones_step k v : (1 <= k < 2 ^ 40)%Z -> fisfin v = true -> B2R v = partial k -> fisfin (fadd v (f_of_Z 1)) = true /\ B2R (fadd v (f_of_Z 1)) = partial (k + 1).
Proof.
  intros K Fv Vv. destruct f1_val as [V1 [F1 _]]. destruct (Z.log2_spec k ltac:(lia)) as [L1 L2]. set (b := Z.log2 k) in *.
  assert (0 <= b)%Z as B0 by apply Z.log2_nonneg. assert (b < 40)%Z as B1 by (apply Z.log2_lt_pow2; lia).
  pose proof (J_range b B0) as Rj. assert (0 <= P2 (b - 52) <= P2 (-12)) as Rp by (split; [apply bpow_ge_0|apply bpow_le; lia]).
  assert (0 <= IZR (J b) <= 450360) as Rj' by (split; apply IZR_le; lia).
  assert (P2 (-12) = / 4096) as E12 by reflexivity.
  assert (0 <= partial k + 1 <= P2 50) as Rk.
  { unfold partial. fold b. assert (1 <= IZR k <= IZR (2 ^ 40)) by (split; apply IZR_le; lia). change (IZR (2 ^ 40)) with 1099511627776 in *. change (P2 50) with 1125899906842624. nra. }
  destruct (fadd_correct v (f_of_Z 1) Fv F1) as [V F].
  { apply no_ovf, abs_nn. rewrite Vv, V1. assert (P2 50 <= P2 1000) by (apply bpow_le; lia). lra. }
  split; [exact F|]. rewrite V, Vv, V1. unfold partial. fold b.
  replace (IZR k + IZR (J b) * P2 (b - 52) + 1) with (IZR (k + 1) + IZR (J b) * P2 (b - 52)) by (rewrite plus_IZR; ring).
  destruct (Z.eq_dec (k + 1) (2 ^ (b + 1))) as [E|NE].
  - rewrite E. rewrite Z.log2_pow2 by lia. destruct (Z_lt_le_dec b 20) as [S|S]; [now apply carry|].
    rewrite !J_big by lia. rewrite !Rmult_0_l, !Rplus_0_r. apply rnd64_id. apply format64_IZR. assert (2 ^ (b + 1) <= 2 ^ 53)%Z by (apply Z.pow_le_mono_r; lia). lia.
  - assert (Z.log2 (k + 1) = b) as -> by (apply Z.log2_unique; lia). apply rnd64_id. rewrite <- scale by lia. apply generic_format_FLT.
    exists (Float radix2 ((k + 1) * 2 ^ (52 - b) + J b) (b - 52)); cbn [Fnum Fexp]; [reflexivity| |change (-1074 <= b - 52)%Z; lia].
    assert (J b < 2 ^ (52 - b))%Z as Jb.
    { destruct (Z_lt_le_dec b 20) as [S|S]; [|rewrite J_big by lia; apply Z.pow_pos_nonneg; lia]. assert (2 ^ 32 <= 2 ^ (52 - b))%Z by (apply Z.pow_le_mono_r; lia). lia. }
    change (Z.pow_pos 2 53) with (2 ^ 53)%Z. change (radix_val radix2 ^ prec64)%Z with (2 ^ 53)%Z.
    assert (2 ^ 53 = 2 ^ (b + 1) * 2 ^ (52 - b))%Z as -> by (rewrite <- Z.pow_add_r by lia; f_equal; lia). 
    assert (0 < 2 ^ (52 - b))%Z by (apply Z.pow_pos_nonneg; lia). rewrite Z.abs_eq; nia.
Qed.

Lemma ones_fold j : forall v k, (1 <= k)%Z -> (k + Z.of_nat j < 2 ^ 40)%Z -> fisfin v = true -> B2R v = partial k ->
  fisfin (fold_left fadd (repeat (f_of_Z 1) j) v) = true /\ B2R (fold_left fadd (repeat (f_of_Z 1) j) v) = partial (k + Z.of_nat j).
Proof.
  induction j as [|j IH]; intros v k K L F V; cbn [repeat fold_left]; [rewrite Z.add_0_r; auto|].
  destruct (ones_step k v ltac:(lia) F V) as [F' V']. destruct (IH _ (k + 1)%Z ltac:(lia) ltac:(lia) F' V') as [F2 V2]. split; [exact F2|]. rewrite V2. f_equal. lia.
Qed.

Lemma nz_inj (x y : f64) : fisfin x = true -> fisfin y = true -> B2R x <> 0 -> B2R x = B2R y -> x = y.
Proof.
  intros Fx Fy Nz E. apply B2R_inj; [| |exact E]; [destruct x|destruct y]; try discriminate; try reflexivity; exfalso; apply Nz; [reflexivity|rewrite E; reflexivity].
Qed.

Lemma lost k : (2 ^ 20 <= Z.of_nat k < 2 ^ 40)%Z -> fold_left fadd (repeat (f_of_Z 1) k) (W 0) = f_of_Z (Z.of_nat k).
Proof.
  intros K. destruct k as [|j]; [lia|]. cbn [repeat fold_left].
  assert (fisfin (fadd (W 0) (f_of_Z 1)) = true) as F1 by (vm_compute; reflexivity).
  assert (B2R (fadd (W 0) (f_of_Z 1)) = partial 1) as V1.
  { rewrite <- SF2R_B2SF. assert (B2SF (fadd (W 0) (f_of_Z 1)) = SpecFloat.S754_finite false 4503599627820856 (-52)) as -> by (vm_compute; reflexivity).
    unfold partial. change (Z.log2 1) with 0%Z. change (J 0) with 450360%Z. rewrite <- (scale 1 450360 0) by lia. reflexivity. }
  destruct (ones_fold j _ 1%Z ltac:(lia) ltac:(lia) F1 V1) as [F V]. replace (1 + Z.of_nat j)%Z with (Z.of_nat (Datatypes.S j)) in V by lia.
  set (n := Z.of_nat (Datatypes.S j)) in *. assert (20 <= Z.log2 n)%Z as L by (apply Z.log2_le_pow2; lia).
  unfold partial in V. rewrite J_big, Rmult_0_l, Rplus_0_r in V by lia. destruct (f_of_Z_correct n) as [Vn Fn]; [lia|].
  assert (1 <= IZR n) as N1 by (apply IZR_le; lia). apply nz_inj; auto; [|congruence]. rewrite V. lra.
Qed.

(** ** One negative with the highest score that was not drawn *)
Notation f1 := (f_of_Z 1).
Notation f2 := (f_of_Z 2).
(** the scores *)
Notation hi := (f_of_Z (-1)).
Notation lo := (f_of_Z (-2)).
Definition big_y (k : nat) : list bool := false :: repeat true (Datatypes.S k).
Definition big_s (k : nat) : list f64 := hi :: repeat lo (Datatypes.S k).
Definition big_ks (k : nat) : list Z := (0 :: 2 :: repeat 1 k)%Z.

Lemma sf_inj (x y : f64) : B2SF x = B2SF y -> x = y.
Proof. apply B2SF_inj. Qed.
Lemma W1 : W 1 = f1.
Proof. apply sf_inj. vm_compute. reflexivity. Qed.
Lemma W2 : W 2 = f2.
Proof. apply sf_inj. vm_compute. reflexivity. Qed.

Lemma rev_repeat {A} (a : A) n : rev (repeat a n) = repeat a n.
Proof. induction n as [|n IH]; [reflexivity|]. cbn [repeat rev]. rewrite IH. symmetry. change (repeat a (Datatypes.S n) = repeat a n ++ repeat a 1). rewrite <- repeat_app. f_equal. lia. Qed.

Lemma ones_sorted n : forall i, fold_right (insert_idx (T := f64)) [] (combine (repeat lo n) (seq i n)) = combine (repeat lo n) (seq i n).
Proof.
  induction n as [|n IH]; intros i; [reflexivity|]. cbn [repeat seq combine fold_right]. rewrite IH. destruct n as [|n]; [reflexivity|].
  cbn [repeat seq combine insert_idx fst]. assert (nleb lo lo = true) as -> by (vm_compute; reflexivity). reflexivity.
Qed.

Lemma insert_two n : forall i, insert_idx (T := f64) (hi, 0%nat) (combine (repeat lo n) (seq i n)) = combine (repeat lo n) (seq i n) ++ [(hi, 0%nat)].
Proof.
  induction n as [|n IH]; intros i; [reflexivity|]. cbn [repeat seq combine insert_idx fst]. assert (nleb hi lo = false) as -> by (vm_compute; reflexivity).
  rewrite IH. reflexivity.
Qed.

Lemma big_desc k : rev (argsort_stable (big_s k)) = 0%nat :: rev (seq 1 (Datatypes.S k)).
Proof.
  unfold argsort_stable, big_s. rewrite (repeat_length lo (Datatypes.S k)) || idtac.
  cbn [length]. rewrite repeat_length. set (n := Datatypes.S k). cbn [seq combine fold_right]. rewrite ones_sorted, insert_two, map_app. cbn [map snd].
  assert (map snd (combine (repeat lo n) (seq 1 n)) = seq 1 n) as ->.
  { generalize 1%nat. induction n as [|m IH]; intros i; [reflexivity|]. cbn [repeat seq combine map snd]. now rewrite IH. }
  rewrite rev_app_distr. reflexivity.
Qed.

Lemma take_big {A} (a : A) l : take (a :: l) (0%nat :: rev (seq 1 (length l))) = a :: rev l.
Proof.
  change (0%nat :: rev (seq 1 (length l))) with ([0%nat] ++ rev (seq 1 (length l))). rewrite take_app, take_rev. cbn [take flat_map nth_error app]. f_equal. f_equal.
  assert (take (a :: l) (seq 0 (length (a :: l))) = a :: l) as E by apply take_seq. cbn [length seq] in E. unfold take in E at 1. cbn [flat_map nth_error app] in E. now injection E.
Qed.

Lemma last_of_cumsum l : forall acc : f64, l <> [] -> nth_error (cumsum_from acc l) (length l - 1) = Some (fold_left fadd l acc).
Proof.
  induction l as [|a l IH]; intros acc N; [congruence|]. destruct l as [|b l]; [reflexivity|].
  replace (length (a :: b :: l) - 1)%nat with (Datatypes.S (length (b :: l) - 1)) by (cbn [length]; lia).
  exact (IH (nadd acc a) ltac:(discriminate)).
Qed.

Lemma ends_of_cumsum (a : f64) l n : l <> [] -> n = length l -> take (cumsum (a :: l)) [0%nat; n] = [a; fold_left fadd l a].
Proof.
  intros N ->. cbn [cumsum]. unfold take. cbn [flat_map nth_error app]. destruct (length l) as [|m] eqn:E; [destruct l; [congruence|discriminate]|]. cbn [nth_error].
  pose proof (last_of_cumsum l a N) as L. rewrite E in L. replace (Datatypes.S m - 1)%nat with m in L by lia. rewrite L. reflexivity.
Qed.

Lemma big_tidx k : where_ (map (fun d : f64 => negb (neqb d n0)) (diff (hi :: repeat lo (Datatypes.S k)))) = [0%nat].
Proof.
  assert (forall n i, where_from i (map (fun d : f64 => negb (neqb d n0)) (diff (lo :: repeat lo n))) = []) as H.
  { induction n as [|n IH]; intros i; [reflexivity|]. cbn [repeat]. rewrite diff_cons. cbn [map].
    assert (negb (neqb (nsub lo lo) (n0 : f64)) = false) as -> by (vm_compute; reflexivity). cbn [where_from]. apply IH. }
  cbn [repeat]. rewrite diff_cons. cbn [map]. assert (negb (neqb (nsub lo hi) (n0 : f64)) = true) as -> by (vm_compute; reflexivity).
  unfold where_. cbn [where_from]. rewrite H. reflexivity.
Qed.

Lemma clf_err (y : list bool) (s : list f64) sw e : _binary_clf_curve y s sw = Err e -> e = AssertionError.
Proof.
  unfold _binary_clf_curve. destruct (_ =? _)%nat; [cbn [py_assert bind]|cbn; congruence].
  destruct (forallb nisfin s); [cbn [py_assert bind]|cbn; congruence]. destruct (1 <=? _)%nat; [cbn [py_assert bind]|cbn; congruence].
  match goal with |- bind ?m _ = _ -> _ => assert (forall e, m = Err e -> e = AssertionError) as H end.
  { intros e'. destruct sw as [sw|].
    - unfold counts_weighted. repeat match goal with |- bind (py_assert ?b) _ = _ -> _ => destruct b; cbn [py_assert bind]; [|congruence] end. discriminate.
    - unfold counts_unweighted. cbv zeta. match goal with |- bind (py_assert ?b) _ = _ -> _ => destruct b; cbn [py_assert bind]; [|congruence] end. discriminate. }
  match goal with |- bind ?m _ = _ -> _ => destruct m as [[fps tps]|e'] end; cbn [bind]; [clear H|intros A; injection A as <-; now apply H].
  destruct (2 <=? _)%nat; [cbn [py_assert bind]|cbn; congruence].
  assert (forall e, _add_pseudo_points (map (cons n0) fps) (map (cons n0) tps) = Err e -> e = AssertionError) as H.
  { intros e'. unfold _add_pseudo_points. repeat match goal with |- bind (py_assert ?b) _ = _ -> _ => destruct b; cbn [py_assert bind]; [|congruence] end. discriminate. }
  destruct (_add_pseudo_points _ _) as [[f t]|e']; cbn [bind]; [clear H|intros A; injection A as <-; now apply H].
  repeat match goal with |- bind (py_assert ?b) _ = _ -> _ => destruct b; cbn [py_assert bind]; [|congruence] end. discriminate.
Qed.

Lemma nth_map2 {A B C} (f : A -> B -> C) l m i a b : nth_error l i = Some a -> nth_error m i = Some b -> nth_error (map2 f l m) i = Some (f a b).
Proof.
  revert l m. induction i as [|i IH]; intros [|x l] [|z m]; cbn; try discriminate; [intros H J; injection H as <-; injection J as <-; reflexivity|apply IH].
Qed.

Section Big.
  Context (k : nat).
  Hypothesis (K : (2 ^ 20 <= Z.of_nat k <= 2 ^ 30)%Z).
  Let T : f64 := f_of_Z (Z.of_nat k + 2).

  Lemma big_pos_sum a : a = W 0 \/ a = f0 -> fold_left fadd (repeat f1 k ++ [f2]) a = f_of_Z (Z.of_nat k + 2).
  Proof.
    intros [->| ->]; rewrite fold_left_app; cbn [fold_left].
    - rewrite lost by lia. apply fadd_Z; lia.
    - assert (fold_left fadd (repeat f1 k) f0 = f_of_Z (Z.of_nat k)) as ->; [|apply fadd_Z; lia].
      pose proof (fold_sums (NT := f64_num) (repeat f1 k) [] f0 (SumProofs.st_nil (NT := f64_num))) as S. cbn [app] in S.
      assert (Zsum (repeat 1%Z k) = Z.of_nat k) as Z1 by (clear; induction k as [|n IH]; [reflexivity|]; change (Zsum (repeat 1%Z (Datatypes.S n))) with (1 + Zsum (repeat 1%Z n))%Z; lia).
      rewrite <- Z1. apply (sums_to_Z _ _ S).
      + clear. induction k as [|n IH]; [reflexivity|]. cbn [repeat map]. now f_equal.
      + apply Forall_forall. intros x Hx. apply repeat_spec in Hx. subst. lia.
      + rewrite Z1. lia.
  Qed.

  Lemma big_row_sum n : row_sum n (repeat f1 k ++ [f2]) = f_of_Z (Z.of_nat k + 2).
  Proof.
    assert (repeat f1 k ++ [f2] = map f_of_Z (repeat 1%Z k ++ [2%Z])) as -> by (rewrite map_app; f_equal; clear; induction k as [|m IH]; [reflexivity|]; cbn [repeat map]; now f_equal).
    assert (Zsum (repeat 1%Z k ++ [2%Z]) = Z.of_nat k + 2)%Z as E.
    { rewrite Zsum_app. change (Zsum [2%Z]) with 2%Z. f_equal. clear; induction k as [|m IH]; [reflexivity|]; change (Zsum (repeat 1%Z (Datatypes.S m))) with (1 + Zsum (repeat 1%Z m))%Z; lia. }
    rewrite <- E. apply row_sum_Z; [|rewrite E; lia]. apply Forall_app. split; [|repeat constructor; lia].
    apply Forall_forall. intros x Hx. apply repeat_spec in Hx. subst. lia.
  Qed.

  Lemma T_val : fisfin T = true /\ B2R T = IZR (Z.of_nat k + 2).
  Proof. unfold T. destruct (f_of_Z_correct (Z.of_nat k + 2)) as [V F]; [apply Z.abs_le; lia || lia|]. split; assumption. Qed.

  Lemma big_weights : take (map W (big_ks k)) (0%nat :: rev (seq 1 (Datatypes.S k))) = W 0 :: repeat f1 k ++ [f2].
  Proof.
    unfold big_ks. cbn [map]. rewrite W2. assert (map W (repeat 1%Z k) = repeat f1 k) as ->.
    { clear. induction k as [|m IH]; [reflexivity|]. cbn [repeat map]. now rewrite W1, IH. }
    pose proof (take_big (W 0) (f2 :: repeat f1 k)) as E. cbn [length] in E. rewrite repeat_length in E. rewrite E. cbn [rev]. now rewrite rev_repeat.
  Qed.

  Lemma big_labels : take (big_y k) (0%nat :: rev (seq 1 (Datatypes.S k))) = big_y k.
  Proof.
    unfold big_y. pose proof (take_big false (repeat true (Datatypes.S k))) as E. rewrite repeat_length in E. rewrite E. now rewrite rev_repeat.
  Qed.
  Lemma big_scores : take (big_s k) (0%nat :: rev (seq 1 (Datatypes.S k))) = big_s k.
  Proof.
    unfold big_s. pose proof (take_big hi (repeat lo (Datatypes.S k))) as E. rewrite repeat_length in E. rewrite E. now rewrite rev_repeat.
  Qed.

  Lemma weights_pos : forallb nisfin (map W (big_ks k)) = true /\ forallb (nltb n0) (map W (big_ks k)) = true.
  Proof.
    assert (forall z, In z (big_ks k) -> z = 0%Z \/ z = 2%Z \/ z = 1%Z) as H.
    { intros z [<-|[<-|Hz]]; auto. apply repeat_spec in Hz. auto. }
    split; apply forallb_forall; intros x Hx; apply in_map_iff in Hx as (z & <- & Hz); destruct (H z Hz) as [->|[->| ->]]; vm_compute; reflexivity.
  Qed.

  Lemma big_counts : counts_weighted (big_y k) (0%nat :: rev (seq 1 (Datatypes.S k))) [0%nat; Datatypes.S k] [map W (big_ks k)] =
    Ok ([[W 0; f0]], [[f0; T]]).
  Proof.
    destruct T_val as [FT VT]. destruct weights_pos as [WF WP].
    unfold counts_weighted. cbn [forallb length]. 
    assert ((length (map W (big_ks k)) =? length (big_y k))%nat = true) as ->.
    { apply Nat.eqb_eq. rewrite map_length. unfold big_ks, big_y. cbn [length]. rewrite !repeat_length. reflexivity. }
    rewrite WF, WP. cbn [andb py_assert bind Nat.leb map]. rewrite big_weights.
    assert (map2 (fun b w => nmul (nofZ (b2z b)) w) (big_y k) (W 0 :: repeat f1 k ++ [f2]) = f0 :: repeat f1 k ++ [f2]) as ->.
    { assert (nmul (nofZ (b2z false)) (W 0) = f0) as E0 by (apply sf_inj; vm_compute; reflexivity).
      assert (nmul (nofZ (b2z true)) f1 = f1) as E1 by (apply sf_inj; vm_compute; reflexivity).
      assert (nmul (nofZ (b2z true)) f2 = f2) as E2 by (apply sf_inj; vm_compute; reflexivity).
      assert (forall m, map2 (fun b w => nmul (nofZ (b2z b)) w) (repeat true (Datatypes.S m)) (repeat f1 m ++ [f2]) = repeat f1 m ++ [f2]) as H.
      { induction m as [|m IH]; [cbn [repeat app map2]; now rewrite E2|].
        change (repeat true (Datatypes.S (Datatypes.S m))) with (true :: repeat true (Datatypes.S m)). cbn [repeat app] in IH |- *. cbn [map2] in IH |- *. now rewrite E1, IH. }
      unfold big_y. transitivity (nmul (nofZ (b2z false)) (W 0) :: map2 (fun b w => nmul (nofZ (b2z b)) w) (repeat true (Datatypes.S k)) (repeat f1 k ++ [f2])); [reflexivity|].
      now rewrite E0, H. }
    assert (repeat f1 k ++ [f2] <> []) as N by (intros H; apply app_eq_nil in H as [_ H]; discriminate).
    assert (Datatypes.S k = length (repeat f1 k ++ [f2])) as L by (rewrite app_length, repeat_length; cbn [length]; lia).
    rewrite (ends_of_cumsum f0 _ _ N L). cbn [map2]. rewrite (ends_of_cumsum (W 0) _ _ N L), !big_pos_sum by auto. fold T. cbn [map2].
    assert (nsub (W 0) f0 = W 0) as -> by (apply sf_inj; vm_compute; reflexivity).
    assert (nsub T T = f0) as -> by (apply fsub_self; exact FT).
    assert (mask (map negb (big_y k)) (W 0 :: repeat f1 k ++ [f2]) = [W 0]) as ->.
    { unfold big_y. cbn [map mask negb]. f_equal. clear. generalize (repeat f1 k ++ [f2]). generalize (Datatypes.S k). 
      induction n as [|m IH]; intros [|a l]; cbn [repeat map mask negb]; auto. }
    assert (mask (big_y k) (W 0 :: repeat f1 k ++ [f2]) = repeat f1 k ++ [f2]) as ->.
    { unfold big_y. cbn [mask]. rewrite L. clear. generalize (repeat f1 k ++ [f2]). induction l as [|a l IH]; [reflexivity|]. cbn [length repeat mask]. now rewrite IH. }
    rewrite big_row_sum. fold T. unfold allclose, lastn. cbn [map last combine forallb fst snd].
    assert (isclose f0 (row_sum 1 [W 0]) = true) as -> by (vm_compute; reflexivity).
    assert (isclose T T = true) as ->; [|reflexivity].
    assert (IZR (Z.of_nat k + 2) <= P2 100) by (change (P2 100) with (IZR (2 ^ 100)); apply IZR_le; lia).
    assert (0 <= IZR (Z.of_nat k + 2)) by (apply IZR_le; lia).
    apply isclose_tol; auto; rewrite ?VT; [lra|]. rewrite Rminus_diag_eq, Rabs_R0 by reflexivity. lra.
  Qed.

  Lemma big_eps : fisfin (nmul EPSILON T) = true /\ nltb n0 (nmul EPSILON T) = true.
  Proof.
    destruct T_val as [FT VT]. assert (1 <= IZR (Z.of_nat k + 2) <= P2 31) as BT.
    { split; [apply IZR_le; lia|]. change (P2 31) with (IZR (2 ^ 31)). apply IZR_le; lia. }
    assert (mid T) as M. { split; [apply nn_pos; [exact FT|rewrite VT; lra]|]. rewrite VT. right. split; [eapply Rle_trans; [|apply BT]; change 1 with (P2 0); apply bpow_le; lia|eapply Rle_trans; [apply BT|apply bpow_le; lia]]. }
    destruct (EPS_mul T M) as (S & _ & P). change (fisfin (fmul EPS T) = true /\ fltb f0 (fmul EPS T) = true).
    assert (fisfin (fmul EPS T) = true) as F by apply S. split; [exact F|]. apply fltb_fin; [reflexivity|exact F|]. apply P. rewrite VT. lra.
  Qed.

  Lemma sub0 (x : f64) : fisfin x = true -> nltb n0 x = true -> nleb n0 (nsub x f0) = true.
  Proof.
    intros F P. apply fltb_fin in P; [|reflexivity|exact F]. change (B2R64 (n0 : f64)) with 0 in P.
    destruct (fsub_correct x f0 F eq_refl) as [V N]. { change (B2R64 f0) with 0. rewrite Rminus_0_r, rnd64_id by apply B2R_format. apply abs_B2R_lt_emax. }
    apply fleb_fin; [reflexivity|exact N|]. change (nsub x f0) with (fsub x f0). rewrite V. change (B2R64 f0) with 0. change (B2R64 (n0 : f64)) with 0. rewrite Rminus_0_r, rnd64_id by apply B2R_format. lra.
  Qed.

  Theorem big_curve :
    _binary_clf_curve (big_y k) (big_s k) (Some [map W (big_ks k)]) = Ok ([[f0; f0; nmul EPSILON T]], [[f0; f0; T]], [finf; hi; lo]).
  Proof.
    destruct T_val as [FT VT]. destruct big_eps as [FE PE]. set (E := nmul EPSILON T) in *.
    assert (nltb n0 T = true) as PT. { apply fltb_fin; [reflexivity|exact FT|]. change (B2R64 (n0 : f64)) with 0. rewrite VT. apply IZR_lt. lia. }
    assert (length (big_y k) = Datatypes.S (Datatypes.S k)) as Ly by (unfold big_y; cbn [length]; now rewrite repeat_length).
    assert (length (big_s k) = Datatypes.S (Datatypes.S k)) as Ls by (unfold big_s; cbn [length]; now rewrite repeat_length).
    unfold _binary_clf_curve. rewrite Ls, Ly, Nat.eqb_refl. cbn [py_assert bind].
    assert (forallb nisfin (big_s k) = true) as ->.
    { apply forallb_forall. intros x [<-|Hx]; [vm_compute; reflexivity|]. apply repeat_spec in Hx. subst. vm_compute. reflexivity. }
    cbn [py_assert bind]. change (1 <=? Datatypes.S (Datatypes.S k))%nat with true. cbn [py_assert bind].
    rewrite big_desc, big_labels, big_scores. change (diff (big_s k)) with (diff (hi :: repeat lo (Datatypes.S k))). rewrite big_tidx, Ly. change ([0%nat] ++ ?l) with (0%nat :: l). replace (Datatypes.S (Datatypes.S k) - 1)%nat with (Datatypes.S k) by lia.
    rewrite big_counts. cbn [bind map].
    assert (take (big_s k) [0%nat; Datatypes.S k] = [hi; lo]) as ->.
    { unfold big_s, take. cbn [flat_map nth_error app]. rewrite (nth_error_nth' _ lo) by (rewrite repeat_length; lia). rewrite nth_repeat. reflexivity. }
    cbn [length]. change (2 <=? 3)%nat with true. cbn [py_assert bind]. unfold _add_pseudo_points. cbn [length Nat.eqb combine forallb fst snd andb py_assert bind concat app negb map2 map].
    unfold pseudo_row, lastn. cbn [last]. assert (neqb f0 (n0 : f64) = true) as -> by reflexivity.
    assert (neqb T n0 = false) as ->.
    { apply not_true_iff_false. intros H. apply feqb_fin in H; [|exact FT|reflexivity]. change (B2R64 (n0 : f64)) with 0 in H. rewrite VT in H. apply eq_IZR in H. lia. }
    cbn [map fst snd last]. fold E. clearbody E. rewrite PT, PE. cbn [forallb andb py_assert bind].
    assert (nmul EPSILON (f0 : f64) = f0) as -> by (apply sf_inj; vm_compute; reflexivity).
    change (n0 : f64) with f0. cbn [max_accumulate max_acc_from].
    assert (nmul EPSILON f0 = f0) as -> by (apply sf_inj; vm_compute; reflexivity).
    assert (nmax f0 f0 = f0) as -> by (apply sf_inj; vm_compute; reflexivity).
    assert (nmax f0 E = E) as ->.
    { unfold nmax. assert (nleb E f0 = false) as ->; [|reflexivity]. apply not_true_iff_false. intros H. apply fleb_fin in H; [|exact FE|reflexivity].
      apply fltb_fin in PE; [|reflexivity|exact FE]. change (B2R64 (n0 : f64)) with 0 in PE. change (B2R64 f0) with 0 in H. lra. }
    cbn [diff map2 tl forallb]. unfold diff. cbn [map2 tl forallb]. change (nleb f0 (nsub f0 f0)) with true.
    pose proof (sub0 E FE PE) as XE. pose proof (sub0 T FT PT) as XT. change (n0 : f64) with f0 in XE, XT. rewrite XE, XT. reflexivity.
  Qed.

  (** the precision at the first threshold is 0 / 0 *)
  Lemma nan_div : nleb n0 (ndiv (f0 : f64) (nadd f0 f0)) = false.
  Proof. vm_compute. reflexivity. Qed.

  Lemma bad_row sw fps tps th i : nth_error sw i = Some (map W (big_ks k)) -> _binary_clf_curve (big_y k) (big_s k) (Some sw) = Ok (fps, tps, th) ->
    nth_error fps i = Some [f0; f0; nmul EPSILON T] /\ nth_error tps i = Some [f0; f0; T].
  Proof.
    intros H E. destruct (clf_rows _ _ _ _ _ _ E) as (_ & _ & R). destruct (R i _ H) as (f & t & Hf & Ht & O).
    specialize (O _ big_curve). set (e := nmul EPSILON T) in *. clearbody e. injection O as <- <- _. now split.
  Qed.

  Theorem big_rp sw : In (map W (big_ks k)) sw -> recall_precision_curve (big_y k) (big_s k) (Some sw) = Err AssertionError.
  Proof.
    intros I. apply In_nth_error in I as [i H]. unfold recall_precision_curve. destruct (_binary_clf_curve _ _ _) as [[[fps tps] th]|e] eqn:E; [|cbn [bind]; now rewrite (clf_err _ _ _ _ E)].
    destruct (bad_row sw fps tps th i H E) as [Hf Ht]. set (e := nmul EPSILON T) in *. clearbody e. cbn [bind].
    assert (forallb (forallb (nleb n0)) (map back_fill (map2 (map2 (fun t f => ndiv t (nadd t f))) tps fps)) = false) as ->; [|reflexivity].
    apply not_true_iff_false. intros A. rewrite forallb_forall in A. specialize (A _ (in_map back_fill _ _ (nth_error_In _ i (nth_map2 _ _ _ _ _ _ Ht Hf)))).
    cbn [map2 back_fill forallb] in A. rewrite nan_div in A. discriminate.
  Qed.

  Lemma mul_f0 (x : f64) : nn x -> fmul x f0 = f0.
  Proof.
    intros N. destruct (fmul_nn x f0 N nn_f0) as [M V]; [change (B2R64 f0) with 0; rewrite Rmult_0_r; apply bpow_ge_0|].
    apply nn_zero; [exact M|]. rewrite V. change (B2R64 f0) with 0. rewrite Rmult_0_r. apply rnd64_0.
  Qed.

  Lemma pos_nn (x : f64) : fisfin x = true -> nltb n0 x = true -> nn x.
  Proof. intros F P. apply nn_pos; [exact F|]. apply fltb_fin in P; [exact P|reflexivity|exact F]. Qed.

  Theorem big_prg sw g : In (map W (big_ks k)) sw -> (do r <- prg_curve (big_y k) (big_s k) (Some sw); check_curve r g) = Err AssertionError.
  Proof.
    intros I. apply In_nth_error in I as [i H]. destruct big_eps as [FE PE]. destruct T_val as [FT VT].
    assert (nn T) as NT. { apply nn_pos; [exact FT|rewrite VT; apply IZR_lt; lia]. }
    pose proof (pos_nn _ FE PE) as NE.
    unfold prg_curve. destruct (_binary_clf_curve _ _ _) as [[[fps tps] th]|e] eqn:E; [|cbn [bind]; now rewrite (clf_err _ _ _ _ E)].
    destruct (bad_row sw fps tps th i H E) as [Hf Ht]. clear E. set (e := nmul EPSILON T) in *. clearbody e. cbn [bind]. cbv zeta.
    pose proof (nth_map2 gain_row _ _ _ _ _ Hf Ht) as G.
    assert (length (map fst (map2 gain_row fps tps)) = length (map snd (map2 gain_row fps tps))) as L by now rewrite !map_length.
    assert (nth_error (map snd (map2 gain_row fps tps)) i = Some (nsub n1 (ndiv f0 f0) :: nsub n1 (ndiv f0 f0) :: [nsub n1 (ndiv (nmul T e) (nmul e T))])) as P.
    { rewrite nth_error_map, G. cbn [option_map]. f_equal. 
      unfold gain_row, lastn. cbn [map2 map snd last back_fill]. change (nmul T f0) with (fmul T f0). change (nmul e f0) with (fmul e f0). rewrite !mul_f0 by assumption. reflexivity. }
    revert L P. generalize (map fst (map2 gain_row fps tps)) (map snd (map2 gain_row fps tps)). intros R Q L P.
    destruct (negb _); [|reflexivity]. cbn [py_assert bind]. 
    assert (length (map (map (nmax (n0 : f64))) R) = length Q) as L' by now rewrite map_length.
    revert L'. generalize (map (map (nmax (n0 : f64))) R). clear R L. intros R L.
    destruct (forallb _ R); [|reflexivity]. cbn [py_assert bind]. destruct (forallb _ (combine _ _)); [|reflexivity]. cbn [py_assert bind].
    assert (exists r, In (r, nsub n1 (ndiv f0 f0) :: nsub n1 (ndiv f0 f0) :: [nsub n1 (ndiv (nmul T e) (nmul e T))]) (combine R Q)) as [r Ir].
    { clear -L P. revert R Q L P. induction i as [|j IH]; intros [|r R] [|q Q] L P; try discriminate.
      - cbn [nth_error] in P. injection P as ->. exists r. left. reflexivity.
      - cbn [length] in L. destruct (IH R Q ltac:(lia) P) as [r' Hr]. exists r'. now right. }
    unfold check_curve. destruct (forallb _ (combine R Q)); [|reflexivity]. cbn [py_assert bind]. destruct (forallb _ (combine R Q)); [|reflexivity]. cbn [py_assert bind].
    destruct (forallb _ (combine R Q)); [|reflexivity]. cbn [py_assert bind].
    assert (forallb (fun c => forallb (fun v => nltb v ninf) (snd c)) (combine R Q) = false) as ->; [|reflexivity].
    apply not_true_iff_false. intros A. rewrite forallb_forall in A. specialize (A _ Ir). cbn [snd forallb] in A.
    assert (nltb (nsub n1 (ndiv f0 f0)) (ninf : f64) = false) as Z by (vm_compute; reflexivity). rewrite Z in A. discriminate.
  Qed.
End Big.
