(** The percentile indices and p-values in IEEE doubles and in exact arithmetic. *)
From Coq Require Import Reals Lra Permutation Sorted.
From Flocq Require Import Core BinarySingleNaN Relative Mult_error Sterbenz.
From Verif Require Import PyBase F64 F64Lemmas Num NumOk Util UtilProofs ListLemmas UtilProofs2 BootUtil BootProofs.
Open Scope R_scope.

(** ** Rounding error *)

Definition u64 : R := / 9007199254740992.
Definition tiny : R := / 1329227995784915872903807060280344576.

Lemma rnd64_err x : Rabs (rnd64 x - x) <= u64 * Rabs x + tiny.
Proof.
  destruct (error_N_FLT radix2 (SpecFloat.emin prec64 emax64) prec64 eq_refl (fun x => negb (Z.even x)) x)
    as (eps & eta & H1 & H2 & _ & E).
  assert (rnd64 x = x * (1 + eps) + eta) as E' by exact E. rewrite E'. replace (x * (1 + eps) + eta - x) with (eps * x + eta) by ring.
  eapply Rle_trans; [apply Rabs_triang|]. rewrite Rabs_mult. apply Rplus_le_compat.
  - apply Rmult_le_compat_r; [apply Rabs_pos|]. eapply Rle_trans; [exact H1|]. unfold u64.
    change (bpow radix2 (- prec64 + 1)) with (/ 4503599627370496). lra.
  - eapply Rle_trans; [exact H2|]. unfold tiny.
    assert (bpow radix2 (SpecFloat.emin prec64 emax64) <= bpow radix2 (-120)) as B by (apply bpow_le; reflexivity || (unfold SpecFloat.emin, prec64, emax64; lia)).
    change (bpow radix2 (-120)) with (/ 1329227995784915872903807060280344576) in B.
    pose proof (bpow_gt_0 radix2 (SpecFloat.emin prec64 emax64)). lra.
Qed.

Lemma rnd64_err_pos x : 0 <= x -> x - (u64 * x + tiny) <= rnd64 x <= x + (u64 * x + tiny).
Proof.
  intros H. pose proof (rnd64_err x) as E. rewrite (Rabs_pos_eq x) in E by auto.
  apply Rabs_le_inv in E. lra.
Qed.

Lemma rnd64_small x : 0 <= x <= 9007199254740992 -> 0 <= rnd64 x <= 9007199254740992 /\ Rabs (rnd64 x) < bpow radix2 emax64.
Proof.
  intros H. assert (0 <= rnd64 x <= 9007199254740992) as B.
  { split; [apply rnd64_ge; [apply format64_0|lra]|apply rnd64_le; [|lra]].
    apply (format64_IZR 9007199254740992). reflexivity || lia. }
  split; auto. rewrite Rabs_pos_eq by lra. eapply Rle_lt_trans; [apply B|].
  eapply Rlt_le_trans; [|apply bpow_emax_big]. lra.
Qed.

Lemma fmul_small x y : fisfin x = true -> fisfin y = true -> 0 <= B2R x * B2R y <= 9007199254740992 ->
  B2R (fmul x y) = rnd64 (B2R x * B2R y) /\ fisfin (fmul x y) = true.
Proof. intros. apply fmul_correct; auto. now apply rnd64_small. Qed.
Lemma fsub_small x y : fisfin x = true -> fisfin y = true -> 0 <= B2R x - B2R y <= 9007199254740992 ->
  B2R (fsub x y) = rnd64 (B2R x - B2R y) /\ fisfin (fsub x y) = true.
Proof. intros. apply fsub_correct; auto. now apply rnd64_small. Qed.
Lemma fdiv_small x y : fisfin x = true -> B2R y <> 0 -> 0 <= B2R x / B2R y <= 9007199254740992 ->
  B2R (fdiv x y) = rnd64 (B2R x / B2R y) /\ fisfin (fdiv x y) = true.
Proof. intros. apply fdiv_correct; auto. now apply rnd64_small. Qed.

Lemma f_of_Z_val n : (0 <= n <= 2 ^ 53)%Z -> B2R (f_of_Z n) = IZR n.
Proof. intros. apply f_of_Z_correct. lia. Qed.
Lemma f_of_Z_fin n : (0 <= n <= 2 ^ 53)%Z -> fisfin (f_of_Z n) = true.
Proof. intros. apply f_of_Z_correct. lia. Qed.

Lemma fltb_fin_l x y : fltb x y = true -> fltb y x = false.
Proof. intros H. destruct (fltb_notnan _ _ H). apply fltb_key in H; auto. apply fltb_false_le; auto. lra. Qed.

Lemma in01_f64 (c : f64) : in01 c = true <-> fisfin c = true /\ 0 < B2R c < 1.
Proof.
  unfold in01. rewrite andb_true_iff. cbn [nltb n0 n1 f64_num]. split.
  - intros [H1 H2]. assert (fisfin c = true) as F.
    { destruct c as [|[]| |]; try reflexivity; discriminate. }
    split; auto. apply fltb_fin in H1; auto. apply fltb_fin in H2; auto.
    rewrite f_of_Z_val in H2 by lia. simpl (B2R f0) in H1. lra.
  - intros [F [H1 H2]]. split; apply fltb_fin; auto. rewrite f_of_Z_val by lia. exact H2.
Qed.

Lemma format64_pow e : (-1074 <= e <= 1023)%Z -> format64 (bpow radix2 e).
Proof.
  intros H. apply generic_format_bpow. unfold fexp64, SpecFloat.fexp, SpecFloat.emin. change prec64 with 53%Z. change emax64 with 1024%Z. lia.
Qed.

Lemma half_val : B2R (nhalf : f64) = / 2 /\ fisfin (nhalf : f64) = true.
Proof.
  unfold nhalf. cbn [ndiv n1 nofZ f64_num].
  destruct (fdiv_small (f_of_Z 1) (f_of_Z 2)) as [V F]; [apply f_of_Z_fin; lia|rewrite f_of_Z_val by lia; lra
    |rewrite !f_of_Z_val by lia; lra|].
  split; [|exact F]. rewrite V, !f_of_Z_val by lia. rewrite rnd64_id; [lra|].
  replace (1 / 2) with (bpow radix2 (-1)) by (simpl; lra). apply format64_pow; lia.
Qed.

(** 1 - c in doubles, and its exact half *)
Lemma sub1_val c : in01 c = true -> let d := B2R (nsub n1 c : f64) in
  d = rnd64 (1 - B2R c) /\ fisfin (nsub n1 c : f64) = true /\ / 9007199254740992 <= d <= 1.
Proof.
  intros C. apply in01_f64 in C as (F & L1 & L2). cbn [nsub n1 f64_num].
  destruct (fsub_small (f_of_Z 1) c) as [V Ff]; [apply f_of_Z_fin; lia|auto|rewrite f_of_Z_val by lia; lra|].
  rewrite f_of_Z_val in V by lia. cbv zeta. split; [exact V|]. split; [exact Ff|]. rewrite V.
  split; [|apply rnd64_le; [apply format64_1|lra]].
  apply rnd64_ge.
  - change (/ 9007199254740992) with (bpow radix2 (-53)). apply format64_pow; lia.
  - (* c <= pred 1 = 1 - 2^-53 *)
    assert (B2R c <= pred radix2 fexp64 1) as P.
    { apply pred_ge_gt; auto with typeclass_instances. apply B2R_format. apply format64_1. }
    replace 1 with (bpow radix2 0) in P by reflexivity.
    rewrite pred_bpow in P. change (fexp64 0) with (-53)%Z in P. change (bpow radix2 (-53)) with (/ 9007199254740992) in P.
    change (bpow radix2 0) with 1 in P. lra.
Qed.

Lemma alpha_val c : in01 c = true ->
  B2R (alpha_ c : f64) = B2R (nsub n1 c : f64) / 2 /\ fisfin (alpha_ c : f64) = true.
Proof.
  intros C. destruct (sub1_val c C) as (_ & F & D1 & D2). destruct half_val as [Hv Hf]. unfold alpha_.
  destruct (fmul_small nhalf (nsub n1 c : f64) Hf F) as [V Ff]; [rewrite Hv; lra|].
  cbn [nmul f64_num]. split; [|exact Ff]. rewrite V, Hv. rewrite rnd64_id; [lra|].
  rewrite Rmult_comm. change (/ 2) with (bpow radix2 (-1)). apply mult_bpow_exact_FLT; [apply B2R_format|].
  assert (-52 <= mag radix2 (B2R (nsub n1 c : f64)))%Z as M.
  2:{ clear - M. set (z := mag_val _ _ (mag radix2 (B2R (nsub n1 c : f64)))) in *. clearbody z.
      change (-1074 + 53 - z <= -1)%Z. lia. }
  apply mag_ge_bpow. change (bpow radix2 (-52 - 1)) with (/ 9007199254740992). rewrite Rabs_pos_eq; lra.
Qed.

(** The chain of roundings behind both indices, as functions of d = 1 - c. *)
Definition Qlo (d : R) : R := rnd64 (rnd64 (100 * (d / 2)) / 100).
Definition Qhi (d : R) : R := rnd64 (rnd64 (100 * rnd64 (1 - d / 2)) / 100).

Lemma Qlo_range d : 0 <= d <= 1 -> 0 <= rnd64 (100 * (d / 2)) <= 50 /\ 0 <= Qlo d <= / 2.
Proof.
  intros H. assert (0 <= rnd64 (100 * (d / 2)) <= 50) as B.
  { split; [apply rnd64_ge; [apply format64_0|lra]|apply rnd64_le; [apply (format64_IZR 50); lia|lra]]. }
  split; auto. unfold Qlo. split; [apply rnd64_ge; [apply format64_0|lra]|apply rnd64_le; [|lra]].
  change (/ 2) with (bpow radix2 (-1)). apply format64_pow; lia.
Qed.
Lemma Qhi_range d : 0 <= d <= 1 -> / 2 <= rnd64 (1 - d / 2) <= 1 /\
  50 <= rnd64 (100 * rnd64 (1 - d / 2)) <= 100 /\ / 2 <= Qhi d <= 1.
Proof.
  intros H. assert (format64 (/ 2)) as F2 by (change (/ 2) with (bpow radix2 (-1)); apply format64_pow; lia).
  assert (/ 2 <= rnd64 (1 - d / 2) <= 1) as B1.
  { split; [apply rnd64_ge; [exact F2|lra]|apply rnd64_le; [apply format64_1|lra]]. }
  assert (50 <= rnd64 (100 * rnd64 (1 - d / 2)) <= 100) as B2.
  { split; [apply rnd64_ge; [apply (format64_IZR 50); lia|lra]|apply rnd64_le; [apply (format64_IZR 100); lia|lra]]. }
  split; auto. split; auto. unfold Qhi. split; [apply rnd64_ge; [exact F2|lra]|apply rnd64_le; [apply format64_1|lra]].
Qed.
Lemma Qlo_mono d d' : d <= d' -> Qlo d <= Qlo d'.
Proof. intros H. unfold Qlo. repeat (apply rnd64_mono; try apply Rmult_le_compat_r; try lra). Qed.
Lemma Qhi_anti d d' : d <= d' -> Qhi d' <= Qhi d.
Proof.
  intros H. unfold Qhi. apply rnd64_mono. apply Rmult_le_compat_r; [lra|]. apply rnd64_mono.
  apply Rmult_le_compat_l; [lra|]. apply rnd64_mono. lra.
Qed.

Lemma qlo_val c : in01 c = true -> B2R (qlo c : f64) = Qlo (B2R (nsub n1 c : f64)) /\ fisfin (qlo c : f64) = true.
Proof.
  intros C. destruct (alpha_val c C) as [V F]. destruct (sub1_val c C) as (_ & _ & D1 & D2).
  set (d := B2R (nsub n1 c : f64)) in *. destruct (Qlo_range d) as [B1 B2]; [lra|].
  unfold qlo, lbp. cbn [nmul ndiv nofZ f64_num].
  destruct (fmul_small (f_of_Z 100) (alpha_ c)) as [V1 F1]; [apply f_of_Z_fin; lia|auto
    |rewrite f_of_Z_val by lia; rewrite V; lra|].
  rewrite f_of_Z_val, V in V1 by lia.
  destruct (fdiv_small (fmul (f_of_Z 100) (alpha_ c)) (f_of_Z 100)) as [V2 F2]; [auto|rewrite f_of_Z_val by lia; lra
    |rewrite V1, f_of_Z_val by lia; lra|].
  rewrite V1, f_of_Z_val in V2 by lia. split; auto.
Qed.
Lemma qhi_val c : in01 c = true -> B2R (qhi c : f64) = Qhi (B2R (nsub n1 c : f64)) /\ fisfin (qhi c : f64) = true.
Proof.
  intros C. destruct (alpha_val c C) as [V F]. destruct (sub1_val c C) as (_ & _ & D1 & D2).
  set (d := B2R (nsub n1 c : f64)) in *. destruct (Qhi_range d) as (B0 & B1 & B2); [lra|].
  unfold qhi, ubp. cbn [nmul ndiv nsub n1 nofZ f64_num].
  destruct (fsub_small (f_of_Z 1) (alpha_ c)) as [V0 F0]; [apply f_of_Z_fin; lia|auto
    |rewrite f_of_Z_val by lia; rewrite V; lra|].
  rewrite f_of_Z_val, V in V0 by lia.
  destruct (fmul_small (f_of_Z 100) (fsub (f_of_Z 1) (alpha_ c))) as [V1 F1]; [apply f_of_Z_fin; lia|auto
    |rewrite f_of_Z_val by lia; rewrite V0; lra|].
  rewrite f_of_Z_val, V0 in V1 by lia.
  destruct (fdiv_small (fmul (f_of_Z 100) (fsub (f_of_Z 1) (alpha_ c))) (f_of_Z 100)) as [V2 F2]; [auto|rewrite f_of_Z_val by lia; lra
    |rewrite V1, f_of_Z_val by lia; lra|].
  rewrite V1, f_of_Z_val in V2 by lia. split; auto.
Qed.

Lemma xlo_val c n : in01 c = true -> (1 <= n <= 2 ^ 53)%Z ->
  B2R (xlo c n : f64) = rnd64 (Qlo (B2R (nsub n1 c : f64)) * (IZR n - 1)) /\ fisfin (xlo c n : f64) = true.
Proof.
  intros C N. destruct (qlo_val c C) as [V F]. destruct (sub1_val c C) as (_ & _ & D1 & D2).
  set (d := B2R (nsub n1 c : f64)) in *. destruct (Qlo_range d) as [B1 B2]; [lra|].
  assert (0 <= IZR n - 1 <= 9007199254740992) as NN.
  { rewrite <- minus_IZR. split; apply IZR_le; lia. }
  unfold xlo. cbn [nmul nofZ f64_num].
  destruct (fmul_small (qlo c) (f_of_Z (n - 1))) as [V1 F1]; [auto|apply f_of_Z_fin; lia| |].
  - rewrite f_of_Z_val, V, minus_IZR by lia. split; [apply Rmult_le_pos; lra|].
    apply Rle_trans with (1 * (IZR n - 1)); [apply Rmult_le_compat_r|]; lra.
  - rewrite f_of_Z_val, V, minus_IZR in V1 by lia. auto.
Qed.
Lemma xhi_val c n : in01 c = true -> (1 <= n <= 2 ^ 53)%Z ->
  B2R (xhi c n : f64) = rnd64 (Qhi (B2R (nsub n1 c : f64)) * (IZR n - 1)) /\ fisfin (xhi c n : f64) = true.
Proof.
  intros C N. destruct (qhi_val c C) as [V F]. destruct (sub1_val c C) as (_ & _ & D1 & D2).
  set (d := B2R (nsub n1 c : f64)) in *. destruct (Qhi_range d) as (B0 & B1 & B2); [lra|].
  assert (0 <= IZR n - 1 <= 9007199254740992) as NN.
  { rewrite <- minus_IZR. split; apply IZR_le; lia. }
  unfold xhi. cbn [nmul nofZ f64_num].
  destruct (fmul_small (qhi c) (f_of_Z (n - 1))) as [V1 F1]; [auto|apply f_of_Z_fin; lia| |].
  - rewrite f_of_Z_val, V, minus_IZR by lia. split; [apply Rmult_le_pos; lra|].
    apply Rle_trans with (1 * (IZR n - 1)); [apply Rmult_le_compat_r|]; lra.
  - rewrite f_of_Z_val, V, minus_IZR in V1 by lia. auto.
Qed.

Lemma ftrunc_floor x : ftruncZ (ffloor x) = Zfloor (B2R x).
Proof. unfold ftruncZ. rewrite Btrunc_spec. destruct (ffloor_spec x) as [-> _]. apply Ztrunc_IZR. Qed.
Lemma ftrunc_ceil x : ftruncZ (fceil x) = Zceil (B2R x).
Proof. unfold ftruncZ. rewrite Btrunc_spec. destruct (fceil_spec x) as [-> _]. apply Ztrunc_IZR. Qed.

Lemma kL_val c n : in01 c = true -> (1 <= n <= 2 ^ 53)%Z ->
  kL c n = Zfloor (rnd64 (Qlo (B2R (nsub n1 c : f64)) * (IZR n - 1))).
Proof. intros C N. unfold kL. cbn [nfloorZ f64_num]. rewrite ftrunc_floor. f_equal. now apply xlo_val. Qed.
Lemma kU_val c n : in01 c = true -> (1 <= n <= 2 ^ 53)%Z ->
  kU c n = Zceil (rnd64 (Qhi (B2R (nsub n1 c : f64)) * (IZR n - 1))).
Proof. intros C N. unfold kU. cbn [nceilZ f64_num]. rewrite ftrunc_ceil. f_equal. now apply xhi_val. Qed.

Lemma Zceil_le_IZR x n : x <= IZR n -> (Zceil x <= n)%Z.
Proof. apply Zceil_glb. Qed.

Lemma idx_ok_f64 (c : f64) n : in01 c = true -> (1 <= n <= 2 ^ 53)%Z -> idx_ok c n.
Proof.
  intros C N. destruct (qlo_val c C) as [V F]. destruct (qhi_val c C) as [V' F'].
  destruct (sub1_val c C) as (_ & _ & D1 & D2). unfold idx_ok. rewrite kL_val, kU_val by auto.
  set (d := B2R (nsub n1 c : f64)) in *. destruct (Qlo_range d) as [B1 B2]; [lra|].
  destruct (Qhi_range d) as (B0 & B1' & B2'); [lra|].
  assert (forall x y : f64, fisfin x = true -> fisfin y = true -> B2R y <= B2R x -> fltb x y = false) as NL.
  { intros x y Fx Fy H. destruct (fltb x y) eqn:E; auto. apply fltb_fin in E; auto. lra. }
  assert (0 <= IZR n - 1 <= 9007199254740992) as NN.
  { rewrite <- minus_IZR. split; apply IZR_le; lia. }
  cbn [nltb n0 n1 f64_num].
  split; [apply NL; auto; rewrite V; simpl (B2R f0); lra|].
  split; [apply NL; auto; rewrite V, f_of_Z_val by lia; lra|].
  split; [apply NL; auto; rewrite V'; simpl (B2R f0); lra|].
  split; [apply NL; auto; rewrite V', f_of_Z_val by lia; lra|].
  assert (Qlo d * (IZR n - 1) <= Qhi d * (IZR n - 1)) as L by (apply Rmult_le_compat_r; lra).
  assert (0 <= Qlo d * (IZR n - 1)) as L0 by (apply Rmult_le_pos; lra).
  assert (rnd64 (Qhi d * (IZR n - 1)) <= IZR (n - 1)) as L2.
  { apply rnd64_le; [apply format64_IZR; lia|]. rewrite minus_IZR.
    apply Rle_trans with (1 * (IZR n - 1)); [apply Rmult_le_compat_r|]; lra. }
  split; [split|].
  - apply Zfloor_lub. apply rnd64_ge; [apply format64_0|auto].
  - apply le_IZR. eapply Rle_trans; [apply Zfloor_lb|]. eapply Rle_trans; [|apply Zceil_ub]. now apply rnd64_mono.
  - assert (Zceil (rnd64 (Qhi d * (IZR n - 1))) <= n - 1)%Z by (now apply Zceil_le_IZR). lia.
Qed.

(** widening with the confidence *)
Lemma idx_mono_f64 (c c' : f64) n : in01 c = true -> in01 c' = true -> fleb c c' = true -> (1 <= n <= 2 ^ 53)%Z ->
  (kL c' n <= kL c n)%Z /\ (kU c n <= kU c' n)%Z.
Proof.
  intros C C' H N. rewrite !kL_val, !kU_val by auto.
  assert (B2R (nsub n1 c' : f64) <= B2R (nsub n1 c : f64)) as D.
  { destruct (sub1_val c C) as (-> & _). destruct (sub1_val c' C') as (-> & _). apply rnd64_mono.
    apply in01_f64 in C as [F _]. apply in01_f64 in C' as [F' _]. apply fleb_fin in H; auto. lra. }
  apply Qlo_mono in D as D1. apply Qhi_anti in D as D2. assert (1 <= IZR n) as NN by (apply IZR_le; lia). split.
  - apply Zfloor_le. apply rnd64_mono. apply Rmult_le_compat_r; lra.
  - apply Zceil_le. apply rnd64_mono. apply Rmult_le_compat_r; lra.
Qed.

(** error bounds on the two indices: with a = (1 - c)/2, |x - a (n-1)| <= 6 u n *)
Lemma xlo_err c n : in01 c = true -> (1 <= n <= 2 ^ 53)%Z -> let d := B2R (nsub n1 c : f64) in
  Rabs (rnd64 (Qlo d * (IZR n - 1)) - d / 2 * (IZR n - 1)) <= 6 * u64 * IZR n.
Proof.
  intros C N d. destruct (sub1_val c C) as (_ & _ & D). fold d in D.
  destruct (Qlo_range d) as [B1 B2]; [lra|]. assert (1 <= IZR n) as NN by (apply IZR_le; lia).
  pose proof (rnd64_err_pos (100 * (d / 2)) ltac:(lra)) as E1.
  pose proof (rnd64_err_pos (rnd64 (100 * (d / 2)) / 100) ltac:(lra)) as E2. fold (Qlo d) in E2.
  assert (0 <= Qlo d * (IZR n - 1)) as P0 by (apply Rmult_le_pos; lra).
  pose proof (rnd64_err_pos (Qlo d * (IZR n - 1)) P0) as E3.
  set (m := IZR n - 1) in *. replace (IZR n) with (m + 1) by (unfold m; lra).
  assert (d / 2 - 2 * u64 <= Qlo d <= d / 2 + 2 * u64) as E4.
  { unfold u64, tiny in *. set (t := rnd64 (100 * (d / 2))) in *. lra. }
  assert ((d / 2 - 2 * u64) * m <= Qlo d * m <= (d / 2 + 2 * u64) * m) as E5
    by (split; apply Rmult_le_compat_r; unfold m; lra).
  assert (Qlo d * m <= 1 * m) as E6 by (apply Rmult_le_compat_r; unfold m; lra).
  assert (0 <= m) by (unfold m; lra). apply Rabs_le. unfold u64, tiny in *. lra.
Qed.
Lemma xhi_err c n : in01 c = true -> (1 <= n <= 2 ^ 53)%Z -> let d := B2R (nsub n1 c : f64) in
  Rabs (rnd64 (Qhi d * (IZR n - 1)) - (1 - d / 2) * (IZR n - 1)) <= 6 * u64 * IZR n.
Proof.
  intros C N d. destruct (sub1_val c C) as (_ & _ & D). fold d in D.
  destruct (Qhi_range d) as (B0 & B1 & B2); [lra|]. assert (1 <= IZR n) as NN by (apply IZR_le; lia).
  pose proof (rnd64_err_pos (1 - d / 2) ltac:(lra)) as E0.
  pose proof (rnd64_err_pos (100 * rnd64 (1 - d / 2)) ltac:(lra)) as E1.
  pose proof (rnd64_err_pos (rnd64 (100 * rnd64 (1 - d / 2)) / 100) ltac:(lra)) as E2. fold (Qhi d) in E2.
  assert (0 <= Qhi d * (IZR n - 1)) as P0 by (apply Rmult_le_pos; lra).
  pose proof (rnd64_err_pos (Qhi d * (IZR n - 1)) P0) as E3.
  set (m := IZR n - 1) in *. replace (IZR n) with (m + 1) by (unfold m; lra).
  assert (1 - d / 2 - 4 * u64 <= Qhi d <= 1 - d / 2 + 4 * u64) as E4.
  { unfold u64, tiny in *. set (t := rnd64 (100 * rnd64 (1 - d / 2))) in *. set (v := rnd64 (1 - d / 2)) in *. lra. }
  assert ((1 - d / 2 - 4 * u64) * m <= Qhi d * m <= (1 - d / 2 + 4 * u64) * m) as E5
    by (split; apply Rmult_le_compat_r; unfold m; lra).
  assert (Qhi d * m <= 1 * m) as E6 by (apply Rmult_le_compat_r; unfold m; lra).
  assert (0 <= m) by (unfold m; lra). apply Rabs_le. unfold u64, tiny in *. lra.
Qed.
