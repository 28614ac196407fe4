(** The losses of regression.py in doubles. *)
From Coq Require Import Reals Lra Lia.
From Flocq Require Import Core BinarySingleNaN.
From Verif Require Import PyBase ListLemmas F64 F64Lemmas Num NumOk SumProofs Util UtilProofs BootUtil BootProofs2 PerfCurves MLPaper MLProofs MLProofs4 CompareProofs
  SwapProofs MeanProofs DoublesProofs DoublesProofs2 Checkpoint Regression RegrProofs.
Open Scope R_scope.

Lemma bdd_opp j x : bdd j x -> bdd j (fsub f0 x).
Proof.
  intros (r & E & R). exists (- r). split; [|now rewrite Rabs_Ropp]. change (fsub f0 x) with (nopp x). now apply opp_val.
Qed.
Lemma bdd_abs j x : bdd j x -> nng j (nabs x).
Proof. intros (r & E & R). exists (Rabs r). rewrite nabs_fabs, v64_abs, E. cbn. split; [reflexivity|]. split; [apply Rabs_pos|exact R]. Qed.
(* dividing by something not too small *)
Lemma bdd_div_low j k x y s : bdd j x -> v64 y = Fin s -> P2 k <= s -> (-1074 <= j - k <= 1000)%Z -> bdd (j - k) (fdiv x y).
Proof.
  intros (r & Er & R) Es S J. apply v64_Fin in Er as [Fx <-]. apply v64_Fin in Es as [Fy <-]. pose proof (bpow_gt_0 radix2 k) as K. unfold bdd. rewrite v64_div_fin; [|exact Fx|lra].
  destruct (rnd_bdd (B2R x / B2R y) (j - k)) as [-> B]; [|lia|eauto]. unfold Rdiv. rewrite Rabs_mult, Rabs_inv, (Rabs_pos_eq (B2R y)) by lra.
  unfold Z.sub. rewrite bpow_plus, bpow_opp. apply Rmult_le_compat; [apply Rabs_pos| |exact R|].
  - apply Rlt_le, Rinv_0_lt_compat. lra.
  - apply Rinv_le_contravar; assumption.
Qed.
Lemma Forall_combine {A B} (P : A -> Prop) (Q : B -> Prop) l m : Forall P l -> Forall Q m -> Forall (fun p => P (fst p) /\ Q (snd p)) (combine l m).
Proof. intros F. revert m. induction F as [|a l Ha F IH]; intros [|b m] G; cbn [combine]; constructor; inversion G; subst; cbn; auto. Qed.

(** a standard deviation from 2^-90 to 2^90 *)
Definition plain_std (s : f64) : Prop := fisfin s = true /\ P2 (-90) <= B2R s <= P2 90.

Lemma plain_valid y mu std : (1 <= length y)%nat -> length mu = length y -> length std = length y -> Forall (bdd 100) y -> Forall (bdd 100) mu -> Forall plain_std std ->
  r_shape_and_validate y mu std = Ok (length y).
Proof.
  intros N L1 L2 Y M S. unfold r_shape_and_validate. rewrite L1, L2, Nat.eqb_refl. rewrite (fin_all y (bdd_all _ _ Y)), (fin_all mu (bdd_all _ _ M)).
  assert (Forall (fun a => fisfin a = true) std) as FS by (eapply Forall_impl; [|exact S]; now intros a [? _]). rewrite (fin_all std FS).
  destruct (Nat.leb_spec 1 (length y)); [|lia]. cbn [andb py_assert bind].
  assert (forallb (nltb n0) std = true) as ->; [|reflexivity]. apply forallb_forall. intros a I. rewrite Forall_forall in S. destruct (S a I) as [F [L _]].
  cbn [nltb n0 f64_num]. apply fltb_fin; [reflexivity|exact F|]. change (B2R f0) with 0. apply Rlt_le_trans with (2 := L). apply bpow_gt_0.
Qed.

Section Losses.
  Context (fexp flog : f64 -> f64) (sf ppf : Z -> f64 -> f64) (eig : f64 -> f64 -> option (f64 * f64)).
  Notation lib := (fn_f64 fexp flog sf ppf eig).
  Context (LOG : forall z, plain_std z -> bdd 10 (flog z)).

  Variables (y mu std : list f64).
  Hypothesis (N : (1 <= length y)%nat) (L1 : length mu = length y) (L2 : length std = length y)
             (Y : Forall (bdd 100) y) (M : Forall (bdd 100) mu) (S : Forall plain_std std).

  Lemma square_ok : exists l, square_loss y mu std = Ok l /\ length l = length y /\ Forall (nng 400) l.
  Proof. clear LOG fexp flog sf ppf eig.
    unfold square_loss. rewrite plain_valid by assumption. cbn [bind]. eexists. split; [reflexivity|]. split; [apply map2_len; auto|].
    eapply Forall_map2; [|exact Y|exact M]. intros a b A B. cbn [nmul nsub f64_num]. eapply nng_le; [apply (nng_sq 101)|lia]; [|lia]. apply (bdd_sub 100); auto. lia.
  Qed.
  Lemma abs_ok : exists l, abs_loss y mu std = Ok l /\ length l = length y /\ Forall (nng 400) l.
  Proof. clear LOG fexp flog sf ppf eig.
    unfold abs_loss. rewrite plain_valid by assumption. cbn [bind]. eexists. split; [reflexivity|]. split; [apply map2_len; auto|].
    eapply Forall_map2; [|exact Y|exact M]. intros a b A B. cbn [nsub f64_num]. eapply nng_le; [apply (bdd_abs 101)|lia]. apply (bdd_sub 100); auto. lia.
  Qed.
  Lemma log_loss_ok logC : bdd 10 logC -> exists l, @r_log_loss _ _ lib logC y mu std = Ok l /\ length l = length y /\ Forall (bdd 400) l.
  Proof.
    intros LC. unfold r_log_loss. rewrite plain_valid by assumption. cbn [bind]. eexists. split; [reflexivity|]. split; [apply map2_len; rewrite combine_length; lia|].
    eapply Forall_map2; [|exact Y|exact (Forall_combine _ _ _ _ M S)]. intros a [b s] A [B SS]. cbn [fst snd] in *.
    unfold norm_logpdf, nopp. cbn [nlog fn_f64 nmul nsub ndiv nofZ n0 f64_num].
    assert (bdd 191 (fdiv (fsub a b) s)) as Z.
    { destruct SS as [F [L _]]. apply (bdd_div_low 101 (-90) _ _ (B2R s)); [apply (bdd_sub 100); auto; lia|now apply v64_fin|exact L|lia]. }
    set (z := fdiv (fsub a b) s) in *. clearbody z.
    assert (bdd 382 (fdiv (fsub f0 (fmul z z)) (f_of_Z 2))) as Q.
    { apply (bdd_div 382 _ _ 2); [apply bdd_opp; apply (bdd_mul 191 191); auto; lia|now apply v64_ofZ|lra|lia]. }
    assert (bdd 383 (fsub (fdiv (fsub f0 (fmul z z)) (f_of_Z 2)) logC)) as Q2.
    { apply (bdd_sub 382); [exact Q|eapply bdd_le; [exact LC|lia]|lia]. }
    apply bdd_opp. apply (bdd_le 384); [|lia]. apply (bdd_sub 383); [exact Q2|eapply bdd_le; [apply LOG; exact SS|lia]|lia].
  Qed.
End Losses.
