(** Property theorems C55-C62 about mlpaper.py.  Model: MLPaper.v.
    Theorems about [f64] hold for IEEE doubles with every rounding; theorems
    about [xr] are about exact arithmetic with infinities and NaN.  The special
    functions (exp, log, Student t) of the double instance are arbitrary. *)
From Coq Require Import Reals Lra Lia.
From Verif Require Import PyBase ListLemmas F64 F64Lemmas Num NumOk Util UtilProofs BootUtil BootProofs BootProofs5
  PerfCurves CurveProofs2 MLPaper MLProofs MLProofs2 MLProofs3 MLProofs4.
Open Scope R_scope.
Open Scope list_scope.

(** ** C55 *)

(** The arguments clip_EB is documented for: limits with a non-negative,
    non-NaN width and a finite non-negative minimum. *)
Definition valid_limits (lower upper min_EB : f64) : Prop :=
  fleb f0 (fsub upper lower) = true /\ fleb f0 min_EB = true /\ fisfin min_EB = true.

Theorem C55_between :
  forall mu EB lower upper min_EB v,
  clip_EB mu EB lower upper min_EB = Ok v -> fisnan mu = false -> fisnan EB = false ->
  fleb min_EB v = true /\ (fleb v (fsub upper mu) = true \/ fleb v (fsub mu lower) = true).
Proof.
  intros mu EB lower upper min_EB v H M N. pose proof (clip_EB_domain _ _ _ _ _ v (or_introl H)) as D.
  rewrite clip_EB_unfold in H by exact D. destruct D as (A & B & C).
  destruct (fltb mu lower || fltb upper mu) eqn:E1; [discriminate|]. apply orb_false_iff in E1 as [L U].
  destruct (fltb (fsub upper lower) (fmul (f_of_Z 2) min_EB)); [discriminate|].
  destruct (fltb (trivial_EB mu lower upper) min_EB) eqn:E3; [discriminate|]. apply Ok_inj in H. subst v.
  assert (fleb min_EB (trivial_EB mu lower upper) = true) as LE.
  { apply fltb_false_fleb; auto using fisfin_notnan. now apply trivial_notnan. }
  destruct (nclip_range EB min_EB _ N LE) as [P Q]. split; [exact P|].
  unfold trivial_EB in Q. destruct (nfmax_cases (fsub upper mu) (fsub mu lower)) as [E|E]; rewrite E in Q at 2; auto.
Qed.
Print Assumptions C55_between.

Theorem C55_unchanged_inside :
  forall mu EB lower upper min_EB v,
  clip_EB mu EB lower upper min_EB = Ok v -> fisnan mu = false ->
  fleb min_EB EB = true -> fleb EB (fsub upper mu) = true \/ fleb EB (fsub mu lower) = true ->
  v = EB.
Proof.
  intros mu EB lower upper min_EB v H M P Q. pose proof (clip_EB_domain _ _ _ _ _ v (or_introl H)) as D.
  rewrite clip_EB_unfold in H by exact D. destruct D as (A & B & C).
  destruct (fltb mu lower || fltb upper mu) eqn:E1; [discriminate|]. apply orb_false_iff in E1 as [L U].
  destruct (fltb (fsub upper lower) (fmul (f_of_Z 2) min_EB)); [discriminate|].
  destruct (fltb (trivial_EB mu lower upper) min_EB); [discriminate|]. apply Ok_inj in H. subst v.
  apply nclip_inside; [exact P|]. unfold trivial_EB. destruct Q as [Q|Q].
  - eapply fleb_trans; [exact Q|]. apply nfmax_l. now apply fleb_notnan in Q.
  - destruct (fisnan (fsub upper mu)) eqn:N.
    + destruct (lim_notnan _ _ A) as [Nl Nu]. unfold nfmax. cbn [nleb nisnan f64_num].
      destruct (fleb_notnan _ _ Q) as [NE Nm]. rewrite Nm, orb_false_r.
      destruct (fleb (fsub mu lower) (fsub upper mu)) eqn:K; [|exact Q]. apply fleb_notnan in K as [_ K]. congruence.
    + eapply fleb_trans; [exact Q|]. destruct (nfmax_r (fsub upper mu) (fsub mu lower)) as [K|K]; [now apply fleb_notnan in Q|exact K|congruence].
Qed.
Print Assumptions C55_unchanged_inside.

(** Every parameter value the unclipped bar reached within the limits is still
    reached. *)
Theorem C55_covers_what_it_covered :
  forall mu EB lower upper min_EB v theta,
  clip_EB mu EB lower upper min_EB = Ok v -> fisnan mu = false ->
  fleb lower theta = true -> fleb theta upper = true ->
  (fleb (fsub theta mu) EB = true -> fleb (fsub theta mu) v = true) /\
  (fleb (fsub mu theta) EB = true -> fleb (fsub mu theta) v = true).
Proof.
  intros mu EB lower upper min_EB v theta H M T1 T2. pose proof (clip_EB_domain _ _ _ _ _ v (or_introl H)) as D.
  rewrite clip_EB_unfold in H by exact D. destruct D as (A & B & C).
  destruct (fltb mu lower || fltb upper mu) eqn:E1; [discriminate|]. apply orb_false_iff in E1 as [L U].
  destruct (fltb (fsub upper lower) (fmul (f_of_Z 2) min_EB)); [discriminate|].
  destruct (fltb (trivial_EB mu lower upper) min_EB); [discriminate|]. apply Ok_inj in H. subst v.
  destruct (dist_trivial mu lower upper theta A M L U T1 T2) as [D1 D2].
  assert (forall d, fleb d EB = true -> fleb d (trivial_EB mu lower upper) = true ->
            fleb d (nclip EB min_EB (trivial_EB mu lower upper)) = true) as K.
  { intros d P Q. unfold nclip. cbn [nltb f64_num]. destruct (fltb EB min_EB) eqn:F.
    - eapply fleb_trans; [exact P|now apply fltb_fleb].
    - destruct (fltb (trivial_EB mu lower upper) EB); assumption. }
  split; intros P; apply K; auto; [apply D1|apply D2]; now apply fleb_notnan in P.
Qed.
Print Assumptions C55_covers_what_it_covered.

Theorem C55_nan_passes :
  forall mu EB lower upper min_EB v,
  clip_EB mu EB lower upper min_EB = Ok v ->
  (fisnan EB = true -> fisnan v = true) /\
  (fisnan mu = true -> fisnan EB = false -> v = EB /\ fleb min_EB v = true \/ v = min_EB /\ fltb EB min_EB = true).
Proof.
  intros mu EB lower upper min_EB v H. pose proof (clip_EB_domain _ _ _ _ _ v (or_introl H)) as D.
  rewrite clip_EB_unfold in H by exact D. destruct D as (A & B & C).
  destruct (fltb mu lower || fltb upper mu) eqn:E1; [discriminate|].
  destruct (fltb (fsub upper lower) (fmul (f_of_Z 2) min_EB)); [discriminate|].
  destruct (fltb (trivial_EB mu lower upper) min_EB); [discriminate|]. apply Ok_inj in H. subst v. split.
  - intros N. now rewrite nclip_nan.
  - intros N NE. assert (trivial_EB mu lower upper = fnan) as ->.
    { destruct mu; try discriminate. destruct lower, upper; reflexivity. }
    unfold nclip. cbn [nltb f64_num]. destruct (fltb EB min_EB) eqn:F; [now right|].
    left. destruct EB; split; try reflexivity; try discriminate; apply fltb_false_fleb; auto using fisfin_notnan.
Qed.
Print Assumptions C55_nan_passes.

(** ValueError exactly when the estimate is outside the limits or the minimum
    is too large; nothing else is raised unless the width of two finite limits
    overflows. *)
Theorem C55_raises_iff :
  forall mu EB lower upper min_EB,
  valid_limits lower upper min_EB -> fisnan mu = false ->
  fisfin lower = false \/ fisfin upper = false \/ fisfin (fsub upper lower) = true ->
  let bad := fltb mu lower = true \/ fltb upper mu = true \/ fltb (fsub upper lower) (fmul (f_of_Z 2) min_EB) = true in
  (bad -> clip_EB mu EB lower upper min_EB = Err ValueError) /\
  (~ bad -> exists v, clip_EB mu EB lower upper min_EB = Ok v).
Proof.
  intros mu EB lower upper min_EB D M O bad. rewrite clip_EB_unfold by exact D. unfold bad. clear bad. split.
  - intros [->|[->|E]]; [reflexivity|now rewrite orb_true_r|]. destruct (fltb mu lower || fltb upper mu); [reflexivity|]. now rewrite E.
  - intros H. destruct (fltb mu lower) eqn:L; [tauto|]. destruct (fltb upper mu) eqn:U; [tauto|]. cbn [orb].
    destruct (fltb (fsub upper lower) (fmul (f_of_Z 2) min_EB)) eqn:W; [tauto|].
    rewrite (no_assertion mu lower upper min_EB D M L U W O). eauto.
Qed.
Print Assumptions C55_raises_iff.

(** In exact arithmetic there is no exception to the exception. *)
Theorem C55_exact :
  forall (mu EB lower upper min_EB : xr),
  nleb (Fin 0) (nsub upper lower) = true -> nleb (Fin 0) min_EB = true -> nisfin min_EB = true -> nisnan mu = false ->
  clip_EB mu EB lower upper min_EB =
    if nltb mu lower || nltb upper mu || nltb (nsub upper lower) (nmul (Fin 2) min_EB) then Err ValueError
    else Ok (if nltb EB min_EB then min_EB
             else if nltb (nfmax (nsub upper mu) (nsub mu lower)) EB then nfmax (nsub upper mu) (nsub mu lower) else EB).
Proof.
  intros mu EB lower upper min_EB A B C M. rewrite (clip_EB_exact mu EB lower upper min_EB A B C M).
  destruct (nltb mu lower || nltb upper mu); [reflexivity|]. cbn [orb].
  change (nofZ 2 : xr) with (Fin 2). destruct (nltb (nsub upper lower) (nmul (Fin 2) min_EB)); reflexivity.
Qed.
Print Assumptions C55_exact.

Definition lit : Z -> Z -> f64 := f_lit.
(** Image of a result under [x |-> trunc(1000 x)], to compare doubles. *)
Definition milli (r : res f64) : option Z :=
  match r with Ok v => Some (ftruncZ (fmul v (f_of_Z 1000))) | Err _ => None end.
Definition any_fn : fn f64 := fn_f64 (fun x => x) (fun x => x) (fun _ x => x) (fun _ q => fsub q (f_lit 1 2)) (fun _ _ => None).

Example C55_example :
  (* a bar of 0.5 around 0.9 in (0, 1) stays, a bar of 3 is cut to 0.9, a small one is raised *)
  milli (clip_EB (lit 9 10) (lit 1 2) f0 (f_of_Z 1) f0) = Some 500%Z /\
  milli (clip_EB (lit 9 10) (f_of_Z 3) f0 (f_of_Z 1) f0) = Some 900%Z /\
  milli (clip_EB (lit 9 10) f0 f0 (f_of_Z 1) (lit 1 4)) = Some 250%Z /\
  clip_EB (f_of_Z 2) f0 f0 (f_of_Z 1) f0 = Err ValueError /\
  clip_EB (lit 1 2) f0 f0 (f_of_Z 1) (lit 3 4) = Err ValueError.
Proof. vm_compute. repeat split. Qed.

(** The overflow corner: limits +-1.7e308, estimate 0, minimum 1.75e308. *)
Example C55_overflow :
  let big := fmul (f_of_Z 17) (f_of_Z (10 ^ 307)) in
  let min_EB := fmul (f_of_Z 175) (f_of_Z (10 ^ 306)) in
  fisfin big = true /\ fisfin min_EB = true /\
  clip_EB f0 f0 (fopp big) big min_EB = Err AssertionError.
Proof. vm_compute. repeat split. Qed.

(** ** C56 *)

(** Bernstein's error bar (Audibert et al. 2009, Theorem 1), written out:
    std * sqrt(2 A / n) + 3 A (upper - lower) / n with A = ln(3 / (1 - c)). *)
Definition variance (l : list R) : R :=
  let m := Rsum l / INR (length l) in Rsum (map (fun a => (a - m) * (a - m)) l) / INR (length l).
Definition audibert (l : list R) (range c : R) : R :=
  let n := INR (length l) in
  let A := ln (3 / (1 - c)) in
  sqrt (variance l) * sqrt (2 * A / n) + 3 * A * range / n.

Definition special := fn_xr.
Definition bounded_data (l : list R) (lower upper : R) : Prop :=
  (2 <= length l)%nat /\ lower < upper /\ Forall (fun a => lower <= a <= upper) l.

Theorem C56_error_bar :
  forall sf ppf l lower upper c,
  (2 <= length l)%nat -> lower <= upper -> Forall (fun a => lower <= a <= upper) l -> 0 < c < 1 ->
  @bernstein_EB _ _ (special sf ppf) (map Fin l) (Fin lower) (Fin upper) (Fin c) = Ok (Fin (audibert l (upper - lower) c)).
Proof. intros sf ppf l lower upper c L LU W C. exact (bernstein_EB_form sf ppf l lower upper c L LU C W). Qed.
Print Assumptions C56_error_bar.

(** Zero is outside the error bar exactly when the test rejects, at every
    level. *)
Theorem C56_coherent :
  forall sf ppf l lower upper, bounded_data l lower upper ->
  exists p, @bernstein_test _ _ (special sf ppf) (map Fin l) (Fin lower) (Fin upper) = Ok (Fin p) /\ 0 <= p <= 1 /\
  forall c EB, 0 < c < 1 ->
    @bernstein_EB _ _ (special sf ppf) (map Fin l) (Fin lower) (Fin upper) (Fin c) = Ok (Fin EB) ->
    (p < 1 - c <-> EB < Rabs (Rsum l / INR (length l))).
Proof.
  intros sf ppf l lower upper (L & LU & W). destruct (bernstein_test_form sf ppf l lower upper L LU W) as (z & Z & EZ & E).
  exists (Rmin 1 (3 * exp (- (z * z)))). split; [exact E|]. split.
  { pose proof (exp_pos (- (z * z))). split; [apply Rmin_glb; lra|apply Rmin_l]. }
  intros c EB C H. rewrite (C56_error_bar sf ppf l lower upper c L ltac:(lra) W C) in H. apply Ok_inj in H. injection H as <-.
  assert (l <> []) as NE by (destruct l; [cbn in L; lia|discriminate]).
  exact (bernstein_coherent l (upper - lower) z c NE ltac:(lra) Z C EZ).
Qed.
Print Assumptions C56_coherent.

(** Unbounded limits: nothing is rejected and the bar is infinite. *)
Theorem C56_unbounded :
  forall sf ppf l lower upper c, (2 <= length l)%nat -> 0 < c < 1 ->
  within lower upper (map Fin l) = true -> nsub upper lower = PInf ->
  @bernstein_test _ _ (special sf ppf) (map Fin l) lower upper = Ok (Fin 1) /\
  @bernstein_EB _ _ (special sf ppf) (map Fin l) lower upper (Fin c) = Ok PInf.
Proof.
  intros sf ppf l lower upper c L C W R.
  assert (nleb n0 (nsub upper lower) = true) as P by (rewrite R; reflexivity).
  split.
  - unfold bernstein_test. rewrite (no_nan l), P, W, (not_degenerate l L), R. reflexivity.
  - assert (l <> []) as NE by (destruct l; [cbn in L; lia|discriminate]). pose proof (len_pos l NE) as LP.
    unfold bernstein_EB. rewrite (no_nan l), P, W, (conf_ok c C), (not_degenerate l L), R. cbn [negb py_assert bind].
    rewrite (nstd0_fin sf ppf l NE : @nstd _ _ (special sf ppf) 0 (map Fin l) = _). rewrite lenT_fin.
    cbn [nofZ n1 nsub ndiv xr_num xsub xadd xopp].
    rewrite (xdiv_fin 3) by lra. change (@nlog xr (special sf ppf)) with xlog. unfold xlog.
    assert (Rltb 0 (3 / (1 + - c)) = true) as ->. { apply Rltb_spec. apply Rdiv_lt_0_compat; lra. }
    change (ln (3 / (1 + - c))) with (conf_log c). pose proof (conf_log_pos c C) as AP.
    cbn [nmul xr_num xmul]. rewrite xdiv_fin by lra. change (@nsqrt xr (special sf ppf)) with xsqrt.
    rewrite xsqrt_fin. 2:{ apply Rmult_le_pos; [lra|]. apply Rlt_le, Rinv_0_lt_compat, LP. }
    unfold xinf_mul. rewrite Reqb_neq by lra. rewrite (proj2 (Rltb_spec 0 (3 * conf_log c))) by lra. cbn [Bool.eqb xmul].
    cbn [xdiv]. destruct (Rltb (INR (length l)) 0) eqn:Q; [apply Rltb_spec in Q; lra|]. reflexivity.
Qed.
Print Assumptions C56_unbounded.

Example C56_example : bounded_data [1; 0; 1]%R 0 1 /\ @nsub xr _ PInf (Fin 0) = PInf /\ within (Fin 0) PInf (map Fin [1; 0; 1]%R) = true.
Proof.
  split; [|split; [reflexivity|]].
  - split; [cbn; lia|]. split; [lra|]. repeat constructor; lra.
  - apply within_spec. repeat constructor; cbn; try apply Rleb_spec; lra.
Qed.

(** Point-mass limits are the documented exception: the test never rejects,
    although the bar shrinks to zero around a mean that may not be zero. *)
Theorem C56_point_mass :
  forall sf ppf v n c, (2 <= n)%nat -> 0 < c < 1 ->
  @bernstein_test _ _ (special sf ppf) (map Fin (repeat v n)) (Fin v) (Fin v) = Ok (Fin 1) /\
  @bernstein_EB _ _ (special sf ppf) (map Fin (repeat v n)) (Fin v) (Fin v) (Fin c) = Ok (Fin 0).
Proof.
  intros sf ppf v n c N C. assert (2 <= length (repeat v n))%nat as L by (rewrite repeat_length; exact N).
  assert (Forall (fun a => v <= a <= v) (repeat v n)) as W.
  { apply Forall_forall. intros a Ha. apply repeat_spec in Ha. subst. lra. }
  split.
  - unfold bernstein_test. rewrite no_nan, not_degenerate by exact L.
    assert (within (Fin v) (Fin v) (map Fin (repeat v n)) = true) as ->.
    { apply within_spec. eapply Forall_impl; [|exact W]. intros a [A B]. cbn. now rewrite !Rleb_spec. }
    cbn [negb nsub n0 nleb neqb xr_num xsub xadd xopp xleb xeqb py_assert bind].
    rewrite (proj2 (Rleb_spec 0 (v + - v))) by lra. rewrite (proj2 (Reqb_spec (v + - v) 0)) by ring. reflexivity.
  - rewrite (C56_error_bar sf ppf (repeat v n) v v c L ltac:(lra) W C). do 2 f_equal. unfold audibert, variance.
    assert (INR n <> 0) as NZ. { apply not_0_INR. lia. }
    rewrite repeat_length, Rsum_repeat.
    assert (Rsum (map (fun a => (a - INR n * v / INR n) * (a - INR n * v / INR n)) (repeat v n)) = 0) as ->.
    { replace (INR n * v / INR n) with v by (field; exact NZ).
      replace (map (fun a => (a - v) * (a - v)) (repeat v n)) with (repeat 0 n).
      - rewrite Rsum_repeat. ring.
      - clear. induction n; [reflexivity|]. cbn [repeat map]. rewrite <- IHn. f_equal. ring. }
    unfold Rdiv at 1. rewrite Rmult_0_l, sqrt_0, Rmult_0_l. field; lra.
Qed.
Print Assumptions C56_point_mass.

(** ** C57 *)

(** Student's t enters through its survival function [S] and quantile function
    [Q] only: [S] strictly decreasing and symmetric, [Q] its inverse. *)
Record t_like (S Q : R -> R) : Prop := {
  tl_decr : forall a b, a < b -> S b < S a;
  tl_sym : forall a, S (- a) = 1 - S a;
  tl_pos : forall a, 0 < S a;
  tl_inv : forall q, 0 < q < 1 -> S (Q q) = 1 - q
}.
Lemma t_like_dist S Q : t_like S Q -> t_dist S Q.
Proof. intros []. now constructor. Qed.

(** The standard error of the mean and the textbook statistics. *)
Definition stderr (l : list R) : R := sqrt (Rsum (map (fun a => (a - rmean l) * (a - rmean l)) l) / (INR (length l) - 1)) / sqrt (INR (length l)).
Definition dof {A} (l : list A) : Z := (Z.of_nat (length l) - 1)%Z.

Theorem C57_textbook :
  forall sf ppf l c, (2 <= length l)%nat -> 0 < c < 1 -> t_like (sf (dof l)) (ppf (dof l)) ->
  @t_EB _ _ (special sf ppf) (map Fin l) (Fin c) = Ok (Fin (ppf (dof l) ((1 + c) / 2) * stderr l)) /\
  (stderr l <> 0 ->
   @t_test _ _ (special sf ppf) (map Fin l) = Ok (Fin (2 * sf (dof l) (Rabs (Rsum l / INR (length l)) / stderr l)))) /\
  (stderr l = 0 ->
   @t_test _ _ (special sf ppf) (map Fin l) = Ok (Fin (if Req_EM_T (Rsum l) 0 then 1 else 0))).
Proof.
  intros sf ppf l c L C D. apply t_like_dist in D.
  assert (l <> []) as NE by (destruct l; [cbn in L; lia|discriminate]). pose proof (len_pos l NE).
  split; [exact (t_EB_form sf ppf l c L C D)|].
  pose proof (t_test_form sf ppf l L D) as E. change (t_scale l) with (stderr l) in E. unfold t_pvalue in E.
  split; intros S.
  - destruct (Req_EM_T (stderr l) 0); [contradiction|exact E].
  - destruct (Req_EM_T (stderr l) 0); [|contradiction]. unfold special. setoid_rewrite E. do 2 f_equal.
    unfold rmean. destruct (Req_EM_T (Rsum l) 0) as [Z|Z], (Req_EM_T (Rsum l / INR (length l)) 0) as [W|W]; auto; exfalso.
    + apply W. rewrite Z. unfold Rdiv. ring.
    + apply Z. replace (Rsum l) with (Rsum l / INR (length l) * INR (length l)) by (field; lra). rewrite W. ring.
Qed.
Print Assumptions C57_textbook.

Theorem C57_coherent :
  forall sf ppf l, (2 <= length l)%nat -> t_like (sf (dof l)) (ppf (dof l)) ->
  exists p, @t_test _ _ (special sf ppf) (map Fin l) = Ok (Fin p) /\ 0 <= p <= 1 /\
  forall c EB, 0 < c < 1 -> @t_EB _ _ (special sf ppf) (map Fin l) (Fin c) = Ok (Fin EB) ->
    (p < 1 - c <-> EB < Rabs (Rsum l / INR (length l))).
Proof.
  intros sf ppf l L D. apply t_like_dist in D. eexists. split; [exact (t_test_form sf ppf l L D)|]. split.
  - apply (t_pvalue_range _ (ppf (dof l))); [exact D|now apply t_scale_nonneg].
  - intros c EB C H. pose proof (t_EB_form sf ppf l c L C D) as F. change (@t_EB _ _ (FX sf ppf) (map Fin l) (Fin c)) with (@t_EB _ _ (special sf ppf) (map Fin l) (Fin c)) in F.
    rewrite F in H. apply Ok_inj in H. injection H as <-. exact (t_coherent _ _ (rmean l) _ c D (t_scale_nonneg l L) C).
Qed.
Print Assumptions C57_coherent.

(** No information about the scale: p = 1 and an infinite bar, whatever the
    special functions; for doubles too. *)
Theorem C57_degenerate :
  forall (FT : fn f64) x (c : f64),
  (length x <= 1)%nat \/ Exists (fun a => fisfin a = false) x -> Forall (fun a => fisnan a = false) x ->
  fltb f0 c = true -> fltb c (f_of_Z 1) = true ->
  t_test x = Ok (f_of_Z 1) /\ t_EB x c = Ok finf.
Proof.
  intros FT x c D N C1 C2.
  assert (existsb nisnan x = false) as E.
  { apply Bool.not_true_iff_false. rewrite existsb_exists. intros (v & H & Q). rewrite Forall_forall in N. rewrite N in Q; [discriminate|exact H]. }
  assert (degenerate x = true) as G.
  { unfold degenerate. apply orb_true_iff. destruct D as [D|D]; [left; apply Z.leb_le; lia|right]. apply negb_true_iff.
    apply Bool.not_true_iff_false. rewrite forallb_forall. intros K. apply Exists_exists in D as (v & H & Q). rewrite K in Q; [discriminate|exact H]. }
  unfold t_test, t_EB. rewrite E, G. cbn [nltb n0 n1 f64_num]. rewrite C1, C2. split; reflexivity.
Qed.
Print Assumptions C57_degenerate.

(** Likewise for the Bernstein bound, whose trivial bar is the range of the
    loss. *)
Theorem C56_degenerate :
  forall (FT : fn f64) x (lower upper c : f64),
  (length x <= 1)%nat \/ Exists (fun a => fisfin a = false) x -> Forall (fun a => fisnan a = false) x ->
  Forall (fun a => fleb lower a = true /\ fleb a upper = true) x -> fleb f0 (fsub upper lower) = true ->
  fltb f0 c = true -> fltb c (f_of_Z 1) = true ->
  bernstein_test x lower upper = Ok (f_of_Z 1) /\ bernstein_EB x lower upper c = Ok (fsub upper lower).
Proof.
  intros FT x lower upper c D N W R C1 C2.
  assert (existsb nisnan x = false) as E.
  { apply Bool.not_true_iff_false. rewrite existsb_exists. intros (v & H & Q). rewrite Forall_forall in N. rewrite N in Q; [discriminate|exact H]. }
  assert (degenerate x = true) as G.
  { unfold degenerate. apply orb_true_iff. destruct D as [D|D]; [left; apply Z.leb_le; lia|right]. apply negb_true_iff.
    apply Bool.not_true_iff_false. rewrite forallb_forall. intros K. apply Exists_exists in D as (v & H & Q). rewrite K in Q; [discriminate|exact H]. }
  assert (within lower upper x = true) as W'.
  { rewrite Forall_forall in W. unfold within. apply andb_true_iff. split; apply forallb_forall; intros v H; now apply W. }
  unfold bernstein_test, bernstein_EB. cbv zeta. rewrite E, G, W'. cbn [nltb nleb nsub n0 n1 f64_num]. rewrite R, C1, C2. split; reflexivity.
Qed.
Print Assumptions C56_degenerate.
Example C56_degenerate_example :
  milli (@bernstein_EB _ _ any_fn [lit 1 2] f0 (f_of_Z 3) (lit 95 100)) = Some 3000%Z /\
  milli (@bernstein_test _ _ any_fn [lit 1 2] f0 (f_of_Z 3)) = Some 1000%Z.
Proof. split; vm_compute; reflexivity. Qed.

(** And for the bootstrap, which then draws nothing. *)
Theorem C59_degenerate :
  forall (counts : list (list Z)) (x : list f64) (c : f64) n_boot,
  (length x <= 1)%nat \/ Exists (fun a => fisfin a = false) x -> Forall (fun a => fisnan a = false) x ->
  boot_test counts x n_boot = Ok (f_of_Z 1) /\ boot_EB counts x c n_boot = Ok finf /\
  _boot_EB_and_test counts x c n_boot true true true = Ok (finf, f_of_Z 1, (fninf, finf)).
Proof.
  intros counts x c nb D N.
  assert (existsb nisnan x = false) as E.
  { apply Bool.not_true_iff_false. rewrite existsb_exists. intros (v & H & Q). rewrite Forall_forall in N. rewrite N in Q; [discriminate|exact H]. }
  assert (degenerate x = true) as G.
  { unfold degenerate. apply orb_true_iff. destruct D as [D|D]; [left; apply Z.leb_le; lia|right]. apply negb_true_iff.
    apply Bool.not_true_iff_false. rewrite forallb_forall. intros K. apply Exists_exists in D as (v & H & Q). rewrite K in Q; [discriminate|exact H]. }
  unfold boot_test, boot_EB, _boot_EB_and_test. rewrite E, G. cbn [negb py_assert bind fst snd]. split; [|split]; reflexivity.
Qed.
Print Assumptions C59_degenerate.

(** Student's t with one degree of freedom (the Cauchy distribution) is an
    instance. *)
Definition cauchy_sf (x : R) : R := 1 / 2 - atan x / PI.
Definition cauchy_ppf (q : R) : R := tan (PI * (q - 1 / 2)).
Example C57_cauchy : t_like cauchy_sf cauchy_ppf.
Proof.
  pose proof PI_RGT_0 as P. constructor; unfold cauchy_sf, cauchy_ppf.
  - intros a b H. apply atan_increasing in H. apply Ropp_lt_contravar in H.
    apply (Rmult_lt_compat_r (/ PI)) in H; [|now apply Rinv_0_lt_compat]. unfold Rdiv. lra.
  - intros a. rewrite atan_opp. field. lra.
  - intros a. destruct (atan_bound a) as [_ B].
    apply (Rmult_lt_compat_r (/ PI)) in B; [|now apply Rinv_0_lt_compat].
    replace (PI / 2 * / PI) with (1 / 2) in B by (field; lra). unfold Rdiv at 2. lra.
  - intros q Q. rewrite atan_tan.
    + field. lra.
    + pose proof (Rmult_lt_compat_l PI 0 q P ltac:(lra)). pose proof (Rmult_lt_compat_l PI q 1 P ltac:(lra)). lra.
Qed.
Example C57_example :
  exists sf ppf (l : list R), (2 <= length l)%nat /\ t_like (sf (dof l)) (ppf (dof l)) /\ 0 < 95 / 100 < 1.
Proof. exists (fun _ => cauchy_sf), (fun _ => cauchy_ppf), [1; 2; 4]%R. split; [cbn; lia|]. split; [apply C57_cauchy|lra]. Qed.

(** ** C58 *)

Theorem C58_grows_with_confidence :
  forall sf ppf l c c', (2 <= length l)%nat -> 0 < c -> c < c' -> c' < 1 ->
  (t_like (sf (dof l)) (ppf (dof l)) ->
   exists e e', @t_EB _ _ (special sf ppf) (map Fin l) (Fin c) = Ok (Fin e) /\
                @t_EB _ _ (special sf ppf) (map Fin l) (Fin c') = Ok (Fin e') /\ e <= e' /\ (stderr l <> 0 -> e < e')) /\
  (forall lower upper, lower <= upper -> Forall (fun a => lower <= a <= upper) l ->
   exists e e', @bernstein_EB _ _ (special sf ppf) (map Fin l) (Fin lower) (Fin upper) (Fin c) = Ok (Fin e) /\
                @bernstein_EB _ _ (special sf ppf) (map Fin l) (Fin lower) (Fin upper) (Fin c') = Ok (Fin e') /\
                e <= e' /\ (lower < upper -> e < e')).
Proof.
  intros sf ppf l c c' L C0 CC C1. assert (l <> []) as NE by (destruct l; [cbn in L; lia|discriminate]). pose proof (len_pos l NE) as LP. split.
  - intros D. apply t_like_dist in D. eexists. eexists. split; [apply (t_EB_form sf ppf l c L ltac:(lra) D)|].
    split; [apply (t_EB_form sf ppf l c' L ltac:(lra) D)|].
    pose proof (t_q_mono _ _ c c' D ltac:(lra) ltac:(lra) CC) as M. pose proof (t_scale_nonneg l L) as S.
    split; [apply Rmult_le_compat_r; [exact S|apply Rlt_le, M]|].
    change (stderr l) with (t_scale l). intros NZ. apply Rmult_lt_compat_r; [lra|exact M].
  - intros lower upper LU W. eexists. eexists. split; [apply (C56_error_bar sf ppf l lower upper c L LU W ltac:(lra))|].
    split; [apply (C56_error_bar sf ppf l lower upper c' L LU W ltac:(lra))|].
    pose proof (conf_log_mono c c' C0 CC C1) as M. pose proof (conf_log_pos c ltac:(lra)) as P.
    unfold audibert. fold (conf_log c) (conf_log c').
    assert (sqrt (variance l) * sqrt (2 * conf_log c / INR (length l)) <= sqrt (variance l) * sqrt (2 * conf_log c' / INR (length l))) as A.
    { apply Rmult_le_compat_l; [apply sqrt_pos|]. apply sqrt_le_1_alt. apply Rmult_le_compat_r; [apply Rlt_le, Rinv_0_lt_compat, LP|lra]. }
    assert (0 < / INR (length l)) as I by now apply Rinv_0_lt_compat.
    split.
    + apply Rplus_le_compat; [exact A|]. apply Rmult_le_compat_r; [lra|]. apply Rmult_le_compat_r; lra.
    + intros S. apply Rplus_le_lt_compat; [exact A|]. apply Rmult_lt_compat_r; [lra|]. apply Rmult_lt_compat_r; lra.
Qed.
Print Assumptions C58_grows_with_confidence.

(** Replacing the data by k x + s (any k, any s): the mean follows, the bar is
    multiplied by |k|. *)
Theorem C58_equivariant :
  forall sf ppf l k s c, (2 <= length l)%nat -> 0 < c < 1 ->
  let l' := map (fun a => k * a + s) l in
  (exists m, nmean (map Fin l) = Fin m /\ nmean (map Fin l') = Fin (k * m + s)) /\
  (t_like (sf (dof l)) (ppf (dof l)) ->
   exists e, @t_EB _ _ (special sf ppf) (map Fin l) (Fin c) = Ok (Fin e) /\
             @t_EB _ _ (special sf ppf) (map Fin l') (Fin c) = Ok (Fin (Rabs k * e))) /\
  (forall lower upper, lower <= upper -> Forall (fun a => lower <= a <= upper) l ->
   let a := k * lower + s in let b := k * upper + s in
   exists e, @bernstein_EB _ _ (special sf ppf) (map Fin l) (Fin lower) (Fin upper) (Fin c) = Ok (Fin e) /\
             @bernstein_EB _ _ (special sf ppf) (map Fin l') (Fin (Rmin a b)) (Fin (Rmax a b)) (Fin c) = Ok (Fin (Rabs k * e))).
Proof.
  intros sf ppf l k s c L C l'. assert (l <> []) as NE by (destruct l; [cbn in L; lia|discriminate]). pose proof (len_pos l NE) as LP.
  assert (l' = affine k s l) as -> by reflexivity. assert (length (affine k s l) = length l) as EL by apply affine_length.
  assert (affine k s l <> []) as NE' by (intros Q; rewrite Q in EL; destruct l; [congruence|discriminate]).
  split; [|split].
  - exists (rmean l). split; [now apply nmean_r|]. rewrite (nmean_r _ NE'), rmean_affine by exact NE. reflexivity.
  - intros D. apply t_like_dist in D. eexists. split; [apply (t_EB_form sf ppf l c L C D)|].
    assert (2 <= length (affine k s l))%nat as L' by (rewrite EL; exact L).
    pose proof (t_EB_form sf ppf (affine k s l) c L' C) as F. rewrite EL in F.
    etransitivity; [exact (F D)|]. rewrite t_scale_affine by exact L. do 2 f_equal. ring.
  - intros lower upper LU W a b. eexists. split; [apply (bernstein_EB_form sf ppf l lower upper c L LU C W)|].
    assert (Rmax a b - Rmin a b = Rabs k * (upper - lower)) as ER.
    { unfold a, b, Rmax, Rmin. destruct (Rle_dec (k * lower + s) (k * upper + s)) as [Q|Q].
      - destruct (Rle_or_lt 0 k) as [K|K]; [rewrite Rabs_pos_eq by lra; ring|].
        rewrite Rabs_left by lra. assert (k * (upper - lower) = 0) by nra. lra.
      - assert (k < 0) by nra. rewrite Rabs_left by lra. ring. }
    assert (Forall (fun v => Rmin a b <= v <= Rmax a b) (affine k s l)) as W'.
    { apply Forall_forall. intros v Hv. apply in_map_iff in Hv as (u & <- & Hu). rewrite Forall_forall in W. specialize (W u Hu).
      unfold a, b, Rmax, Rmin. destruct (Rle_dec (k * lower + s) (k * upper + s)) as [Q|Q].
      - destruct (Rle_or_lt 0 k) as [K|K]; [split; nra|]. assert (upper = lower) by nra. subst. assert (u = lower) by lra. subst. lra.
      - assert (k < 0) by nra. split; nra. }
    assert (2 <= length (affine k s l))%nat as L' by (rewrite EL; exact L).
    assert (Rmin a b <= Rmax a b) as LU'. { apply Rle_trans with (1 := Rmin_l a b), Rmax_l. }
    etransitivity; [apply (bernstein_EB_form sf ppf (affine k s l) _ _ c L' LU' C W')|]. rewrite ER. do 2 f_equal.
    pose proof (conf_log_pos c C). rewrite !b_EB_coef by (auto; lra). apply b_coef_affine, NE.
Qed.
Print Assumptions C58_equivariant.

(** The p-values do not change when the data are rescaled (k <> 0). *)
Theorem C58_pvalues_scale_free :
  forall sf ppf l k, (2 <= length l)%nat -> k <> 0 ->
  let l' := map (fun a => k * a) l in
  (t_like (sf (dof l)) (ppf (dof l)) ->
   exists p, @t_test _ _ (special sf ppf) (map Fin l) = Ok (Fin p) /\ @t_test _ _ (special sf ppf) (map Fin l') = Ok (Fin p)) /\
  (forall lower upper, lower < upper -> Forall (fun a => lower <= a <= upper) l ->
   exists p, @bernstein_test _ _ (special sf ppf) (map Fin l) (Fin lower) (Fin upper) = Ok (Fin p) /\
             @bernstein_test _ _ (special sf ppf) (map Fin l') (Fin (Rmin (k * lower) (k * upper))) (Fin (Rmax (k * lower) (k * upper))) = Ok (Fin p)).
Proof.
  intros sf ppf l k L K l'. assert (l <> []) as NE by (destruct l; [cbn in L; lia|discriminate]). pose proof (len_pos l NE) as LP.
  assert (l' = affine k 0 l) as ->. { unfold l', affine. apply map_ext. intros a. ring. }
  assert (length (affine k 0 l) = length l) as EL by apply affine_length.
  assert (2 <= length (affine k 0 l))%nat as L' by (rewrite EL; exact L).
  assert (0 < Rabs k) as AK by now apply Rabs_pos_lt.
  assert (Rabs (rmean (affine k 0 l)) = Rabs k * Rabs (rmean l)) as EM.
  { rewrite rmean_affine, Rplus_0_r by exact NE. apply Rabs_mult. }
  split.
  - intros D. apply t_like_dist in D. eexists. split; [apply (t_test_form sf ppf l L D)|].
    pose proof (t_test_form sf ppf (affine k 0 l) L') as F. rewrite EL in F. etransitivity; [exact (F D)|]. do 2 f_equal.
    rewrite t_scale_affine by exact L. unfold t_pvalue. rewrite rmean_affine, Rplus_0_r by exact NE.
    destruct (Req_EM_T (t_scale l) 0) as [E|E], (Req_EM_T (Rabs k * t_scale l) 0) as [E'|E'].
    + destruct (Req_EM_T (rmean l) 0) as [M|M], (Req_EM_T (k * rmean l) 0) as [M'|M']; auto; exfalso; [apply M'; rewrite M; ring|].
      apply Rmult_integral in M' as [?|?]; contradiction.
    + exfalso. apply E'. rewrite E. ring.
    + exfalso. apply Rmult_integral in E' as [?|?]; lra.
    + do 2 f_equal. rewrite Rabs_mult. field. split; lra.
  - intros lower upper LU W. destruct (bernstein_test_form sf ppf l lower upper L LU W) as (z & Z & EZ & E).
    eexists. split; [exact E|].
    set (a := k * lower). set (b := k * upper).
    assert (Rmax a b - Rmin a b = Rabs k * (upper - lower)) as ER.
    { unfold a, b, Rmax, Rmin. destruct (Rle_dec (k * lower) (k * upper)) as [Q|Q].
      - assert (0 < k) by nra. rewrite Rabs_pos_eq by lra. ring.
      - assert (k < 0) by nra. rewrite Rabs_left by lra. ring. }
    assert (Forall (fun v => Rmin a b <= v <= Rmax a b) (affine k 0 l)) as W'.
    { apply Forall_forall. intros v Hv. apply in_map_iff in Hv as (u & <- & Hu). rewrite Forall_forall in W. specialize (W u Hu).
      unfold a, b, Rmax, Rmin. destruct (Rle_dec (k * lower) (k * upper)) as [Q|Q].
      - assert (0 < k) by nra. split; nra.
      - assert (k < 0) by nra. split; nra. }
    assert (Rmin a b < Rmax a b) as LU'. { assert (0 < Rabs k * (upper - lower)) by (apply Rmult_lt_0_compat; lra). lra. }
    destruct (bernstein_test_form sf ppf (affine k 0 l) _ _ L' LU' W') as (z' & Z' & EZ' & E').
    etransitivity; [exact E'|]. rewrite ER, b_coef_affine, EM in EZ' by exact NE. apply Rmult_eq_reg_l in EZ'; [|lra].
    assert (z' = z) as ->; [|reflexivity].
    destruct (Rtotal_order z' z) as [Q|[Q|Q]]; [exfalso|exact Q|exfalso].
    + apply (b_coef_mono l (upper - lower)) in Q; auto; lra.
    + apply (b_coef_mono l (upper - lower)) in Q; auto; lra.
Qed.
Print Assumptions C58_pvalues_scale_free.

Example C58_example : (2 <= length [1; 2; 4]%R)%nat /\ (exists S Q, t_like S Q) /\ Forall (fun a => 0 <= a <= 5) [1; 2; 4]%R /\ stderr [1; 2; 4]%R <> 0.
Proof.
  split; [cbn; lia|]. split; [exists cauchy_sf, cauchy_ppf; apply C57_cauchy|]. split; [repeat constructor; lra|].
  unfold stderr, rmean, Rsum. cbn [map fold_right length INR]. apply Rgt_not_eq. apply Rdiv_lt_0_compat; apply sqrt_lt_R0; lra.
Qed.

(** ** C59 *)

(** The bootstrap means that boot_EB and boot_test work with. *)
Definition bootstrap_means {T} {NT : num T} (counts : list (list Z)) (x : list T) (n_boot : Z) : res (list T) :=
  do w <- boot_weights counts (Z.of_nat (length x)) n_boot n0; Ok (map (weighted_mean x) w).

Theorem C59_means_in_range :
  forall l lo up n_boot counts, l <> [] -> Forall (fun a => lo <= a <= up) l ->
  (1 <= n_boot)%Z -> multinomial_outcome (Z.of_nat (length l)) n_boot counts ->
  exists ms, bootstrap_means counts (map Fin l) n_boot = Ok (map Fin ms) /\
             Z.of_nat (length ms) = n_boot /\ Forall (fun m => lo <= m <= up) ms.
Proof.
  intros l lo up n_boot counts NE W NB MO. destruct (boot_means_ok l n_boot counts NE MO NB) as [E R].
  exists (boot_means l counts). split; [unfold bootstrap_means; rewrite map_length; exact E|]. split.
  - unfold boot_means. rewrite map_length. exact (proj1 MO).
  - now apply boot_means_range.
Qed.
Print Assumptions C59_means_in_range.

(** The mean and bar come back unclipped. *)
Theorem C59_clipping_never_bites :
  forall sf ppf l lo up c counts, (2 <= length l)%nat -> Forall (fun a => lo <= a <= up) l -> 0 < c < 1 ->
  multinomial_outcome (Z.of_nat (length l)) 1000 counts ->
  let m := Rsum l / INR (length l) in
  exists e, boot_EB counts (map Fin l) (Fin c) 1000 = Ok (Fin e) /\ 0 <= e <= Rmax (up - m) (m - lo) /\
            @get_mean_and_EB _ _ (special sf ppf) counts (map Fin l) (Fin c) (Fin 0) (Fin lo) (Fin up) Mboot = Ok (Fin m, Fin e).
Proof.
  intros sf ppf l lo up c counts L W C MO m.
  assert (l <> []) as NE by (destruct l; [cbn in L; lia|discriminate]).
  destruct (boot_EB_form l 1000 counts L MO ltac:(lia) c C) as (e & E & P & F).
  destruct (boot_bar l 1000 counts L MO ltac:(lia) c C) as (e' & E' & _ & lb & ub & IL & IU & _ & V).
  rewrite F in E'. apply Ok_inj in E'. injection E' as <-.
  destruct (boot_means_ok l 1000 counts NE MO ltac:(lia)) as [_ RS].
  pose proof (boot_means_range l counts lo up W RS) as B. rewrite Forall_forall in B.
  pose proof (B lb IL) as BL. pose proof (B ub IU) as BU. pose proof (rmean_bounds l lo up NE W) as MB.
  change (rmean l) with m in *.
  assert (e <= Rmax (up - m) (m - lo)) as LE.
  { rewrite V. apply Rmax_lub; [eapply Rle_trans; [|apply Rmax_l]; lra|eapply Rle_trans; [|apply Rmax_r]; lra]. }
  exists e. split; [exact E|]. split; [split; assumption|].
  unfold get_mean_and_EB. assert (within (Fin lo) (Fin up) (map Fin l) = true) as ->.
  { apply within_spec. eapply Forall_impl; [|exact W]. intros a [A Z]. cbn. now rewrite !Rleb_spec. }
  cbn [py_assert bind]. change N_BOOT with 1000%Z. rewrite E. cbn [bind]. rewrite (nmean_r l NE). change (rmean l) with m.
  rewrite clip_chk_inside by (cbn; apply Rleb_spec; apply MB). cbn [bind].
  change (Fin 0) with (@n0 xr xr_num).
  rewrite clip_EB_total by (cbn; apply Rleb_spec; lra). cbn [bind]. do 3 f_equal.
  unfold nclip, xtrivial, nfmax. cbn [nltb nleb nsub nisnan n0 xr_num xltb xleb xsub xadd xopp orb].
  replace (Rltb e 0) with false; [|symmetry; apply Bool.not_true_iff_false; rewrite Rltb_spec; lra].
  assert (forall q, e <= q -> Rltb q e = false) as K. { intros q Q. apply Bool.not_true_iff_false. rewrite Rltb_spec. lra. }
  destruct (Rleb (m + - lo) (up + - m)) eqn:Q; cbn [orb xltb xisnan].
  - apply Rleb_spec in Q. rewrite K; [reflexivity|]. eapply Rle_trans; [exact LE|]. apply Rmax_lub; lra.
  - rewrite K; [reflexivity|]. assert (~ m + - lo <= up + - m) by (rewrite <- Rleb_spec; congruence).
     eapply Rle_trans; [exact LE|]. apply Rmax_lub; lra.
Qed.
Print Assumptions C59_clipping_never_bites.

(** Same draw, data k x + s (k > 0): the bar is multiplied by k; k = 1 is a
    shift. *)
Theorem C59_shift_and_scale :
  forall l k s c n_boot counts, (2 <= length l)%nat -> 0 < k -> 0 < c < 1 ->
  (1 <= n_boot)%Z -> multinomial_outcome (Z.of_nat (length l)) n_boot counts ->
  exists e, boot_EB counts (map Fin l) (Fin c) n_boot = Ok (Fin e) /\
            boot_EB counts (map Fin (map (fun a => k * a + s) l)) (Fin c) n_boot = Ok (Fin (k * e)).
Proof.
  intros l k s c n_boot counts L K C NB MO. assert (l <> []) as NE by (destruct l; [cbn in L; lia|discriminate]).
  change (map (fun a => k * a + s) l) with (affine k s l).
  assert (length (affine k s l) = length l) as EL by apply affine_length.
  assert (2 <= length (affine k s l))%nat as L' by (rewrite EL; exact L).
  assert (multinomial_outcome (Z.of_nat (length (affine k s l))) n_boot counts) as MO' by (rewrite EL; exact MO).
  destruct (boot_EB_form l n_boot counts L MO NB c C) as (e & E & P & F).
  destruct (boot_bar l n_boot counts L MO NB c C) as (e1 & E1 & _ & lb & ub & _ & _ & PC & V).
  rewrite F in E1. apply Ok_inj in E1. injection E1 as <-.
  destruct (boot_EB_form (affine k s l) n_boot counts L' MO' NB c C) as (e' & E' & _ & F').
  destruct (boot_bar (affine k s l) n_boot counts L' MO' NB c C) as (e1 & E1 & _ & lb' & ub' & _ & _ & PC' & V').
  rewrite F' in E1. apply Ok_inj in E1. injection E1 as <-.
  destruct (boot_means_ok l n_boot counts NE MO NB) as [_ RS].
  rewrite (boot_means_affine k s l counts RS) in PC'.
  pose proof (percentile_aff k s K _ _ _ _ PC) as Q. unfold affine in PC'. rewrite map_map in PC', Q. cbn [xaff] in Q.
  rewrite Q in PC'. apply Ok_inj in PC'. injection PC' as <- <-.
  exists e. split; [exact E|]. rewrite E'. do 2 f_equal. rewrite V, V', rmean_affine by exact NE.
  rewrite <- RmaxRmult by lra. f_equal; ring.
Qed.
Print Assumptions C59_shift_and_scale.

Example C59_example : Forall (fun a => 0 <= a <= 1) [1; 0; 1]%R /\ multinomial_outcome 3 1000 (repeat [2; 0; 1]%Z 1000).
Proof.
  split; [repeat constructor; lra|]. split; [reflexivity|]. apply Forall_forall. intros r H. apply repeat_spec in H. subst r.
  split; [reflexivity|]. split; [|reflexivity]. repeat constructor; lia.
Qed.

(** For doubles the summation can leave the range by rounding: three times 0.1. *)
Theorem C59_means_in_range_doubles_refuted :
  exists (x : list f64) up n_boot counts, Forall (fun a => fleb a up = true) x /\
  multinomial_outcome (Z.of_nat (length x)) n_boot counts /\
  match bootstrap_means counts x n_boot with Ok ms => existsb (fun m => fltb up m) ms = true | Err _ => False end.
Proof.
  exists (repeat (lit 1 10) 3), (lit 1 10), 1%Z, [[1; 1; 1]%Z]. split; [repeat (apply Forall_cons; [reflexivity|]); apply Forall_nil|].
  split; [|vm_compute; reflexivity]. split; [reflexivity|]. constructor; [|constructor]. split; [reflexivity|]. split; [|reflexivity].
  repeat constructor; lia.
Qed.
Print Assumptions C59_means_in_range_doubles_refuted.

(** ** C60 *)

(** The column labelled (metric, method). *)
Definition column {T} (t : loss_table_t T) (metric method : pystr) (x : list T) : Prop :=
  In ((metric, method), x) (lt_cols t) /\ forall y, In ((metric, method), y) (lt_cols t) -> y = x.
(** The limits of a metric, infinite by default. *)
Definition limits_of {T} {NT : num T} (limits : dict (T * T)) (metric : pystr) : T * T :=
  match dict_get limits metric with Some lim => lim | None => (nninf, ninf) end.

Lemma label_eqb_spec a b : label_eqb a b = true <-> a = b.
Proof.
  unfold label_eqb. rewrite andb_true_iff, !pystr_eqb_spec. destruct a, b; cbn [fst snd]. split; [intros [-> ->]; reflexivity|].
  intros H. injection H as -> ->. auto.
Qed.
Lemma select_column {T} (t : loss_table_t T) metric method x : select t (metric, method) = Ok x -> column t metric method x.
Proof.
  unfold select. intros H.
  assert (forall y, In ((metric, method), y) (lt_cols t) -> In ((metric, method), y) (filter (fun c => label_eqb (metric, method) (fst c)) (lt_cols t))) as K.
  { intros y Hy. apply filter_In. split; [exact Hy|]. now apply label_eqb_spec. }
  assert (forall c, In c (filter (fun c => label_eqb (metric, method) (fst c)) (lt_cols t)) -> In c (lt_cols t) /\ fst c = (metric, method)) as K2.
  { intros c Hc. apply filter_In in Hc as [A B]. apply label_eqb_spec in B. auto. }
  destruct (filter _ (lt_cols t)) as [|[k v] [|]]; try discriminate. apply Ok_inj in H. cbn [snd] in H. subst v.
  destruct (K2 (k, x) (or_introl eq_refl)) as [A B]. cbn [fst] in B. subst k. split; [exact A|].
  intros y Hy. destruct (K y Hy) as [E|[]]. now injection E.
Qed.
Lemma column_unique {T} (t : loss_table_t T) metric method x y : column t metric method x -> column t metric method y -> x = y.
Proof. intros [A _] [_ B]. now apply B. Qed.
Lemma get_test_pairwise {T} {NT : num T} {FT : fn T} counts (x : list T) c lo up m mu e p :
  get_mean_EB_test counts x c n0 lo up m = Ok (mu, e, p) ->
  m <> Mboot -> get_test counts x lo up m = Ok p.
Proof.
  unfold get_mean_EB_test, get_test. destruct (within lo up x); [|discriminate]. cbn [py_assert bind]. intros H B.
  destruct m; [| |contradiction|discriminate].
  - destruct (t_EB x c); [|discriminate]. cbn [bind] in *. destruct (t_test x); [|discriminate]. cbn [bind fst snd] in H.
    destruct (clip_chk _ _ _ _); [|discriminate]. cbn [bind] in H. destruct (clip_EB _ _ _ _ _); [|discriminate]. cbn [bind] in H.
    now inversion H.
  - destruct (bernstein_EB x lo up c); [|discriminate]. cbn [bind] in *. destruct (bernstein_test x lo up); [|discriminate]. cbn [bind fst snd] in H.
    destruct (clip_chk _ _ _ _); [|discriminate]. cbn [bind] in H. destruct (clip_EB _ _ _ _ _); [|discriminate]. cbn [bind] in H.
    now inversion H.
Qed.
Lemma get_test_pairwise_boot {T} {NT : num T} {FT : fn T} counts (x : list T) c lo up mu e p q :
  get_mean_EB_test counts x c n0 lo up Mboot = Ok (mu, e, p) -> get_test counts x lo up Mboot = Ok q -> q = p.
Proof.
  unfold get_mean_EB_test, get_test, boot_test, _boot_EB_and_test. destruct (within lo up x); [|discriminate]. cbn [py_assert bind].
  destruct (negb (existsb nisnan x)); [|discriminate]. cbn [py_assert bind]. destruct (degenerate x).
  - cbn [bind fst snd]. destruct (clip_chk _ _ _ _); [|discriminate]. cbn [bind]. destruct (clip_EB _ _ _ _ _); [|discriminate]. cbn [bind].
    destruct (nleb n0 n1 && nleb n1 n1); [|discriminate]. cbn [py_assert bind]. intros H G. apply Ok_inj in H. apply Ok_inj in G. congruence.
  - destruct (boot_weights _ _ _ _) as [w|]; [|discriminate]. cbn [bind]. destruct (significance _ _) as [s|]; [|discriminate]. cbn [bind].
    destruct (error_bar _ _ _); [|discriminate]. cbn [bind fst snd]. destruct (clip_chk _ _ _ _); [|discriminate]. cbn [bind].
    destruct (clip_EB _ _ _ _ _); [|discriminate]. cbn [bind].
    destruct (nleb n0 s && nleb s n1); [|discriminate]. cbn [py_assert bind]. intros H G. apply Ok_inj in H. apply Ok_inj in G. congruence.
Qed.

Section C60.
  Context {T : Type} {NT : num T} {FT : fn T}.

  (** Keys in order, and the content of every cell. *)
  Theorem C60_cells :
    forall draw (t : loss_table_t T) ref pairwise c m limits out,
    loss_summary_table draw t ref pairwise c m limits = Ok out ->
    map fst out = list_prod (lt_metrics t) (lt_methods t) /\
    forall metric method cl, In ((metric, method), cl) out ->
    exists loss loss_ref, column t metric method loss /\ column t metric ref loss_ref /\
      let (lower, upper) := limits_of limits metric in
      let range_ := nsub upper lower in
      let deltas := map2 nsub loss loss_ref in
      cell_mean cl = nmean loss /\
      (pairwise = false ->
        exists mu, get_mean_and_EB (draw metric method false) loss c n0 lower upper m = Ok (mu, cell_error cl)) /\
      (pairwise = true -> method <> ref ->
        exists mu, get_mean_EB_test (draw metric method false) deltas c n0 (nopp range_) range_ m = Ok (mu, cell_error cl, cell_pval cl)) /\
      (pairwise = false -> method <> ref ->
        get_test (draw metric method true) deltas (nopp range_) range_ m = Ok (cell_pval cl)) /\
      (method = ref -> cell_pval cl = nnan) /\
      (method = ref -> pairwise = true -> cell_error cl = nnan).
  Proof.
    intros draw t ref pw c m limits out H. destruct (table_inv draw t ref pw c m limits out H) as (_ & _ & _ & K & I).
    split; [exact K|]. intros metric method cl Hc. destruct (I metric method cl Hc) as (loss_ref & S & _ & _ & _ & C).
    unfold summary_cell in C. destruct (select t (metric, method)) as [loss|] eqn:SL; [|discriminate]. cbn [bind] in C.
    exists loss, loss_ref. split; [now apply select_column|]. split; [now apply select_column|].
    change (limits_of limits metric) with (lims limits metric). destruct (lims limits metric) as [lower upper]. cbn [fst snd] in C. cbv zeta in C |- *.
    destruct (negb (existsb nisnan loss)); [|discriminate]. cbn [py_assert bind] in C.
    destruct (within lower upper loss); [|discriminate]. cbn [py_assert bind] in C.
    destruct (pystr_eqb method ref) eqn:E.
    - apply pystr_eqb_spec in E. destruct pw.
      + apply Ok_inj in C. subst cl. cbn. repeat split; try congruence; intros; try contradiction.
      + destruct (get_mean_and_EB _ loss c n0 lower upper m) as [[mu e]|] eqn:G; [|discriminate]. cbn [bind fst snd] in C.
        destruct (neqb mu (nmean loss)); [|discriminate]. cbn [py_assert bind] in C. apply Ok_inj in C. subst cl. cbn.
        repeat split; try congruence; intros; try contradiction. eauto.
    - assert (method <> ref) as NE. { intros Q. apply pystr_eqb_spec in Q. congruence. } destruct pw.
      + destruct (get_mean_EB_test _ _ c n0 _ _ m) as [[[mu e] p]|] eqn:G; [|discriminate]. cbn [bind fst snd] in C.
        apply Ok_inj in C. subst cl. cbn. repeat split; try congruence; intros; try contradiction. eauto.
      + destruct (get_mean_and_EB _ loss c n0 lower upper m) as [[mu e]|] eqn:G; [|discriminate]. cbn [bind fst snd] in C.
        destruct (neqb mu (nmean loss)); [|discriminate]. cbn [py_assert bind] in C.
        destruct (get_test _ _ _ _ m) as [p|] eqn:GT; [|discriminate]. cbn [bind] in C.
        apply Ok_inj in C. subst cl. cbn. repeat split; try congruence; intros; try contradiction; eauto.
  Qed.

  (** Nothing but its own column, the reference column, the limits of its
      metric and its own draws influences a cell. *)
  Theorem C60_local :
    forall draw draw' (t t' : loss_table_t T) ref pairwise c m limits limits' out out' metric method cl cl',
    loss_summary_table draw t ref pairwise c m limits = Ok out ->
    loss_summary_table draw' t' ref pairwise c m limits' = Ok out' ->
    In ((metric, method), cl) out -> In ((metric, method), cl') out' ->
    (forall x, column t metric method x <-> column t' metric method x) ->
    (forall x, column t metric ref x <-> column t' metric ref x) ->
    limits_of limits metric = limits_of limits' metric ->
    (forall b, draw metric method b = draw' metric method b) ->
    cl = cl'.
  Proof.
    intros draw draw' t t' ref pw c m limits limits' out out' metric method cl cl' H H' I I' CM CR EL ED.
    destruct (C60_cells _ _ _ _ _ _ _ _ H) as [_ K]. destruct (C60_cells _ _ _ _ _ _ _ _ H') as [_ K'].
    destruct (K _ _ _ I) as (x & r & X & R & D). destruct (K' _ _ _ I') as (x' & r' & X' & R' & D'). clear K K'.
    apply CM in X. apply CR in R. rewrite (column_unique _ _ _ _ _ X X') in D. rewrite (column_unique _ _ _ _ _ R R') in D.
    rewrite EL in D. destruct (limits_of limits' metric) as [lower upper]. cbv zeta in D, D'. rewrite !ED in D.
    destruct D as (D1 & D2 & D3 & D4 & D5 & D6), D' as (E1 & E2 & E3 & E4 & E5 & E6).
    assert (method = ref \/ method <> ref) as S.
    { destruct (pystr_eqb method ref) eqn:Q; [left; now apply pystr_eqb_spec|right; intros Z; apply pystr_eqb_spec in Z; congruence]. }
    destruct cl as [a b p], cl' as [a' b' p']. cbn [cell_mean cell_error cell_pval] in *. subst a a'.
    destruct pw, S as [S|S].
    - rewrite D5, D6, E5, E6 by auto. reflexivity.
    - destruct (D3 eq_refl S) as [u U]. destruct (E3 eq_refl S) as [v V]. rewrite U in V. apply Ok_inj in V. now inversion V.
    - rewrite D5, E5 by auto. destruct (D2 eq_refl) as [u U]. destruct (E2 eq_refl) as [v V]. rewrite U in V. apply Ok_inj in V. now inversion V.
    - pose proof (D4 eq_refl S) as P. rewrite (E4 eq_refl S) in P. apply Ok_inj in P.
      destruct (D2 eq_refl) as [u U]. destruct (E2 eq_refl) as [v V]. rewrite U in V. apply Ok_inj in V. inversion V. now subst.
  Qed.

  (** The mean and the p-value do not depend on [pairwise_CI] (for the
      bootstrap: given that the same counts are drawn). *)
  Theorem C60_pairwise_only_changes_error :
    forall draw draw' (t : loss_table_t T) ref c m limits out out' metric method cl cl',
    loss_summary_table draw t ref true c m limits = Ok out ->
    loss_summary_table draw' t ref false c m limits = Ok out' ->
    In ((metric, method), cl) out -> In ((metric, method), cl') out' ->
    (m = Mboot -> draw metric method false = draw' metric method true) ->
    cell_mean cl = cell_mean cl' /\ cell_pval cl = cell_pval cl'.
  Proof.
    intros draw draw' t ref c m limits out out' metric method cl cl' H H' I I' ED.
    destruct (C60_cells _ _ _ _ _ _ _ _ H) as [_ K]. destruct (C60_cells _ _ _ _ _ _ _ _ H') as [_ K'].
    destruct (K _ _ _ I) as (x & r & X & R & D). destruct (K' _ _ _ I') as (x' & r' & X' & R' & D'). clear K K'.
    rewrite (column_unique _ _ _ _ _ X X') in D. rewrite (column_unique _ _ _ _ _ R R') in D.
    destruct (limits_of limits metric) as [lower upper]. cbv zeta in D, D'.
    destruct D as (D1 & D2 & D3 & D4 & D5 & D6), D' as (E1 & E2 & E3 & E4 & E5 & E6).
    split; [congruence|].
    destruct (pystr_eqb method ref) eqn:Q.
    - apply pystr_eqb_spec in Q. rewrite D5, E5 by exact Q. reflexivity.
    - assert (method <> ref) as NE. { intros Z. apply pystr_eqb_spec in Z. congruence. }
      destruct (D3 eq_refl NE) as [u U]. pose proof (E4 eq_refl NE) as V.
      assert (m = Mboot \/ m <> Mboot) as [B|B] by (destruct m; auto; right; discriminate).
      + subst m. rewrite (ED eq_refl) in U. symmetry. exact (get_test_pairwise_boot _ _ _ _ _ _ _ _ _ U V).
      + pose proof (get_test_pairwise _ _ _ _ _ _ _ _ _ U B) as W.
        assert (get_test (draw metric method false) (map2 nsub x' r') (nopp (nsub upper lower)) (nsub upper lower) m =
                get_test (draw' metric method true) (map2 nsub x' r') (nopp (nsub upper lower)) (nsub upper lower) m) as Z.
        { destruct m; [reflexivity|reflexivity|contradiction|reflexivity]. }
        rewrite Z, V in W. apply Ok_inj in W. congruence.
  Qed.
End C60.
Print Assumptions C60_cells.
Print Assumptions C60_local.
Print Assumptions C60_pairwise_only_changes_error.

(** Two metrics, two methods, pairwise; every theorem above applies. *)
Definition show_cell (cl : cell f64) : Z * bool * bool :=
  (ftruncZ (fmul (cell_mean cl) (f_of_Z 100)), fisnan (cell_error cl), fisnan (cell_pval cl)).
Definition show_table (r : res (list ((pystr * pystr) * cell f64))) : res (list ((pystr * pystr) * (Z * bool * bool))) :=
  match r with Ok l => Ok (map (fun kc => (fst kc, show_cell (snd kc))) l) | Err e => Err e end.
Definition mA : pystr := ["a"%char]. Definition mB : pystr := ["b"%char]. Definition mL : pystr := ["l"%char].
Definition small_table (xa xb : list f64) : loss_table_t f64 :=
  {| lt_metrics := [mL]; lt_methods := [mA; mB]; lt_len := length xa;
     lt_cols := [((mL, mA), xa); ((mL, mB), xb)] |}.
Example C60_example :
  show_table (@loss_summary_table _ _ any_fn (fun _ _ _ => []) (small_table [f_of_Z 1] [f_of_Z 3]) mA true (lit 95 100) Mt []) =
    Ok [((mL, mA), (100%Z, true, true)); ((mL, mB), (300%Z, false, false))] /\
  show_table (@loss_summary_table _ _ any_fn (fun _ _ _ => []) (small_table [f_of_Z 1] [f_of_Z 3]) mA false (lit 95 100) Mt []) =
    Ok [((mL, mA), (100%Z, false, true)); ((mL, mB), (300%Z, false, false))].
Proof. vm_compute. split; reflexivity. Qed.

(** ** C61, C62 *)

Definition mixed_infinities (x : list xr) : Prop := In PInf x /\ In NInf x.
(** Some row has the same infinity in both columns. *)
Definition clash (x y : list xr) : Prop :=
  exists i v, nth_error x i = Some v /\ nth_error y i = Some v /\ (v = PInf \/ v = NInf).

(** A complete table without NaN, all losses within the limits of their
    metric. *)
Definition proper_table (t : loss_table_t xr) (ref : pystr) (limits : dict (xr * xr)) : Prop :=
  In ref (lt_methods t) /\ lt_metrics t <> [] /\ (1 <= lt_len t)%nat /\ NoDup (map fst (lt_cols t)) /\
  forall metric, In metric (lt_metrics t) ->
    let (lower, upper) := limits_of limits metric in
    nleb (Fin 0) (nsub upper lower) = true /\
    forall method, In method (lt_methods t) ->
    exists x, column t metric method x /\ length x = lt_len t /\
              Forall (fun v => v <> NaN /\ nleb lower v = true /\ nleb v upper = true) x.

Lemma nodup_filter {K V} (eqb : K -> bool) (l : list (K * V)) k v :
  (forall k', eqb k' = true <-> k' = k) -> NoDup (map fst l) -> In (k, v) l -> filter (fun c => eqb (fst c)) l = [(k, v)].
Proof.
  intros S. induction l as [|[k' v'] l IH]; intros N I; [destruct I|]. inversion N as [|? ? NI N']; subst. cbn [filter fst].
  destruct I as [I|I].
  - injection I as -> ->. rewrite (proj2 (S k) eq_refl). f_equal.
    assert (forall c, In c l -> eqb (fst c) = false) as F.
    { intros c Hc. apply Bool.not_true_iff_false. intros Q. apply S in Q. apply NI. cbn [fst]. rewrite <- Q. now apply in_map. }
    clear -F. induction l as [|c l IH]; [reflexivity|]. cbn [filter]. rewrite (F c (or_introl eq_refl)). apply IH. intros d D. apply F. now right.
  - assert (eqb k' = false) as ->; [|now apply IH].
    apply Bool.not_true_iff_false. intros Q. apply S in Q. apply NI. cbn [fst]. rewrite Q. change k with (fst (k, v)). now apply in_map.
Qed.
Lemma column_select {T} (t : loss_table_t T) metric method x :
  NoDup (map fst (lt_cols t)) -> column t metric method x -> select t (metric, method) = Ok x.
Proof.
  intros N [I _]. unfold select. rewrite (nodup_filter (label_eqb (metric, method)) (lt_cols t) (metric, method) x); [reflexivity| |exact N|exact I].
  intros k'. rewrite label_eqb_spec. split; congruence.
Qed.
Lemma delta_nan_clash (x y : list xr) : Forall (fun v => v <> NaN) x -> Forall (fun v => v <> NaN) y ->
  (existsb nisnan (map2 nsub x y) = true <-> clash x y).
Proof.
  intros Nx. revert y. induction Nx as [|a x A Nx IH]; intros [|b y] Ny; cbn [map2 existsb].
  - split; [discriminate|]. intros (i & v & H & _). destruct i; discriminate.
  - split; [discriminate|]. intros (i & v & H & _). destruct i; discriminate.
  - split; [discriminate|]. intros (i & v & _ & H & _). destruct i; discriminate.
  - inversion Ny as [|? ? B Ny']; subst. rewrite orb_true_iff, (IH y Ny').
    assert (nisnan (nsub a b) = true <-> a = b /\ (a = PInf \/ a = NInf)) as ->.
    { destruct a, b; cbn; try (now exfalso; apply A); try (now exfalso; apply B); split; try discriminate; try (intros [? [?|?]]; discriminate); auto. }
    split.
    + intros [[E Q]|(i & v & P & Q & W)]; [exists 0%nat, a; subst b; cbn; auto|exists (S i), v; cbn; auto].
    + intros ([|i] & v & P & Q & W); cbn in P, Q.
      * left. injection P as ->. injection Q as ->. auto.
      * right. exists i, v. auto.
Qed.
Lemma tame_mixed (x : list xr) : existsb nisnan x = false -> (tame x = true <-> ~ mixed_infinities x).
Proof.
  intros N. rewrite tame_spec. unfold mixed_infinities. rewrite <- hasP_in, <- hasN_in. rewrite N.
  destruct (hasP x), (hasN x); cbn [andb]; split; auto; try (intros [_ Q]; discriminate Q).
  - intros Q. exfalso. apply Q. auto.
  - intros _ [_ Q]. discriminate Q.
  - intros _ [Q _]. discriminate Q.
  - intros _ [Q _]. discriminate Q.
Qed.
Lemma notnan_existsb (x : list xr) : Forall (fun v => v <> NaN) x -> existsb nisnan x = false.
Proof. induction 1 as [|v x A F IH]; [reflexivity|]. cbn [existsb]. rewrite IH. destruct v; cbn; auto. contradiction. Qed.

Section C61.
  Context (sf ppf : Z -> R -> R) (t_functions : forall df, (1 <= df)%Z -> t_like (sf df) (ppf df)).
  Notation summary := (@loss_summary_table _ _ (special sf ppf)).

  (** Which tables are accepted, exactly: without the pairwise intervals no
      column may mix both infinities, and (in both modes) no method may share an
      infinite loss of the same sign with the reference on the same row. *)
  Theorem C61_accepted_iff :
    forall draw t ref pairwise c m limits, proper_table t ref limits -> m <> Mother -> 0 < c < 1 ->
    (forall metric method b, multinomial_outcome (Z.of_nat (lt_len t)) 1000 (draw metric method b)) ->
    ((exists out, summary draw t ref pairwise (Fin c) m limits = Ok out) <->
     forall metric method loss loss_ref, In metric (lt_metrics t) -> In method (lt_methods t) ->
       column t metric method loss -> column t metric ref loss_ref ->
       (pairwise = false -> ~ mixed_infinities loss) /\
       (method <> ref -> ~ clash loss loss_ref) /\
       (pairwise = true -> method <> ref -> ~ mixed_infinities (map2 nsub loss loss_ref))).
  Proof.
    intros draw t ref pw c m limits (RI & MN & LN & ND & P) M C G.
    assert (forall df, (1 <= df)%Z -> t_dist (sf df) (ppf df)) as TD by (intros df D; apply t_like_dist, t_functions, D).
    assert (real_method m = true) as RM by (destruct m; [reflexivity|reflexivity|reflexivity|contradiction]).
    (* per cell *)
    assert (forall metric method, In metric (lt_metrics t) -> In method (lt_methods t) ->
      exists loss loss_ref, column t metric method loss /\ column t metric ref loss_ref /\
        select t (metric, method) = Ok loss /\ select t (metric, ref) = Ok loss_ref /\
        existsb nisnan loss_ref = false /\ within (fst (lims limits metric)) (snd (lims limits metric)) loss_ref = true /\
        nleb (fst (lims limits metric)) (snd (lims limits metric)) = true /\
        (cell_accepted pw (pystr_eqb method ref) loss loss_ref = true <->
          (pw = false -> ~ mixed_infinities loss) /\ (method <> ref -> ~ clash loss loss_ref) /\
          (pw = true -> method <> ref -> ~ mixed_infinities (map2 nsub loss loss_ref))) /\
        (if cell_accepted pw (pystr_eqb method ref) loss loss_ref
         then exists r, @summary_cell _ _ (special sf ppf) draw t ref pw (Fin c) m metric (fst (lims limits metric)) (snd (lims limits metric)) loss_ref method = Ok r
         else @summary_cell _ _ (special sf ppf) draw t ref pw (Fin c) m metric (fst (lims limits metric)) (snd (lims limits metric)) loss_ref method = Err AssertionError)) as CELL.
    { intros metric method Hm Hd. specialize (P metric Hm). change (limits_of limits metric) with (lims limits metric) in P.
      destruct (lims limits metric) as [lo up]. cbn [fst snd]. destruct P as [R P].
      destruct (P method Hd) as (x & CX & LX & FX). destruct (P ref RI) as (y & CY & LY & FY).
      exists x, y.
      assert (forall z, Forall (fun v => v <> NaN /\ nleb lo v = true /\ nleb v up = true) z ->
         Forall (fun v => v <> NaN) z /\ within lo up z = true) as SPLIT.
      { intros z Z. split; [eapply Forall_impl; [|exact Z]; tauto|]. unfold within.
        rewrite Forall_forall in Z. apply andb_true_iff. split; apply forallb_forall; intros v Hv; now apply Z. }
      destruct (SPLIT x FX) as [NX WX]. destruct (SPLIT y FY) as [NY WY].
      assert (x <> []) as XN by (intros ->; cbn in LX; lia).
      split; [exact CX|]. split; [exact CY|]. split; [now apply column_select|]. split; [now apply column_select|].
      split; [now apply notnan_existsb|]. split; [exact WY|]. split; [|split; [split; [intros H; split; [|split]|]|]].
      - destruct y as [|v y]; [cbn in LY; lia|]. inversion FY as [|? ? (A & B & D) _]; subst.
        destruct lo, v, up; cbn in *; try discriminate; try reflexivity; try contradiction.
        rewrite Rleb_spec in *. lra.
      - revert H. unfold cell_accepted. destruct (pystr_eqb method ref) eqn:Q.
        + destruct pw; cbn [orb]; [discriminate|]. rewrite andb_true_r. intros T _. exact (proj1 (tame_mixed x (notnan_existsb x NX)) T).
        + intros H E. subst pw. apply andb_true_iff in H as [T _]. exact (proj1 (tame_mixed x (notnan_existsb x NX)) T).
      - intros NE. assert (pystr_eqb method ref = false) as Q by (apply Bool.not_true_iff_false; rewrite pystr_eqb_spec; exact NE).
        unfold cell_accepted in H. rewrite Q in H. cbn [orb] in H. rewrite <- delta_nan_clash by assumption.
        destruct pw; [apply tame_spec in H as [-> _]; discriminate|]. apply andb_true_iff in H as [_ H]. apply negb_true_iff in H. rewrite H. discriminate.
      - intros E NE. assert (pystr_eqb method ref = false) as Q by (apply Bool.not_true_iff_false; rewrite pystr_eqb_spec; exact NE).
        unfold cell_accepted in H. rewrite Q, E in H. cbn [orb] in H. apply tame_mixed; [|exact H]. now apply tame_spec in H.
      - intros (A & B & D). unfold cell_accepted. destruct (pystr_eqb method ref) eqn:Q.
        + destruct pw; [reflexivity|]. cbn [orb]. rewrite andb_true_r. apply tame_mixed; [now apply notnan_existsb|auto].
        + assert (method <> ref) as NE by (intros Z; apply pystr_eqb_spec in Z; congruence). cbn [orb].
          assert (existsb nisnan (map2 nsub x y) = false) as ND'.
          { apply Bool.not_true_iff_false. rewrite delta_nan_clash by assumption. now apply B. }
          destruct pw; [apply tame_mixed; auto|]. rewrite ND', andb_true_r. apply tame_mixed; [now apply notnan_existsb|auto].
      - apply (summary_cell_exact sf ppf TD); auto.
        + now apply column_select.
        + congruence.
        + intros b. unfold good_draw. rewrite LX. apply G. }
    split.
    - intros [out H] metric method loss loss_ref Hm Hd CL CR.
      destruct (CELL metric method Hm Hd) as (x & y & CX & CY & SX & SY & _ & _ & _ & IFF & RES).
      rewrite (column_unique _ _ _ _ _ CL CX), (column_unique _ _ _ _ _ CR CY). apply IFF.
      destruct (cell_accepted pw (pystr_eqb method ref) x y); [reflexivity|exfalso].
      destruct (table_inv _ _ _ _ _ _ _ _ H) as (_ & _ & _ & K & I).
      assert (In (metric, method) (map fst out)) as IN by (rewrite K; apply in_prod; assumption).
      apply in_map_iff in IN as ([k cl] & E & IN). cbn [fst] in E. subst k.
      destruct (I metric method cl IN) as (y' & SY' & _ & _ & _ & C'). rewrite SY in SY'. apply Ok_inj in SY'. subst y'. congruence.
    - intros ACC. apply (@table_total _ _ (special sf ppf) draw t ref pw (Fin c) m limits).
      + apply existsb_exists. exists ref. split; [exact RI|]. now apply pystr_eqb_spec.
      + exact LN.
      + exact MN.
      + intros metric Hm. destruct (CELL metric ref Hm RI) as (_ & y & _ & CY & _ & SY & NY & WY & LE & _).
        split; [exact LE|]. exists y. split; [exact SY|]. split; [exact NY|]. split; [exact WY|].
        intros method Hd. destruct (CELL metric method Hm Hd) as (x & y' & CX & CY' & SX & SY' & _ & _ & _ & IFF & RES).
        rewrite SY in SY'. apply Ok_inj in SY'. subst y'.
        rewrite (proj2 IFF) in RES; [exact RES|]. now apply (ACC metric method).
  Qed.

  (** In particular +inf losses of a method against finite reference losses
      are fine in both modes. *)
  Theorem C61_infinite_against_finite :
    forall draw t ref pairwise c m limits, proper_table t ref limits -> m <> Mother -> 0 < c < 1 ->
    (forall metric method b, multinomial_outcome (Z.of_nat (lt_len t)) 1000 (draw metric method b)) ->
    (forall metric method x, column t metric method x -> ~ In NInf x) ->
    (forall metric x, column t metric ref x -> ~ In PInf x) ->
    exists out, summary draw t ref pairwise (Fin c) m limits = Ok out.
  Proof.
    intros draw t ref pw c m limits P M C G NN NP. apply C61_accepted_iff; auto.
    intros metric method x y _ _ CX CY. split; [intros _ [_ Q]; now apply (NN _ _ _ CX)|]. split.
    - intros _ (i & v & A & B & [E|E]); subst v.
      + apply (NP _ _ CY). eapply nth_error_In, B.
      + apply (NN _ _ _ CX). eapply nth_error_In, A.
    - intros _ _ [_ Q]. pose proof (NN _ _ _ CX) as A. pose proof (NP _ _ CY) as B.
      clear -A B Q. revert y B Q. induction x as [|a x IH]; intros [|b y] B Q; cbn [map2] in Q; try (destruct Q; fail).
      destruct Q as [Q|Q].
      + destruct a, b; cbn in Q; try discriminate; first [apply B; now left|apply A; now left].
      + apply (IH ltac:(intros H; apply A; now right) y ltac:(intros H; apply B; now right) Q).
  Qed.

  (** C62: finite losses within their limits are always accepted. *)
  Theorem C62_within_limits_accepted :
    forall draw t ref pairwise c m limits, proper_table t ref limits -> m <> Mother -> 0 < c < 1 ->
    (forall metric method b, multinomial_outcome (Z.of_nat (lt_len t)) 1000 (draw metric method b)) ->
    (forall metric method x, column t metric method x -> exists l, x = map Fin l) ->
    exists out, summary draw t ref pairwise (Fin c) m limits = Ok out.
  Proof.
    intros draw t ref pw c m limits P M C G FN. apply C61_infinite_against_finite; auto.
    - intros metric method x CX Q. destruct (FN _ _ _ CX) as [l ->]. apply in_map_iff in Q as (? & ? & _). discriminate.
    - intros metric x CX Q. destruct (FN _ _ _ CX) as [l ->]. apply in_map_iff in Q as (? & ? & _). discriminate.
  Qed.
End C61.
Print Assumptions C61_accepted_iff.
Print Assumptions C61_infinite_against_finite.
Print Assumptions C62_within_limits_accepted.

Example C61_example :
  exists t limits, proper_table t mA limits /\ (forall metric method x, column t metric method x -> ~ In NInf x) /\
    (forall metric x, column t metric mA x -> ~ In PInf x) /\ exists x, column t mL mB x /\ In PInf x.
Proof.
  exists {| lt_metrics := [mL]; lt_methods := [mA; mB]; lt_len := 2; lt_cols := [((mL, mA), [Fin 1; Fin 2]); ((mL, mB), [PInf; Fin 1])] |}, [].
  assert (forall (ys xs : list xr) metric method x, column {| lt_metrics := [mL]; lt_methods := [mA; mB]; lt_len := 2; lt_cols := [((mL, mA), xs); ((mL, mB), ys)] |} metric method x ->
    (method = mA /\ x = xs) \/ (method = mB /\ x = ys)) as K.
  { intros ys xs metric method x [[H|[H|[]]] _]; injection H as <- <- <-; auto. }
  split; [|split; [|split]].
  - split; [now left|]. split; [discriminate|]. split; [cbn; lia|]. split.
    { cbn. repeat constructor; cbn; try tauto. intros [H|[]]. discriminate. }
    intros metric [<-|[]]. cbn [limits_of dict_get]. split; [reflexivity|]. intros method [<-|[<-|[]]].
    + exists [Fin 1; Fin 2]. split; [split; [now left|]|split; [reflexivity|]].
      * intros y [H|[H|[]]]; now inversion H.
      * repeat constructor; discriminate.
    + exists [PInf; Fin 1]. split; [split; [right; now left|]|split; [reflexivity|]].
      * intros y [H|[H|[]]]; now inversion H.
      * repeat constructor; discriminate.
  - intros metric method x H. apply K in H as [[_ ->]|[_ ->]]; cbn; intuition discriminate.
  - intros metric x H. apply K in H as [[_ ->]|[Q ->]]; cbn; [intuition discriminate|discriminate].
  - exists [PInf; Fin 1]. split; [|now left]. split; [right; now left|]. intros y [H|[H|[]]]; now inversion H.
Qed.

(** C61 as first stated is false: a method and the reference that both have an
    infinite loss on the same row make the table fail, whatever the special
    functions, in both modes (doubles). *)
Theorem C61_infinite_losses_refuted :
  exists t : loss_table_t f64,
  Forall (fun c => Forall (fun v => fisnan v = false) (snd c)) (lt_cols t) /\
  forall (FT : fn f64) draw pairwise m, m <> Mother ->
    loss_summary_table draw t mA pairwise (lit 95 100) m [] = Err AssertionError.
Proof.
  exists (small_table [finf; f_of_Z 1] [finf; f_of_Z 2]). split.
  - repeat (apply Forall_cons; [repeat (apply Forall_cons; [reflexivity|]); apply Forall_nil|]). apply Forall_nil.
  - intros FT draw pw m M. destruct pw, m; try contradiction; vm_compute; reflexivity.
Qed.
Print Assumptions C61_infinite_losses_refuted.

(** C62 is false for doubles: three losses 0.1 with limits (0, 0.1) have the
    computed mean 0.10000000000000002, which is clipped to 0.1, and the
    comparison of the two means fails. *)
Theorem C62_within_limits_doubles_refuted :
  exists (t : loss_table_t f64) lower upper,
  Forall (fun c => Forall (fun v => fleb lower v = true /\ fleb v upper = true) (snd c)) (lt_cols t) /\
  forall (FT : fn f64) draw c e, t_EB (repeat (lit 1 10) 3) c = Ok e ->
    loss_summary_table draw t mA false c Mt [(mL, (lower, upper))] = Err AssertionError.
Proof.
  exists (small_table (repeat (lit 1 10) 3) (repeat (lit 1 10) 3)), f0, (lit 1 10). split.
  - repeat (apply Forall_cons; [repeat (apply Forall_cons; [split; reflexivity|]); apply Forall_nil|]). apply Forall_nil.
  - intros FT draw c e E. set (x := repeat (lit 1 10) 3) in *.
    assert (clip_chk isclose (nmean x) f0 (lit 1 10) = Ok (lit 1 10)) as CC.
    { unfold clip_chk, nclip.
      replace (nltb (nmean x) f0) with false by (vm_compute; reflexivity).
      replace (nltb (lit 1 10) (nmean x)) with true by (vm_compute; reflexivity).
      replace (neqb (nmean x) (lit 1 10) || isclose (nmean x) f0 || isclose (nmean x) (lit 1 10)) with true by (vm_compute; reflexivity).
      reflexivity. }
    assert (within f0 (lit 1 10) x = true) as W by (vm_compute; reflexivity).
    assert (negb (existsb nisnan x) = true) as N by (vm_compute; reflexivity).
    assert (select (small_table x x) (mL, mA) = Ok x) as S by reflexivity.
    assert (summary_cell draw (small_table x x) mA false c Mt mL f0 (lit 1 10) x mA = Err AssertionError) as SC.
    { unfold summary_cell. rewrite S. cbn [bind]. rewrite N, W. cbn [py_assert bind].
      unfold get_mean_and_EB. rewrite W. cbn [py_assert bind]. rewrite E. cbn [bind]. rewrite CC. cbn [bind].
      rewrite clip_EB_unfold by (repeat split; vm_compute; reflexivity).
      replace (fltb (lit 1 10) f0 || fltb (lit 1 10) (lit 1 10)) with false by (vm_compute; reflexivity).
      replace (fltb (fsub (lit 1 10) f0) (fmul (f_of_Z 2) n0)) with false by (vm_compute; reflexivity).
      replace (fltb (trivial_EB (lit 1 10) f0 (lit 1 10)) n0) with false by (vm_compute; reflexivity). cbn [bind fst snd].
      replace (neqb (lit 1 10) (nmean x)) with false by (vm_compute; reflexivity). reflexivity. }
    unfold loss_summary_table.
    replace (existsb (pystr_eqb mA) (lt_methods (small_table x x))) with true by (vm_compute; reflexivity).
    replace ((1 <=? lt_len (small_table x x))%nat && (1 <=? length (lt_metrics (small_table x x)))%nat) with true by (vm_compute; reflexivity).
    cbn [py_assert bind]. change (lt_metrics (small_table x x)) with [mL]. change (lt_methods (small_table x x)) with [mA; mB].
    cbn [mapM]. change (dict_get_def [(mL, (f0, lit 1 10))] mL (nninf, ninf)) with (f0, lit 1 10). cbn [fst snd].
    replace (nleb f0 (lit 1 10)) with true by (vm_compute; reflexivity). rewrite S. cbn [py_assert bind].
    rewrite N, W. cbn [py_assert bind].
    rewrite SC. reflexivity.
Qed.
Print Assumptions C62_within_limits_doubles_refuted.


(** The special functions used above are such that the hypothesis holds. *)
Example C62_example : exists e, @t_EB _ _ any_fn (repeat (lit 1 10) 3) (lit 95 100) = Ok e.
Proof.
  assert (match @t_EB _ _ any_fn (repeat (lit 1 10) 3) (lit 95 100) with Ok _ => true | Err _ => false end = true) as H by (vm_compute; reflexivity).
  destruct (@t_EB _ _ any_fn (repeat (lit 1 10) 3) (lit 95 100)) as [e|]; [exists e; reflexivity|discriminate H].
Qed.

(** ** C78: clip_chk *)

(** numpy's default closeness, asymmetric in its arguments. *)
Definition near (a b : R) : Prop := Rabs (a - b) <= 1 / 100000000 + 1 / 100000 * Rabs b.

Lemma isclose_fin a b : isclose (Fin a) (Fin b) = true <-> near a b.
Proof.
  unfold isclose, near. cbn [nisfin xr_num xisfin andb]. cbn [nsub xr_num xsub xadd xopp]. rewrite !nabs_fin.
  cbn [n1 nofZ xr_num ndiv]. rewrite !xdiv_fin by (apply IZR_neq; lia). cbn [nmul nadd nleb xr_num xmul xadd xleb]. rewrite Rleb_spec.
  replace (a + - b) with (a - b) by ring. reflexivity.
Qed.

(** In exact arithmetic: the value is moved to the nearest point of the
    interval, and only by a rounding error; anything else is rejected. *)
Theorem C78_clip_chk_exact :
  forall a lo hi, lo <= hi ->
  let v := Rmax lo (Rmin a hi) in
  (clip_chk isclose (Fin a) (Fin lo) (Fin hi) = Ok (Fin v) /\ (v = a \/ near a lo \/ near a hi)) \/
  (clip_chk isclose (Fin a) (Fin lo) (Fin hi) = Err AssertionError /\ v <> a /\ ~ near a lo /\ ~ near a hi).
Proof.
  intros a lo hi LH v.
  assert (nclip (Fin a) (Fin lo) (Fin hi) = Fin v) as E.
  { unfold nclip. cbn [nltb xr_num xltb]. unfold v, Rmax, Rmin.
    destruct (Rltb a lo) eqn:A; [apply Rltb_spec in A|assert (~ a < lo) by (rewrite <- Rltb_spec; congruence)].
    - destruct (Rle_dec a hi), (Rle_dec lo _); try reflexivity; f_equal; lra.
    - destruct (Rltb hi a) eqn:B; [apply Rltb_spec in B|assert (~ hi < a) by (rewrite <- Rltb_spec; congruence)];
        destruct (Rle_dec a hi), (Rle_dec lo _); try reflexivity; f_equal; lra. }
  unfold clip_chk. rewrite E. cbv zeta. cbn [neqb xr_num xeqb].
  destruct (Reqb a v) eqn:A.
  - left. apply Reqb_spec in A. split; [reflexivity|]. now left.
  - assert (a <> v) as NA by (intros Q; apply Reqb_spec in Q; congruence). cbn [orb].
    destruct (isclose (Fin a) (Fin lo)) eqn:B; [left; apply isclose_fin in B; split; [reflexivity|tauto]|].
    destruct (isclose (Fin a) (Fin hi)) eqn:C; [left; apply isclose_fin in C; split; [reflexivity|tauto]|].
    right. split; [reflexivity|]. split; [congruence|]. rewrite <- !isclose_fin, B, C. split; discriminate.
Qed.
Print Assumptions C78_clip_chk_exact.

Lemma feqb_refl x : fisnan x = false -> feqb x x = true.
Proof. intros N. now apply feqb_key. Qed.
Lemma feqb_comm x y : feqb x y = feqb y x.
Proof.
  destruct (fisnan x) eqn:A; [destruct x; try discriminate; destruct y; reflexivity|].
  destruct (fisnan y) eqn:B; [destruct y; try discriminate; destruct x; reflexivity|].
  apply Bool.eq_iff_eq_true. rewrite !feqb_key by assumption. split; congruence.
Qed.
Lemma fltb_feqb_false x y : fltb x y = true -> feqb x y = false.
Proof.
  intros L. destruct (fltb_notnan _ _ L) as [A B]. apply Bool.not_true_iff_false. rewrite feqb_key by assumption.
  rewrite fltb_key in L by assumption. intros E. rewrite E in L. lra.
Qed.

(** For doubles: inside values are returned unchanged, NaN is rejected, a
    returned value lies in the interval. *)
Theorem C78_clip_chk_doubles :
  forall a lo hi : f64, fleb lo hi = true ->
  (fleb lo a = true -> fleb a hi = true -> clip_chk isclose a lo hi = Ok a) /\
  (fisnan a = true -> clip_chk isclose a lo hi = Err AssertionError) /\
  (forall v, clip_chk isclose a lo hi = Ok v -> fleb lo v = true /\ fleb v hi = true) /\
  (forall v, clip_chk isclose a lo hi = Ok v ->
     (fleb lo a = true /\ fleb a hi = true) \/ isclose a lo = true \/ isclose a hi = true).
Proof.
  intros a lo hi LH. destruct (fleb_notnan _ _ LH) as [Nl Nh].
  assert (fleb lo a = true -> fleb a hi = true -> clip_chk isclose a lo hi = Ok a) as IN.
  { intros A B. unfold clip_chk. rewrite nclip_inside by assumption. cbv zeta.
    assert (neqb a a = true) as ->; [|reflexivity]. cbn [neqb f64_num]. apply feqb_refl. now apply fleb_notnan in B. }
  assert (fisnan a = true -> clip_chk isclose a lo hi = Err AssertionError) as NN.
  { intros N. unfold clip_chk. rewrite nclip_nan by exact N. unfold isclose. cbn [nisfin neqb f64_num].
    assert (fisfin a = false) as -> by (destruct a; try discriminate; reflexivity). cbn [andb].
    assert (forall b, feqb a b = false) as Q by (intros b; destruct a; try discriminate; destruct b; reflexivity).
    rewrite !Q. reflexivity. }
  split; [exact IN|]. split; [exact NN|]. split.
  - intros v H. destruct (fisnan a) eqn:N; [rewrite NN in H by reflexivity; discriminate|].
    unfold clip_chk in H. cbv zeta in H. match type of H with context [py_assert ?b] => destruct b; [|discriminate] end. cbn [py_assert bind] in H.
    apply Ok_inj in H. subst v. now apply nclip_range.
  - intros v H. destruct (fisnan a) eqn:N; [rewrite NN in H by reflexivity; discriminate|].
    unfold clip_chk, nclip in H. cbn [nltb neqb f64_num] in H. cbv zeta in H.
    destruct (isclose a lo); [auto|]. destruct (isclose a hi); [auto|]. rewrite !orb_false_r in H.
    destruct (fltb a lo) eqn:A.
    + destruct (feqb a lo) eqn:Q; [|discriminate]. apply fltb_feqb_false in A. congruence.
    + destruct (fltb hi a) eqn:B.
      * destruct (feqb a hi) eqn:Q; [|discriminate]. rewrite feqb_comm in Q. apply fltb_feqb_false in B. congruence.
      * left. split; apply fltb_false_fleb; assumption.
Qed.
Print Assumptions C78_clip_chk_doubles.

Example C78_example :
  milli (clip_chk isclose (lit 10000001 10000000) f0 (f_of_Z 1)) = Some 1000%Z /\
  clip_chk isclose (lit 101 100) f0 (f_of_Z 1) = Err AssertionError /\ fleb f0 (f_of_Z 1) = true.
Proof. vm_compute. repeat split. Qed.
