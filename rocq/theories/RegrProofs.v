(** Losses of regression.py in closed form *)
From Coq Require Import Reals Lra Lia.
From Verif Require Import PyBase ListLemmas F64 Num NumOk Util UtilProofs BootUtil BootProofs5 PerfCurves PerfProofs4
  MLPaper MLProofs2 MLProofs3 Checkpoint CheckpointProofs Regression ClassProofs2.
Open Scope R_scope.

(** negative log density of the normal distribution; [c] is log sqrt(2 pi) *)
Definition nll (c y m s : R) : R := (y - m) / s * ((y - m) / s) / 2 + c + ln s.

Lemma nll_mean c y m s : 0 < s -> nll c y y s <= nll c y m s /\ (nll c y m s = nll c y y s -> m = y).
Proof.
  intros S. unfold nll. replace ((y - y) / s) with 0 by (field; lra).
  pose proof (Rle_0_sqr ((y - m) / s)) as Q. unfold Rsqr in Q. split; [lra|].
  intros E. assert ((y - m) / s * ((y - m) / s) = 0) as Z by lra. apply Rmult_integral in Z.
  assert ((y - m) / s = 0) as Z' by (destruct Z; auto). apply Rmult_integral in Z' as [Z'|Z']; [lra|].
  pose proof (Rinv_0_lt_compat s S). lra.
Qed.

Lemma ln_lt x : 0 < x -> ln x <= x - 1 /\ (ln x = x - 1 -> x = 1).
Proof.
  intros P. destruct (Req_EM_T (ln x) 0) as [Z|N].
  - assert (x = 1) as -> by (apply ln_inv; [lra|lra|]; now rewrite ln_1). rewrite ln_1. lra.
  - pose proof (exp_ineq1 (ln x) N) as E. rewrite exp_ln in E by exact P. lra.
Qed.

(** [v / (2 s^2) + ln s] is least at [s^2 = v] *)
Lemma scale_opt v t s : 0 < t -> v = t * t -> 0 < s -> 1 / 2 + ln t <= v / (s * s) / 2 + ln s /\ (v / (s * s) / 2 + ln s = 1 / 2 + ln t -> s = t).
Proof.
  intros T -> S. assert (0 < t / s) as P by (now apply Rdiv_lt_0_compat).
  assert (t * t / (s * s) = t / s * (t / s)) as -> by (field; lra).
  assert (ln t = ln (t / s) + ln s) as ->.
  { rewrite <- ln_mult by lra. f_equal. field. lra. }
  set (u := t / s) in *. assert (0 < u * u) as PU by nra.
  pose proof (ln_lt (u * u) PU) as (L1 & L2). rewrite ln_mult in L1, L2 by lra. split; [lra|].
  intros E. assert (u * u = 1) as U by (apply L2; lra). assert (u = 1) as U1 by nra.
  unfold u in U1. apply (f_equal (fun x => x * s)) in U1. field_simplify in U1; lra.
Qed.

Lemma nll_scale c y m s : 0 < s -> y <> m -> nll c y m (Rabs (y - m)) <= nll c y m s /\
  (nll c y m s = nll c y m (Rabs (y - m)) -> s = Rabs (y - m)).
Proof.
  intros S N. assert (0 < Rabs (y - m)) as A by (apply Rabs_pos_lt; lra).
  assert ((y - m) * (y - m) = Rabs (y - m) * Rabs (y - m)) as E by (rewrite <- Rabs_mult; symmetry; apply Rabs_pos_eq, Rle_0_sqr).
  pose proof (scale_opt _ _ s A E S) as (O1 & O2). unfold nll.
  replace ((y - m) / s * ((y - m) / s)) with ((y - m) * (y - m) / (s * s)) by (field; lra).
  replace ((y - m) / Rabs (y - m) * ((y - m) / Rabs (y - m))) with 1.
  - split; [lra|]. intros H. apply O2. lra.
  - replace ((y - m) / Rabs (y - m) * ((y - m) / Rabs (y - m))) with ((y - m) * (y - m) / (Rabs (y - m) * Rabs (y - m))) by (field; lra).
    rewrite E. field. lra.
Qed.

(** ** validation *)
Section Validate.
  Context {T : Type} {NT : num T}.
  Definition valid_r (y mu std : list T) : Prop :=
    (1 <= length y)%nat /\ length mu = length y /\ length std = length y /\
    Forall (fun a => nisfin a = true) y /\ Forall (fun a => nisfin a = true) mu /\ Forall (fun a => nisfin a = true) std /\
    Forall (fun s => nltb n0 s = true) std.
  Lemma r_validate_iff y mu std : r_shape_and_validate y mu std = Ok (length y) <-> valid_r y mu std.
  Proof.
    unfold r_shape_and_validate, valid_r.
    assert (forall (p : T -> bool) l, forallb p l = true <-> Forall (fun a => p a = true) l) as FB.
    { intros p l. rewrite forallb_forall, Forall_forall. reflexivity. }
    destruct (Nat.leb_spec 1 (length y)); cbn [py_assert bind]; [|split; [discriminate|intros (?&_); lia]].
    destruct (forallb nisfin y) eqn:Fy; cbn [py_assert bind]; [|split; [discriminate|intros (_&_&_&G&_); apply FB in G; congruence]].
    destruct (Nat.eqb_spec (length mu) (length y)); cbn [andb py_assert bind]; [|split; [discriminate|intros (_&?&_); lia]].
    destruct (Nat.eqb_spec (length std) (length y)); cbn [andb py_assert bind]; [|split; [discriminate|intros (_&_&?&_); lia]].
    destruct (forallb nisfin mu) eqn:Fm; cbn [andb py_assert bind]; [|split; [discriminate|intros (_&_&_&_&G&_); apply FB in G; congruence]].
    destruct (forallb nisfin std) eqn:Fs; cbn [andb py_assert bind]; [|split; [discriminate|intros (_&_&_&_&_&G&_); apply FB in G; congruence]].
    destruct (forallb (nltb n0) std) eqn:Fp; cbn [andb py_assert bind]; [|split; [discriminate|intros (_&_&_&_&_&_&G); apply FB in G; congruence]].
    split; [|reflexivity]. intros _. repeat split; auto; now apply FB.
  Qed.
  Lemma r_validate_ok y mu std n : r_shape_and_validate y mu std = Ok n -> valid_r y mu std.
  Proof.
    intros H. apply r_validate_iff. rewrite H. f_equal. revert H. unfold r_shape_and_validate.
    repeat (match goal with |- context [py_assert ?b] => destruct b end; cbn [py_assert bind]; [|discriminate]). congruence.
  Qed.
  Lemma r_validate_err y mu std : ~ valid_r y mu std -> r_shape_and_validate y mu std = Err AssertionError.
  Proof.
    intros H. destruct (r_shape_and_validate y mu std) eqn:E; [exfalso; apply H; eapply r_validate_ok; exact E|].
    revert E. unfold r_shape_and_validate.
    repeat (match goal with |- context [py_assert ?b] => destruct b end; cbn [py_assert bind]; [|congruence]). discriminate.
  Qed.
End Validate.

Lemma valid_fin y mu std : (1 <= length y)%nat -> length mu = length y -> length std = length y -> Forall (fun s => 0 < s) std ->
  valid_r (map Fin y) (map Fin mu) (map Fin std).
Proof.
  intros H1 H2 H3 P. unfold valid_r. rewrite !map_length.
  assert (forall l, Forall (fun a => nisfin a = true) (map Fin l)) as F.
  { intros l. apply Forall_forall. intros x Hx. apply in_map_iff in Hx as (a & <- & _). reflexivity. }
  repeat split; auto. apply Forall_forall. intros x Hx. apply in_map_iff in Hx as (a & <- & Ha). rewrite Forall_forall in P.
  apply Rltb_spec. now apply P.
Qed.

Section Exact.
  Context (sf ppf : Z -> R -> R).
  Local Instance FXr : fn xr := fn_xr sf ppf.

  Lemma logpdf_fin c a m s : 0 < s -> nopp (norm_logpdf (Fin c) (Fin a) (Fin m) (Fin s)) = Fin (nll c a m s).
  Proof.
    intros S. unfold norm_logpdf, nopp. cbn [nsub ndiv nmul n0 nofZ nlog FXr fn_xr xr_num xsub xadd xopp].
    rewrite xdiv_fin by lra. cbn [xmul xopp xadd]. rewrite xdiv_fin by lra. cbn [xlog].
    replace (Rltb 0 s) with true by (symmetry; now apply Rltb_spec). cbn [xadd xopp xsub]. f_equal. unfold nll. unfold Rminus, Rdiv. ring.
  Qed.

  Lemma r_log_loss_fin c y mu std : (1 <= length y)%nat -> length mu = length y -> length std = length y -> Forall (fun s => 0 < s) std ->
    r_log_loss (Fin c) (map Fin y) (map Fin mu) (map Fin std) =
    Ok (map Fin (map2 (fun a ms => nll c a (fst ms) (snd ms)) y (combine mu std))).
  Proof.
    intros H1 H2 H3 P. unfold r_log_loss. rewrite (proj2 (r_validate_iff _ _ _) (valid_fin y mu std H1 H2 H3 P)). cbn [bind]. f_equal.
    clear H1. revert mu std H2 H3 P. induction y as [|a y IH]; intros [|m mu] [|s std] H2 H3 P; try discriminate; [reflexivity|].
    inversion P; subst. cbn [map combine map2]. f_equal; [|apply IH; auto; cbn in *; lia].
    cbn [fst snd]. now apply logpdf_fin.
  Qed.
End Exact.

Lemma square_loss_fin y mu std : (1 <= length y)%nat -> length mu = length y -> length std = length y -> Forall (fun s => 0 < s) std ->
  square_loss (map Fin y) (map Fin mu) (map Fin std) = Ok (map Fin (map2 (fun a m => (a - m) * (a - m)) y mu)).
Proof.
  intros H1 H2 H3 P. unfold square_loss. rewrite (proj2 (r_validate_iff _ _ _) (valid_fin y mu std H1 H2 H3 P)). cbn [bind]. f_equal.
  clear. revert mu. induction y as [|a y IH]; intros [|m mu]; try reflexivity. cbn [map map2]. f_equal. apply IH.
Qed.
Lemma abs_loss_fin y mu std : (1 <= length y)%nat -> length mu = length y -> length std = length y -> Forall (fun s => 0 < s) std ->
  abs_loss (map Fin y) (map Fin mu) (map Fin std) = Ok (map Fin (map2 (fun a m => Rabs (a - m)) y mu)).
Proof.
  intros H1 H2 H3 P. unfold abs_loss. rewrite (proj2 (r_validate_iff _ _ _) (valid_fin y mu std H1 H2 H3 P)). cbn [bind]. f_equal.
  clear. revert mu. induction y as [|a y IH]; intros [|m mu]; try reflexivity. cbn [map map2]. f_equal; [|apply IH].
  cbn [nsub xr_num]. unfold xsub. cbn [xopp xadd]. apply nabs_fin.
Qed.

(** ** constant Gaussians *)
Lemma ss_shift l c : l <> [] -> Rsum (map (fun a => (a - c) * (a - c)) l) = rss l + INR (length l) * ((rmean l - c) * (rmean l - c)).
Proof.
  intros NE. pose proof (len_pos l NE) as P. unfold rss. set (m := rmean l).
  rewrite (Rsum_map_ext (fun a => (a - c) * (a - c)) (fun a => (a - m) * (a - m) + (2 * (m - c) * a + ((m - c) * (m - c) - 2 * (m - c) * m)))) by (intros; ring).
  rewrite Rsum_map_plus, (Rsum_map_plus (fun a => 2 * (m - c) * a)), (Rsum_map_mult (fun a => a)), map_id.
  assert (forall k, Rsum (map (fun _ : R => k) l) = INR (length l) * k) as K.
  { intros k. clear. induction l as [|a l IH]; [cbn; ring|]. cbn [map length]. rewrite Rsum_cons, IH, S_INR. ring. }
  rewrite K. assert (Rsum l = INR (length l) * m) as -> by (unfold m, rmean; field; lra). ring.
Qed.
Lemma mean_nll c l m s : l <> [] -> 0 < s ->
  rmean (map (fun a => nll c a m s) l) = (rss l / INR (length l) + (rmean l - m) * (rmean l - m)) / (s * s) / 2 + c + ln s.
Proof.
  intros NE S. pose proof (len_pos l NE) as P. unfold rmean at 1. rewrite map_length.
  rewrite (Rsum_map_ext _ (fun a => / (2 * (s * s)) * ((a - m) * (a - m)) + (c + ln s))) by (intros; unfold nll; field; lra).
  rewrite Rsum_map_plus, Rsum_map_mult, ss_shift by exact NE.
  assert (forall k, Rsum (map (fun _ : R => k) l) = INR (length l) * k) as K.
  { intros k. clear. induction l as [|a l IH]; [cbn; ring|]. cbn [map length]. rewrite Rsum_cons, IH, S_INR. ring. }
  rewrite K. field. lra.
Qed.
Lemma rss_zero_iff l : l <> [] -> (rss l = 0 <-> forall a b, In a l -> In b l -> a = b).
Proof.
  intros NE. unfold rss. split.
  - intros Z. assert (forall a, In a l -> a = rmean l) as E.
    { intros a Ha. pose proof (Rsum_zero _ l (fun x _ => Rle_0_sqr (x - rmean l)) Z a Ha) as K. apply Rmult_integral in K. lra. }
    intros a b Ha Hb. now rewrite (E a Ha), (E b Hb).
  - intros E. destruct l as [|a l]; [congruence|].
    assert (rmean (a :: l) = a) as M.
    { unfold rmean. assert (a :: l = repeat a (length (a :: l))) as ->.
      { apply Forall_eq_repeat. apply Forall_forall. intros x Hx. apply (E a x); [now left|exact Hx]. }
      rewrite Rsum_repeat, !repeat_length. cbn [length]. field. apply not_0_INR. lia. }
    rewrite (Rsum_map_ext _ (fun _ => 0)), Rsum_map_zero; [reflexivity|]. intros b Hb. rewrite M. rewrite (E b a); [ring|exact Hb|now left].
Qed.
