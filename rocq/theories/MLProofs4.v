(** When the summaries return a value (exact arithmetic), and the cells of the
    summary table (any arithmetic) *)
From Coq Require Import Reals Lra Lia.
From Verif Require Import PyBase ListLemmas F64 Num NumOk Util UtilProofs BootUtil BootProofs BootProofs5 PerfCurves
  CurveProofs2 MLPaper MLProofs2 MLProofs3.
Open Scope R_scope.

Section Total.
Context (sf ppf : Z -> R -> R) (TD : forall df, (1 <= df)%Z -> t_dist (sf df) (ppf df)).
Local Instance FX4 : fn xr := fn_xr sf ppf.

Lemma range_cases (lo up : xr) : nleb n0 (nsub up lo) = true ->
  (exists l u, lo = Fin l /\ up = Fin u /\ l <= u) \/ (nsub up lo = PInf /\ nisnan lo = false /\ nisnan up = false).
Proof.
  destruct lo as [l| | |], up as [u| | |]; try discriminate; try (right; repeat split; reflexivity).
  intros H. cbn in H. apply Rleb_spec in H. left. exists l, u. repeat split; auto. lra.
Qed.

Lemma fin_or_degenerate (x : list xr) : existsb nisnan x = false ->
  degenerate x = true \/ exists l, x = map Fin l /\ (2 <= length l)%nat.
Proof.
  intros N. destruct (degenerate x) eqn:D; [now left|]. right.
  assert (forallb nisfin x = true) as F.
  { unfold degenerate in D. apply orb_false_iff in D as [_ D]. now apply negb_false_iff in D. }
  assert (exists l, x = map Fin l) as [l ->].
  { clear -F. induction x as [|[r| | |] x IH]; try discriminate; [exists []; reflexivity|].
    destruct (IH F) as [l ->]. exists (r :: l). reflexivity. }
  exists l. split; [reflexivity|]. unfold degenerate in D. apply orb_false_iff in D as [D _].
  apply Z.leb_gt in D. rewrite map_length in D. lia.
Qed.

Lemma t_EB_total x c : existsb nisnan x = false -> 0 < c < 1 -> exists e, t_EB x (Fin c) = Ok e /\ nleb n0 e = true.
Proof.
  intros N C. destruct (fin_or_degenerate x N) as [D|(l & -> & L)].
  - destruct (t_degenerate sf ppf x c N D C) as [_ E]. exists PInf. split; [exact E|reflexivity].
  - assert (t_dist (sf (Z.of_nat (length l) - 1)) (ppf (Z.of_nat (length l) - 1))) as D by (apply TD; lia).
    eexists. split; [apply (t_EB_form sf ppf l c L C D)|]. cbn. apply Rleb_spec. apply Rmult_le_pos.
    + apply Rlt_le, (t_q_pos _ _ c D C).
    + now apply t_scale_nonneg.
Qed.
Lemma t_test_total x : existsb nisnan x = false -> exists p, t_test x = Ok p.
Proof.
  intros N. destruct (fin_or_degenerate x N) as [D|(l & -> & L)].
  - destruct (t_degenerate sf ppf x (1 / 2) N D ltac:(lra)) as [E _]. eauto.
  - eexists. apply (t_test_form sf ppf l L). apply TD. lia.
Qed.

Lemma within_fin l a b : within (Fin a) (Fin b) (map Fin l) = true -> Forall (fun v => a <= v <= b) l.
Proof.
  intros W. apply within_spec in W. eapply Forall_impl; [|exact W]. intros v [A B]. cbn in A, B.
  now rewrite !Rleb_spec in *.
Qed.

Lemma bernstein_EB_total x lo up c : existsb nisnan x = false -> 0 < c < 1 -> nleb n0 (nsub up lo) = true ->
  within lo up x = true -> exists e, bernstein_EB x lo up (Fin c) = Ok e /\ nleb n0 e = true.
Proof.
  intros N C R W. destruct (fin_or_degenerate x N) as [D|(l & -> & L)].
  - unfold bernstein_EB. rewrite N, R, W, (conf_ok c C), D. cbn. eauto.
  - destruct (range_cases lo up R) as [(a & b & -> & -> & AB)|(RI & _ & _)].
    + eexists. split; [apply (bernstein_EB_form sf ppf l a b c L AB C (within_fin l a b W))|].
      cbn. apply Rleb_spec, b_EB_nonneg; [destruct l; [cbn in L; lia|discriminate]|lra|]. apply Rlt_le, conf_log_pos, C.
    + assert (l <> []) as NE by (destruct l; [cbn in L; lia|discriminate]). pose proof (len_pos l NE) as LP.
      unfold bernstein_EB. rewrite N, R, W, (conf_ok c C), (not_degenerate l L), RI. cbn [negb py_assert bind].
      assert (nstd 0 (map Fin l) = Fin (b_dev l)) as -> by exact (nstd0_fin sf ppf l NE). rewrite lenT_fin. cbn [nofZ n1 nsub ndiv xr_num xsub xadd xopp].
      rewrite (xdiv_fin 3) by lra. change (@nlog xr FX4) with xlog. unfold xlog.
      assert (Rltb 0 (3 / (1 + - c)) = true) as ->. { apply Rltb_spec. apply Rdiv_lt_0_compat; lra. }
      change (ln (3 / (1 + - c))) with (conf_log c). pose proof (conf_log_pos c C) as AP.
      cbn [nmul xr_num xmul]. rewrite xdiv_fin by lra. change (@nsqrt xr FX4) with xsqrt.
      rewrite xsqrt_fin. 2:{ apply Rmult_le_pos; [lra|]. apply Rlt_le, Rinv_0_lt_compat, LP. }
      unfold xinf_mul. rewrite Reqb_neq by lra. rewrite (proj2 (Rltb_spec 0 (3 * conf_log c))) by lra. cbn [Bool.eqb xmul].
      cbn [xdiv]. destruct (Rltb (INR (length l)) 0) eqn:Q; [apply Rltb_spec in Q; lra|]. cbn. eauto.
Qed.

Lemma bernstein_test_total x lo up : existsb nisnan x = false -> nleb n0 (nsub up lo) = true ->
  within lo up x = true -> exists p, bernstein_test x lo up = Ok p.
Proof.
  intros N R W. destruct (fin_or_degenerate x N) as [D|(l & -> & L)].
  - unfold bernstein_test. rewrite N, R, W, D. cbn. eauto.
  - destruct (range_cases lo up R) as [(a & b & -> & -> & AB)|(RI & _ & _)].
    + destruct AB as [AB|<-].
      * destruct (bernstein_test_form sf ppf l a b L AB (within_fin l a b W)) as (z & _ & _ & E). eauto.
      * unfold bernstein_test. rewrite N, R, W, (not_degenerate l L). cbn [negb py_assert bind].
        cbn [neqb nsub n0 xr_num xsub xadd xopp xeqb]. rewrite (proj2 (Reqb_spec (a + - a) 0)) by ring. cbn. eauto.
    + unfold bernstein_test. rewrite N, R, W, (not_degenerate l L), RI. cbn. eauto.
Qed.

Definition good_draw (n : nat) (counts : list (list Z)) : Prop := multinomial_outcome (Z.of_nat n) N_BOOT counts.

Lemma boot_total counts x c : existsb nisnan x = false -> 0 < c < 1 -> good_draw (length x) counts ->
  (exists e, boot_EB counts x (Fin c) N_BOOT = Ok e /\ nleb n0 e = true) /\
  (exists p, boot_test counts x N_BOOT = Ok p) /\
  (exists r, _boot_EB_and_test counts x (Fin c) N_BOOT true true false = Ok r).
Proof.
  intros N C G. destruct (fin_or_degenerate x N) as [D|(l & -> & L)].
  - unfold boot_EB, boot_test, _boot_EB_and_test. rewrite N, D. cbn [negb py_assert bind fst snd].
    split; [exists PInf; split; reflexivity|]. split; [|eauto]. cbn [nleb n0 n1 xr_num xleb].
    rewrite (proj2 (Rleb_spec 0 1)), (proj2 (Rleb_spec 1 1)) by lra. cbn. eauto.
  - unfold good_draw in G. rewrite map_length in G. assert (1 <= N_BOOT)%Z as NB by (unfold N_BOOT; lia).
    split; [|split].
    + destruct (boot_EB_form l N_BOOT counts L G NB c C) as (e & E & P & _). exists (Fin e). split; [exact E|].
      cbn. now apply Rleb_spec.
    + destruct (boot_test_form l N_BOOT counts L G NB) as (p & E & _). eauto.
    + rewrite (boot_core l N_BOOT counts L G NB).
      destruct (boot_sig l N_BOOT counts L G NB) as (p & -> & _).
      destruct (boot_bar l N_BOOT counts L G NB c C) as (e & -> & _). cbn. eauto.
Qed.

Definition real_method (m : eb_method) : bool := match m with Mother => false | _ => true end.

Lemma tame_spec x : tame x = true <-> existsb nisnan x = false /\ hasP x && hasN x = false.
Proof. unfold tame. now rewrite andb_true_iff, !negb_true_iff. Qed.

Lemma clip_chk_tame x lo up : x <> [] -> existsb nisnan x = false -> within lo up x = true ->
  clip_chk isclose (nmean x) lo up = if tame x then Ok (nmean x) else Err AssertionError.
Proof.
  intros NE N W. destruct (tame x) eqn:T.
  - destruct (nmean_within lo up x NE T W). now apply clip_chk_inside.
  - pose proof (nmean_nan x NE N) as E. unfold tame in T. rewrite N in T. cbn [negb andb] in T. apply negb_false_iff in T.
    rewrite T in E. destruct (nmean x); try discriminate. apply clip_chk_nan.
Qed.

Theorem get_mean_and_EB_exact counts x c lo up m : x <> [] -> real_method m = true -> existsb nisnan x = false -> 0 < c < 1 ->
  nleb n0 (nsub up lo) = true -> within lo up x = true -> good_draw (length x) counts ->
  if tame x then exists e, get_mean_and_EB counts x (Fin c) n0 lo up m = Ok (nmean x, e)
  else get_mean_and_EB counts x (Fin c) n0 lo up m = Err AssertionError.
Proof.
  intros NE M N C R W G.
  assert (exists e, match m with Mt => t_EB x (Fin c) | Mbernstein => bernstein_EB x lo up (Fin c)
             | Mboot => boot_EB counts x (Fin c) N_BOOT | Mother => Err AssertionError end = Ok e) as [e E].
  { destruct m; [destruct (t_EB_total x c N C) as (e & E & _)|destruct (bernstein_EB_total x lo up c N C R W) as (e & E & _)|
      destruct (boot_total counts x c N C G) as [(e & E & _) _]|discriminate]; eauto. }
  unfold get_mean_and_EB. rewrite W, E. cbn [py_assert bind]. rewrite clip_chk_tame by auto.
  destruct (tame x) eqn:T; [|reflexivity]. cbn [bind]. destruct (nmean_within lo up x NE T W) as [A B].
  rewrite (clip_EB_total _ _ _ _ R A B). cbn [bind]. eauto.
Qed.

Theorem get_test_exact counts x lo up m : real_method m = true ->
  nleb n0 (nsub up lo) = true -> within lo up x = true -> good_draw (length x) counts -> existsb nisnan x = false ->
  exists p, get_test counts x lo up m = Ok p.
Proof.
  intros M R W G N. unfold get_test. destruct m; [now apply t_test_total|now apply bernstein_test_total| |discriminate].
  now destruct (boot_total counts x (1 / 2) N ltac:(lra) G) as (_ & ? & _).
Qed.
Theorem get_test_nan counts x lo up m : existsb nisnan x = true -> get_test counts x lo up m = Err AssertionError.
Proof.
  intros N. unfold get_test, t_test, bernstein_test, boot_test, _boot_EB_and_test. rewrite N. now destruct m.
Qed.

Theorem get_mean_EB_test_exact counts x c lo up m : x <> [] -> real_method m = true -> existsb nisnan x = false -> 0 < c < 1 ->
  nleb n0 (nsub up lo) = true -> within lo up x = true -> good_draw (length x) counts ->
  if tame x then exists e p, get_mean_EB_test counts x (Fin c) n0 lo up m = Ok (nmean x, e, p)
  else get_mean_EB_test counts x (Fin c) n0 lo up m = Err AssertionError.
Proof.
  intros NE M N C R W G.
  assert (exists r, match m with
            | Mt => do EB <- t_EB x (Fin c); do pval <- t_test x; Ok (EB, pval)
            | Mbernstein => do EB <- bernstein_EB x lo up (Fin c); do pval <- bernstein_test x lo up; Ok (EB, pval)
            | Mboot => do r <- _boot_EB_and_test counts x (Fin c) N_BOOT true true false; Ok (fst r)
            | Mother => Err AssertionError end = Ok r) as [r E].
  { destruct m; [| | |discriminate].
    - destruct (t_EB_total x c N C) as (e & E & _). destruct (t_test_total x N) as [p P]. rewrite E. cbn [bind]. rewrite P. cbn. eauto.
    - destruct (bernstein_EB_total x lo up c N C R W) as (e & E & _). destruct (bernstein_test_total x lo up N R W) as [p P].
      rewrite E. cbn [bind]. rewrite P. cbn. eauto.
    - destruct (boot_total counts x c N C G) as (_ & _ & r & E). rewrite E. cbn. eauto. }
  unfold get_mean_EB_test. rewrite W, E. cbn [py_assert bind]. rewrite clip_chk_tame by auto.
  destruct (tame x) eqn:T; [|reflexivity]. cbn [bind]. destruct (nmean_within lo up x NE T W) as [A B].
  rewrite (clip_EB_total _ _ _ _ R A B). cbn [bind]. destruct r as [e p]. eauto.
Qed.

Lemma within_nan x lo up : within lo up x = true -> existsb nisnan x = false.
Proof.
  intros W. apply Bool.not_true_iff_false. rewrite existsb_exists. intros (v & H & E).
  destruct (within_in lo up x v W H) as [A B]. destruct v; try discriminate; destruct lo; discriminate.
Qed.

(** Differences of losses within the limits lie within plus or minus the range. *)
Lemma deltas_range (lo up a b : xr) : nleb n0 (nsub up lo) = true ->
  nleb lo a = true -> nleb a up = true -> nleb lo b = true -> nleb b up = true ->
  nisnan (nsub a b) = false ->
  nleb (nopp (nsub up lo)) (nsub a b) = true /\ nleb (nsub a b) (nsub up lo) = true.
Proof.
  intros R A1 A2 B1 B2 N.
  destruct lo as [l| | |], up as [u| | |]; try discriminate; destruct a as [a| | |]; try discriminate;
    destruct b as [b| | |]; try discriminate; try (split; reflexivity).
  unfold nopp. cbn [nleb nsub n0 xr_num xsub xadd xopp xleb] in *. rewrite !Rleb_spec in *. lra.
Qed.
Lemma deltas_within (lo up : xr) x y : nleb n0 (nsub up lo) = true -> within lo up x = true -> within lo up y = true ->
  existsb nisnan (map2 nsub x y) = false -> within (nopp (nsub up lo)) (nsub up lo) (map2 nsub x y) = true.
Proof.
  intros R. revert y. induction x as [|a x IH]; intros [|b y] Wx Wy N; try reflexivity.
  destruct (within_in _ _ _ a Wx (or_introl eq_refl)) as [A1 A2]. destruct (within_in _ _ _ b Wy (or_introl eq_refl)) as [B1 B2].
  cbn [map2 existsb] in N |- *. apply orb_false_iff in N as [N1 N2].
  destruct (deltas_range lo up a b R A1 A2 B1 B2 N1) as [D1 D2].
  assert (within (nopp (nsub up lo)) (nsub up lo) (map2 nsub x y) = true) as IH'.
  { apply IH; [| |exact N2]; [revert Wx|revert Wy]; unfold within; cbn [forallb]; rewrite !andb_true_iff; tauto. }
  unfold within in *. cbn [forallb]. rewrite D1, D2. exact IH'.
Qed.
Lemma range_sym (lo up : xr) : nleb n0 (nsub up lo) = true ->
  nleb n0 (nsub (nsub up lo) (nopp (nsub up lo))) = true.
Proof.
  destruct lo as [l| | |], up as [u| | |]; try discriminate; try reflexivity.
  unfold nopp. cbn [nleb nsub n0 xr_num xsub xadd xopp xleb]. rewrite !Rleb_spec. lra.
Qed.
Lemma within_nan' (lo up : xr) x : existsb nisnan x = true -> within lo up x = false.
Proof. intros H. destruct (within lo up x) eqn:W; [|reflexivity]. apply within_nan in W. congruence. Qed.

(** ** One cell *)
Definition cell_accepted (pairwise self : bool) (loss loss_ref : list xr) : bool :=
  if pairwise then self || tame (map2 nsub loss loss_ref)
  else tame loss && (self || negb (existsb nisnan (map2 nsub loss loss_ref))).

Theorem summary_cell_exact draw t ref pw c m metric lo up loss_ref method loss :
  select t (metric, method) = Ok loss -> real_method m = true -> 0 < c < 1 ->
  nleb n0 (nsub up lo) = true -> within lo up loss = true -> within lo up loss_ref = true ->
  loss <> [] -> length loss = length loss_ref ->
  (forall b, good_draw (length loss) (draw metric method b)) ->
  if cell_accepted pw (pystr_eqb method ref) loss loss_ref
  then exists r, summary_cell draw t ref pw (Fin c) m metric lo up loss_ref method = Ok r
  else summary_cell draw t ref pw (Fin c) m metric lo up loss_ref method = Err AssertionError.
Proof.
  intros S M C R W Wr NE LEN G. unfold summary_cell, cell_accepted. rewrite S. cbn [bind].
  rewrite (within_nan _ _ _ W), W. cbn [negb py_assert bind].
  set (d := map2 nsub loss loss_ref).
  assert (length d = length loss) as Ld. { unfold d. rewrite map2_length, LEN. apply Nat.min_id. }
  assert (d <> []) as NEd. { intros E. rewrite E in Ld. destruct loss; [congruence|discriminate]. }
  destruct pw.
  - destruct (pystr_eqb method ref); cbn [orb]; [eauto|].
    destruct (existsb nisnan d) eqn:Nd.
    + unfold tame. rewrite Nd. cbn [negb andb]. unfold get_mean_EB_test. rewrite (within_nan' _ _ _ Nd). reflexivity.
    + pose proof (get_mean_EB_test_exact (draw metric method false) d c (nopp (nsub up lo)) (nsub up lo) m NEd M Nd C
        (range_sym lo up R) (deltas_within lo up loss loss_ref R W Wr Nd)) as H.
      rewrite Ld in H. specialize (H (G false)). destruct (tame d).
      * destruct H as (e & p & ->). cbn. eauto.
      * rewrite H. reflexivity.
  - pose proof (get_mean_and_EB_exact (draw metric method false) loss c lo up m NE M (within_nan _ _ _ W) C R W (G false)) as H.
    destruct (tame loss) eqn:T; cbn [andb].
    2:{ rewrite H. reflexivity. }
    destruct H as (e & ->). cbn [bind fst snd]. rewrite xeq_refl.
    2:{ rewrite nmean_nan; [|exact NE|exact (within_nan _ _ _ W)]. now apply tame_spec in T. }
    cbn [py_assert bind]. destruct (pystr_eqb method ref); cbn [orb]; [eauto|].
    destruct (existsb nisnan d) eqn:Nd; cbn [negb].
    + rewrite (get_test_nan _ _ _ _ _ Nd). reflexivity.
    + pose proof (get_test_exact (draw metric method true) d (nopp (nsub up lo)) (nsub up lo) m M (range_sym lo up R)
        (deltas_within lo up loss loss_ref R W Wr Nd)) as H.
      rewrite Ld in H. destruct (H (G true) Nd) as [p ->]. cbn. eauto.
Qed.
End Total.

(** ** The table, any arithmetic *)
Lemma pystr_eqb_spec (a b : pystr) : pystr_eqb a b = true <-> a = b.
Proof.
  revert b. induction a as [|x a IH]; intros [|y b]; cbn; split; try discriminate; try reflexivity.
  - rewrite andb_true_iff, Ascii.eqb_eq, IH. intros [-> ->]. reflexivity.
  - intros H. injection H as -> ->. rewrite andb_true_iff, Ascii.eqb_eq, IH. auto.
Qed.

Section Table.
Context {T : Type} {NT : num T} {FT : fn T}.

Definition lims (limits : dict (T * T)) (metric : pystr) : T * T := dict_get_def limits metric (nninf, ninf).

Lemma table_inv draw (t : loss_table_t T) ref pw c m limits out :
  loss_summary_table draw t ref pw c m limits = Ok out ->
  existsb (pystr_eqb ref) (lt_methods t) = true /\ (1 <= lt_len t)%nat /\ lt_metrics t <> [] /\
  map fst out = list_prod (lt_metrics t) (lt_methods t) /\
  forall metric method cl, In ((metric, method), cl) out ->
    exists loss_ref, select t (metric, ref) = Ok loss_ref /\ existsb nisnan loss_ref = false /\
      within (fst (lims limits metric)) (snd (lims limits metric)) loss_ref = true /\
      nleb (fst (lims limits metric)) (snd (lims limits metric)) = true /\
      summary_cell draw t ref pw c m metric (fst (lims limits metric)) (snd (lims limits metric)) loss_ref method = Ok cl.
Proof.
  unfold loss_summary_table. intros H.
  destruct (existsb (pystr_eqb ref) (lt_methods t)); [|discriminate]. cbn [py_assert bind] in H.
  destruct (1 <=? lt_len t)%nat eqn:E1; [|discriminate]. destruct (1 <=? length (lt_metrics t))%nat eqn:E2; [|discriminate].
  cbn [andb py_assert bind] in H. apply Nat.leb_le in E1. apply Nat.leb_le in E2.
  split; [reflexivity|]. split; [exact E1|]. split; [intros Q; rewrite Q in E2; cbn in E2; lia|].
  match type of H with context [mapM ?f _] => set (F := f) in H end.
  destruct (mapM F (lt_metrics t)) as [rows|] eqn:MM; [|discriminate]. cbn [bind] in H. apply Ok_inj in H. subst out.
  apply mapM_Forall2 in MM. clear E2.
  assert (forall metric row, F metric = Ok row ->
    map fst row = map (fun method => (metric, method)) (lt_methods t) /\
    forall mt method cl, In ((mt, method), cl) row -> mt = metric /\
     exists loss_ref, select t (metric, ref) = Ok loss_ref /\ existsb nisnan loss_ref = false /\
      within (fst (lims limits metric)) (snd (lims limits metric)) loss_ref = true /\
      nleb (fst (lims limits metric)) (snd (lims limits metric)) = true /\
      summary_cell draw t ref pw c m metric (fst (lims limits metric)) (snd (lims limits metric)) loss_ref method = Ok cl) as HF.
  { intros metric row Hr. unfold F in Hr. fold (lims limits metric) in Hr.
    destruct (nleb (fst (lims limits metric)) (snd (lims limits metric))); [|discriminate]. cbn [py_assert bind] in Hr.
    destruct (select t (metric, ref)) as [loss_ref|]; [|discriminate]. cbn [bind] in Hr.
    destruct (existsb nisnan loss_ref) eqn:A; [discriminate|]. cbn [negb py_assert bind] in Hr.
    destruct (within (fst (lims limits metric)) (snd (lims limits metric)) loss_ref) eqn:B; [|discriminate].
    cbn [py_assert bind] in Hr. apply mapM_Forall2 in Hr.
    split.
    - clear -Hr. induction Hr as [|mt r ms rs H _ IH]; [reflexivity|]. cbn [map]. rewrite IH. f_equal.
      destruct (summary_cell _ _ _ _ _ _ _ _ _ _ _); [|discriminate]. cbn [bind] in H. apply Ok_inj in H. now subst.
    - intros mt method cl Hin. assert (mt = metric /\ summary_cell draw t ref pw c m metric (fst (lims limits metric)) (snd (lims limits metric)) loss_ref method = Ok cl) as [-> E].
      { clear -Hr Hin. induction Hr as [|mm r ms rs H _ IH]; [destruct Hin|]. destruct Hin as [->|Hin]; [|now apply IH].
        destruct (summary_cell draw t ref pw c m metric (fst (lims limits metric)) (snd (lims limits metric)) loss_ref mm) eqn:Q; [|discriminate].
        cbn [bind] in H. apply Ok_inj in H. injection H as -> -> ->. auto. }
      split; [reflexivity|]. exists loss_ref. auto. }
  split.
  - clear -MM HF. induction MM as [|metric row ms rows H _ IH]; [reflexivity|]. cbn [concat list_prod]. rewrite map_app, IH.
    f_equal. now apply HF.
  - intros metric method cl Hin. apply in_concat in Hin as (row & Hrow & Hin).
    assert (exists mt, F mt = Ok row) as [mt Hm].
    { clear -MM Hrow. induction MM as [|a b l r H _ IH]; [destruct Hrow|]. destruct Hrow as [->|Hrow]; eauto. }
    destruct (HF mt row Hm) as [_ K]. destruct (K _ _ _ Hin) as [-> K']. exact K'.
Qed.

(** The converse: no cell fails, no failure. *)
Lemma table_total draw (t : loss_table_t T) ref pw c m limits :
  existsb (pystr_eqb ref) (lt_methods t) = true -> (1 <= lt_len t)%nat -> lt_metrics t <> [] ->
  (forall metric, In metric (lt_metrics t) -> nleb (fst (lims limits metric)) (snd (lims limits metric)) = true /\
    exists loss_ref, select t (metric, ref) = Ok loss_ref /\ existsb nisnan loss_ref = false /\
      within (fst (lims limits metric)) (snd (lims limits metric)) loss_ref = true /\
      forall method, In method (lt_methods t) ->
        exists cl, summary_cell draw t ref pw c m metric (fst (lims limits metric)) (snd (lims limits metric)) loss_ref method = Ok cl) ->
  exists out, loss_summary_table draw t ref pw c m limits = Ok out.
Proof.
  intros A B C H. unfold loss_summary_table. rewrite A. cbn [py_assert bind].
  assert ((1 <=? lt_len t)%nat = true) as -> by now apply Nat.leb_le.
  assert ((1 <=? length (lt_metrics t))%nat = true) as -> by (destruct (lt_metrics t); [congruence|reflexivity]).
  cbn [andb py_assert bind].
  match goal with |- context [mapM ?f _] => set (F := f) end.
  destruct (mapM_total F (lt_metrics t)) as [rows ->]; [|cbn; eauto].
  intros metric Hm. destruct (H metric Hm) as (L & loss_ref & S & N & W & K). unfold F. fold (lims limits metric).
  rewrite L, S. cbn [py_assert bind]. rewrite N, W. cbn [negb py_assert bind]. apply mapM_total.
  intros method Hmt. destruct (K method Hmt) as [cl ->]. cbn. eauto.
Qed.
End Table.
