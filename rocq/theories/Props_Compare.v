(** Property theorems C88-C89: comparing a method with the reference.  A method
    that is identical to the reference is never reported as different from it,
    and it does not matter which of two methods is called the reference. *)
From Coq Require Import Reals Lra Lia.
From Flocq Require Import Core BinarySingleNaN.
From Verif Require Import PyBase ListLemmas F64 Num F64Lemmas NumOk Util UtilProofs BootUtil PerfCurves CurveBoot MLPaper Classification MLProofs4 ClassProofs5
  CompareProofs SwapProofs.
From Verif Require Import Props_MLPaper Props_Predict Props_Tables.
Open Scope Z_scope.

(** ** Inversion of curve_boot with a reference method *)
Section Inversion.
  Context {T : Type} {NT : num T}.

  (** the areas under the curves of a score *)
  Definition areas (curve_f : curve_fun T) y (m : list (list T)) w l : Prop :=
    exists r c, curve_f y (col1 m) w = Ok r /\ check_curve r None = Ok c /\ curve_area c = Ok l.
  Lemma areas_unique f y m w l l' : areas f y m w l -> areas f y m w l' -> l = l'.
  Proof. intros (r & c & H1 & H2 & H3) (r' & c' & H1' & H2' & H3'). congruence. Qed.
  Lemma check_curve_none r g c : check_curve r (Some g) = Ok c -> check_curve (T := T) r None = Ok c.
  Proof.
    unfold check_curve. destruct r as [[rows k] thr]. intros H. do 5 (apply assert_ok in H as [-> H]; cbn [py_assert bind]).
    apply bind_ok in H as (g0 & _ & H). apply assert_ok in H as [_ H]. apply bind_ok in H as (g1 & _ & H). now apply assert_ok in H as [_ H].
  Qed.
  Lemma unpack1_inv {A} (l : list A) a : unpack1 l = Ok a -> l = [a].
  Proof. destruct l as [|b [|]]; cbn; try discriminate. intros H. apply Ok_inj in H. congruence. Qed.

  Lemma curve_boot_ref_inv counts kd y P ncol Q f g nb pw c a e p d :
    curve_boot counts kd y P ncol (RefPred Q) f g nb pw c = Ok ((a, e, p), d) ->
    let yb := map (fun v => negb (v =? 0)) y in
    exists w ab rb v, boot_weights counts (Z.of_nat (length P)) nb (ndiv n1 (nofZ (10 ^ 10))) = Ok w /\ length Q = length P /\
      areas f yb P None [a] /\ areas f yb P (Some w) ab /\ areas f yb Q (Some w) rb /\ areas f yb Q None [v] /\
      1 <= nb /\ Z.of_nat (length ab) = nb /\ Z.of_nat (length rb) = nb /\
      significance ab (Paired rb) = Ok p /\
      (if pw then error_bar (map2 nsub ab rb) (nsub a v) c else error_bar ab a c) = Ok e.
  Proof.
    unfold curve_boot. intros H. apply bind_ok in H as ([N L] & SH & H). apply assert_ok in H as [_ H]. apply assert_ok in H as [LQ H].
    apply assert_ok in H as [_ H]. apply assert_ok in H as [NB H]. apply assert_ok in H as [_ H]. cbv zeta in H |- *.
    apply bind_ok in H as (r & R & H). apply bind_ok in H as (cv & CV & H). apply bind_ok in H as (as_ & AS & H). apply bind_ok in H as (a' & A & H).
    apply bind_ok in H as (yg & _ & H). apply bind_ok in H as (yg' & _ & H). apply bind_ok in H as (w & W & H).
    apply bind_ok in H as (rb & RB & H). apply bind_ok in H as (cb & CB & H). apply bind_ok in H as (ab & AB & H). apply assert_ok in H as [LA H].
    apply bind_ok in H as (ygb & _ & H). apply bind_ok in H as ([rv rl] & RF & H). cbn in RF.
    apply bind_ok in RF as (rr & RR & RF). apply bind_ok in RF as (cr & CR & RF). apply bind_ok in RF as (refb & REFB & RF). apply assert_ok in RF as [LR RF].
    apply bind_ok in RF as (r0 & R0 & RF). apply bind_ok in RF as (c0 & C0 & RF). apply bind_ok in RF as (refs & REFS & RF). apply bind_ok in RF as (v & V & RF).
    apply Ok_inj in RF. injection RF as <- <-. apply bind_ok in H as (eb & EB & H). apply bind_ok in H as (pv & PV & H). apply bind_ok in H as (bd & _ & H).
    apply Ok_inj in H. injection H as <- <- <- _. cbn [ref_values] in EB.
    unfold shape_and_validate in SH. do 4 (apply assert_ok in SH as [_ SH]). apply Ok_inj in SH. injection SH as <- _.
    apply andb_true_iff in LQ as [LQ _]. apply Nat.eqb_eq in LQ. apply Z.leb_le in NB. apply Z.eqb_eq in LA. apply Z.eqb_eq in LR.
    apply unpack1_inv in A. apply unpack1_inv in V. subst as_ refs.
    exists w, ab, refb, v. repeat split; auto.
    - exists r, cv. split; [exact R|]. split; [eapply check_curve_none; exact CV|exact AS].
    - exists rb, cb. split; [exact RB|]. split; [eapply check_curve_none; exact CB|exact AB].
    - exists rr, cr. auto.
    - exists r0, c0. auto.
  Qed.

  Lemma error_bar_nonan (b : list T) m c e : error_bar b m c = Ok e -> existsb nisnan b = false.
  Proof.
    unfold error_bar. intros H. apply bind_ok in H as (q & H & _). unfold percentile in H. apply assert_ok in H as [H _]. now apply negb_true_iff in H.
  Qed.
End Inversion.

Section Tests.
  Context {T : Type} {NT : num T} {FT : fn T}.
  Lemma get_test_nonan counts (x : list T) lo up m p : get_test counts x lo up m = Ok p -> existsb nisnan x = false.
  Proof.
    destruct m; cbn [get_test]; [unfold t_test|unfold bernstein_test|unfold boot_test, _boot_EB_and_test|discriminate]; intros H.
    - apply assert_ok in H as [H _]. now apply negb_true_iff in H.
    - apply assert_ok in H as [H _]. now apply negb_true_iff in H.
    - apply bind_ok in H as (r & H & _). apply assert_ok in H as [H _]. now apply negb_true_iff in H.
  Qed.
  Lemma get_mean_EB_test_nonan counts (x : list T) c mn lo up m r : get_mean_EB_test counts x c mn lo up m = Ok r -> existsb nisnan x = false.
  Proof.
    unfold get_mean_EB_test. intros H. apply assert_ok in H as [_ H]. apply bind_ok in H as (q & H & _). destruct m; [| | |discriminate].
    - apply bind_ok in H as (a & H & _). unfold t_EB in H. apply assert_ok in H as [H _]. now apply negb_true_iff in H.
    - apply bind_ok in H as (a & H & _). unfold bernstein_EB in H. apply assert_ok in H as [H _]. now apply negb_true_iff in H.
    - apply bind_ok in H as (a & H & _). unfold _boot_EB_and_test in H. apply assert_ok in H as [H _]. now apply negb_true_iff in H.
  Qed.
End Tests.

(** ** C88, for any number type with the laws of a zero *)
Section Identical.
  Context {T : Type} {NT : num T} {OK : num_ok NT} {ZL : zero_laws NT}.

  Lemma identical_table (FT : fn T) (FZ : fn_zero_laws NT FT) draw (t : loss_table_t T) ref pw c m limits out metric method x cl clr :
    loss_summary_table draw t ref pw c m limits = Ok out ->
    method <> ref -> column t metric method x -> column t metric ref x ->
    (m = Mboot -> forall b, multinomial_outcome (Z.of_nat (length x)) 1000 (draw metric method b)) ->
    (forall k, 0 <= k <= Z.max (Z.of_nat (length x)) 1000 -> nisfin (nofZ k : T) = true) ->
    In ((metric, method), cl) out -> In ((metric, ref), clr) out ->
    cell_mean cl = cell_mean clr /\ cell_pval cl = n1 /\
    (pw = true -> (2 <= length x)%nat -> m = Mt \/ m = Mboot -> neqb (cell_error cl) n0 = true) /\
    (pw = false -> (m = Mboot -> draw metric method false = draw metric ref false) -> cell_error cl = cell_error clr).
  Proof.
    intros H NE CX CR MO FN I IR. destruct (C60_cells _ _ _ _ _ _ _ _ H) as [_ K].
    destruct (K _ _ _ I) as (l & lr & L & LR & D). destruct (K _ _ _ IR) as (l' & lr' & L' & _ & D'). clear K.
    rewrite (column_unique _ _ _ _ _ L CX), (column_unique _ _ _ _ _ LR CR) in D. rewrite (column_unique _ _ _ _ _ L' CR) in D'.
    destruct (limits_of limits metric) as [lower upper]. cbv zeta in D, D'.
    destruct D as (D1 & D2 & D3 & D4 & _ & _), D' as (E1 & E2 & _ & _ & _ & _). split; [congruence|]. destruct pw.
    - destruct (D3 eq_refl NE) as [mu G]. rewrite (self_deltas x (get_mean_EB_test_nonan _ _ _ _ _ _ _ _ G)) in G.
      destruct (get_mean_EB_test_zeros _ _ _ _ _ _ _ _ _ (fun B => MO B false) FN G) as [P Z]. split; [exact P|]. split; [auto|discriminate].
    - pose proof (D4 eq_refl NE) as G. rewrite (self_deltas x (get_test_nonan _ _ _ _ _ _ G)) in G.
      split; [exact (get_test_zeros _ _ _ _ _ _ (fun B => MO B true) FN G)|]. split; [discriminate|]. intros _ B.
      destruct (D2 eq_refl) as [mu U]. destruct (E2 eq_refl) as [mu' U'].
      assert (get_mean_and_EB (draw metric method false) x c n0 lower upper m = get_mean_and_EB (draw metric ref false) x c n0 lower upper m) as Q.
      { destruct m; [reflexivity|reflexivity|now rewrite (B eq_refl)|reflexivity]. }
      rewrite Q, U' in U. apply Ok_inj in U. now injection U.
  Qed.

  Lemma identical_curve counts kd y P ncol f g nb pw c a e p d :
    nisfin (nofZ nb : T) = true ->
    curve_boot counts kd y P ncol (RefPred P) f g nb pw c = Ok ((a, e, p), d) ->
    p = n1 /\ (pw = true -> nisfin a = true -> e = n0).
  Proof.
    intros FN H. apply curve_boot_ref_inv in H. cbv zeta in H. destruct H as (w & ab & rb & v & _ & _ & A & AB & RB & V & NB & LA & _ & S & E).
    rewrite (areas_unique _ _ _ _ _ _ RB AB) in *. pose proof (areas_unique _ _ _ _ _ _ V A) as Q. injection Q as ->.
    assert (ab <> []) as NE by (intros ->; cbn in LA; lia). split.
    - apply (significance_self ab); [exact NE|now rewrite LA|exact S].
    - intros -> FA. rewrite (self_deltas ab (error_bar_nonan _ _ _ _ E)), (zl_sub a FA) in E. now apply error_bar_zeros in E.
  Qed.

  Lemma identical_curve_table draw (tbl : pred_table T) kd y curves ref_method g nb pw c out method rows curve cl dump :
    nisfin (nofZ nb : T) = true -> NoDup (map fst curves) -> NoDup (map fst (pt_methods tbl)) ->
    curve_summary_table draw tbl kd y curves ref_method g nb pw c = Ok out ->
    method <> ref_method -> frame_of tbl method rows -> frame_of tbl ref_method rows -> entry_of out method curve cl dump ->
    cell_pval cl = n1 /\ (pw = true -> nisfin (cell_mean cl) = true -> cell_error cl = n0) /\
    forall clr dumpr, entry_of out ref_method curve clr dumpr -> cell_mean cl = cell_mean clr.
  Proof.
    intros FN N1 N2 H NE M MR EN. destruct (C77_entries _ _ _ _ _ _ _ _ _ _ _ N1 N2 H) as (_ & LAB & r & FR & K).
    assert (In (method, curve) (map fst out)) as J by (destruct EN as [I _]; exact (in_map fst _ _ I)). apply LAB in J. destruct J as [_ J].
    apply in_map_iff in J as ([k f] & Q & J). cbn [fst] in Q. subst k.
    assert (r = rows) as ->.
    { destruct FR as [ca Ha], MR as [cb Hb]. pose proof (NoDup_fst_inj _ _ _ _ N2 Ha Hb) as Q. congruence. }
    destruct (K _ _ _ _ M J) as (a & e & p & d & c1 & B & [E1 _] & C1 & C2 & _).
    destruct EN as [_ EN]. apply EN in E1. injection E1 as -> _. destruct (C2 NE) as [C3 C4].
    destruct (identical_curve _ _ _ _ _ _ _ _ _ _ _ _ _ _ FN B) as [P Z]. rewrite C4, C3, C1. split; [exact P|]. split; [exact Z|].
    intros clr dr [_ ER]. destruct (K _ _ _ _ MR J) as (a' & e' & p' & d' & c' & B' & [E' _] & C1' & _ & _). apply ER in E'. injection E' as -> _. rewrite C1'.
    apply curve_boot_ref_inv in B. apply curve_boot_ref_inv in B'. cbv zeta in B, B'.
    destruct B as (? & ? & ? & ? & _ & _ & B & _). destruct B' as (? & ? & ? & ? & _ & _ & B' & _).
    pose proof (areas_unique _ _ _ _ _ _ B B') as Q. congruence.
  Qed.
End Identical.

(** ** C89, for any number type with a symmetric arithmetic *)
Section Exchange.
  Context {T : Type} {NT : num T} {OK : num_ok NT} {rel : T -> T -> Prop} {SW : swap_laws NT rel}.

  (** What exchanging the roles of the two methods does to the entries. *)
  Lemma exchange_table (FT : fn T) draw draw' (t : loss_table_t T) a b pw c m limits out out' metric x y cl cl' :
    nisnan (n0 : T) = false -> nisnan (ninf : T) = false ->
    loss_summary_table draw t a pw c m limits = Ok out -> loss_summary_table draw' t b pw c m limits = Ok out' ->
    a <> b -> column t metric a x -> column t metric b y -> length x = length y ->
    (m = Mboot -> forall w, draw metric b w = draw' metric a w /\ draw metric b w <> [] /\
       nisfin (nofZ (Z.of_nat (length (draw metric b w))) : T) = true) ->
    In ((metric, b), cl) out -> In ((metric, a), cl') out' ->
    cell_pval cl = cell_pval cl' /\
    (pw = true -> m <> Mboot -> neqb (cell_error cl) (cell_error cl') = true) /\
    (pw = true -> exists counts lo mu mu', (m = Mboot -> counts <> []) /\
       get_mean_EB_test counts (map2 nsub y x) c n0 (nopp lo) lo m = Ok (mu, cell_error cl, cell_pval cl) /\
       get_mean_EB_test counts (map2 nsub x y) c n0 (nopp lo) lo m = Ok (mu', cell_error cl', cell_pval cl')).
  Proof.
    intros N0 NI H H' NE CX CY L DR I I'. destruct (C60_cells _ _ _ _ _ _ _ _ H) as [_ K]. destruct (C60_cells _ _ _ _ _ _ _ _ H') as [_ K'].
    destruct (K _ _ _ I) as (l & lr & L1 & L2 & D). destruct (K' _ _ _ I') as (l' & lr' & L1' & L2' & D'). clear K K'.
    rewrite (column_unique _ _ _ _ _ L1 CY), (column_unique _ _ _ _ _ L2 CX) in D.
    rewrite (column_unique _ _ _ _ _ L1' CX), (column_unique _ _ _ _ _ L2' CY) in D'.
    destruct (limits_of limits metric) as [lower upper]. cbv zeta in D, D'.
    destruct D as (_ & _ & D3 & D4 & _ & _), D' as (_ & _ & E3 & E4 & _ & _).
    pose proof (swap_deltas (rel := rel) y x (eq_sym L)) as F. set (r := nsub upper lower) in *.
    destruct pw.
    - destruct (D3 eq_refl (not_eq_sym NE)) as [mu G]. destruct (E3 eq_refl NE) as [mu' G'].
      assert (get_mean_EB_test (draw metric b false) (map2 nsub x y) c n0 (nopp r) r m = Ok (mu', cell_error cl', cell_pval cl')) as G2.
      { destruct m; [exact G'|exact G'| |exact G']. now rewrite (proj1 (DR eq_refl false)). }
      destruct (swap_get_mean_EB_test (rel := rel) _ _ _ _ _ _ _ _ _ _ _ _ N0 NI F (fun B => proj2 (DR B false)) G G2) as [P E].
      split; [exact P|]. split; [intros _; exact E|]. intros _. exists (draw metric b false), r, mu, mu'. split; [|auto]. intros B. apply (DR B false).
    - pose proof (D4 eq_refl (not_eq_sym NE)) as G. pose proof (E4 eq_refl NE) as G'.
      assert (get_test (draw metric b true) (map2 nsub x y) (nopp r) r m = Ok (cell_pval cl')) as G2.
      { destruct m; [exact G'|exact G'| |exact G']. now rewrite (proj1 (DR eq_refl true)). }
      rewrite (swap_get_test (rel := rel) _ _ _ _ _ F (fun B => proj2 (DR B true))), G2 in G. apply Ok_inj in G. split; [congruence|]. split; discriminate.
  Qed.

  Lemma exchange_curve counts kd y P Q ncol f g g' nb pw c a e p d a' e' p' d' :
    nisfin (nofZ nb : T) = true ->
    curve_boot counts kd y P ncol (RefPred Q) f g nb pw c = Ok ((a, e, p), d) ->
    curve_boot counts kd y Q ncol (RefPred P) f g' nb pw c = Ok ((a', e', p'), d') ->
    p = p' /\
    (pw = true -> exists l l', Forall2 rel l l' /\ error_bar l (nsub a a') c = Ok e /\ error_bar l' (nsub a' a) c = Ok e').
  Proof.
    intros FN H H'. apply curve_boot_ref_inv in H. apply curve_boot_ref_inv in H'. cbv zeta in H, H'.
    destruct H as (w & ab & rb & v & W & LQ & A & AB & RB & V & NB & LA & LR & S & E).
    destruct H' as (w' & ab' & rb' & v' & W' & LQ' & A' & AB' & RB' & V' & _ & LA' & LR' & S' & E').
    rewrite LQ, W in W'. apply Ok_inj in W'. subst w'.
    rewrite (areas_unique _ _ _ _ _ _ RB' AB) in *. rewrite (areas_unique _ _ _ _ _ _ AB' RB) in *.
    pose proof (areas_unique _ _ _ _ _ _ V A') as Q1. injection Q1 as ->. pose proof (areas_unique _ _ _ _ _ _ V' A) as Q2. injection Q2 as ->.
    assert (ab <> []) as NE by (intros ->; cbn in LA; lia). split.
    - assert (length ab = length rb) as L by lia. assert (nisfin (nofZ (Z.of_nat (length ab)) : T) = true) as F by now rewrite LA.
      rewrite (swap_significance_paired (rel := rel) ab rb L NE F), S' in S. apply Ok_inj in S. congruence.
    - intros ->. exists (map2 nsub ab rb), (map2 nsub rb ab). split; [|auto]. apply swap_deltas. lia.
  Qed.

  Lemma exchange_curve_table draw draw' (tbl : pred_table T) kd y curves a b g g' nb pw c out out' curve cl dump cl' dump' :
    nisfin (nofZ nb : T) = true -> NoDup (map fst curves) -> NoDup (map fst (pt_methods tbl)) ->
    curve_summary_table draw tbl kd y curves a g nb pw c = Ok out ->
    curve_summary_table draw' tbl kd y curves b g' nb pw c = Ok out' ->
    a <> b -> draw b curve = draw' a curve ->
    entry_of out b curve cl dump -> entry_of out' a curve cl' dump' ->
    cell_pval cl = cell_pval cl' /\
    (pw = true -> exists l l', Forall2 rel l l' /\
       error_bar l (nsub (cell_mean cl) (cell_mean cl')) c = Ok (cell_error cl) /\
       error_bar l' (nsub (cell_mean cl') (cell_mean cl)) c = Ok (cell_error cl')).
  Proof.
    intros FN N1 N2 H H' NE DR EN EN'.
    destruct (C77_entries _ _ _ _ _ _ _ _ _ _ _ N1 N2 H) as (_ & LAB & r & FR & K).
    destruct (C77_entries _ _ _ _ _ _ _ _ _ _ _ N1 N2 H') as (_ & _ & r' & FR' & K').
    assert (In (b, curve) (map fst out)) as J by (destruct EN as [I _]; exact (in_map fst _ _ I)). apply LAB in J. destruct J as [_ J].
    apply in_map_iff in J as ([k f] & Q & J). cbn [fst] in Q. subst k.
    destruct (K _ _ _ _ FR' J) as (m & e & p & d & c1 & B & [E1 _] & C1 & C2 & _).
    destruct (K' _ _ _ _ FR J) as (m' & e' & p' & d' & c1' & B' & [E1' _] & C1' & C2' & _).
    destruct EN as [_ EN]. apply EN in E1. injection E1 as -> _. destruct (C2 (not_eq_sym NE)) as [C3 C4].
    destruct EN' as [_ EN']. apply EN' in E1'. injection E1' as -> _. destruct (C2' NE) as [C3' C4'].
    rewrite C4, C4', C3, C3', C1, C1'. rewrite DR in B. eapply exchange_curve; eauto.
  Qed.
End Exchange.

(** ** C88: a method identical to the reference *)
Open Scope R_scope.

(** Loss tables, exact arithmetic. *)
Theorem C88_losses_exact :
  forall sf ppf draw (t : loss_table_t xr) ref pairwise c m limits out metric method x cl clr,
  @loss_summary_table _ _ (special sf ppf) draw t ref pairwise c m limits = Ok out ->
  method <> ref -> column t metric method x -> column t metric ref x ->
  (m = Mboot -> forall b, multinomial_outcome (Z.of_nat (length x)) 1000 (draw metric method b)) ->
  In ((metric, method), cl) out -> In ((metric, ref), clr) out ->
  cell_mean cl = cell_mean clr /\ cell_pval cl = Fin 1 /\
  (pairwise = true -> (2 <= length x)%nat -> m = Mt \/ m = Mboot -> cell_error cl = Fin 0) /\
  (pairwise = false -> (m = Mboot -> draw metric method false = draw metric ref false) -> cell_error cl = cell_error clr).
Proof.
  intros sf ppf draw t ref pw c m limits out metric method x cl clr H NE CX CR MO I IR.
  destruct (identical_table (special sf ppf) (fn_xr_zero_laws sf ppf) draw t ref pw c m limits out metric method x cl clr H NE CX CR MO
    (fun _ _ => eq_refl) I IR) as (A & B & C & D).
  split; [exact A|]. split; [exact B|]. split; [|exact D]. intros P L M. apply xeqb_eq. exact (C P L M).
Qed.
Print Assumptions C88_losses_exact.

(** Loss tables in doubles, for every mathematical library with [exp(0) == 1]
    whose survival function propagates NaN. *)
Theorem C88_losses_doubles :
  forall fexp flog sf ppf eig draw (t : loss_table_t f64) ref pairwise c m limits out metric method x cl clr,
  fexp f0 = f_of_Z 1 -> (forall df v, fisnan v = true -> fisnan (sf df v) = true) ->
  @loss_summary_table _ _ (fn_f64 fexp flog sf ppf eig) draw t ref pairwise c m limits = Ok out ->
  method <> ref -> column t metric method x -> column t metric ref x -> (Z.of_nat (length x) <= 2 ^ 53)%Z ->
  (m = Mboot -> forall b, multinomial_outcome (Z.of_nat (length x)) 1000 (draw metric method b)) ->
  In ((metric, method), cl) out -> In ((metric, ref), clr) out ->
  cell_mean cl = cell_mean clr /\ cell_pval cl = f_of_Z 1 /\
  (pairwise = true -> (2 <= length x)%nat -> m = Mt \/ m = Mboot -> feqb (cell_error cl) f0 = true) /\
  (pairwise = false -> (m = Mboot -> draw metric method false = draw metric ref false) -> cell_error cl = cell_error clr).
Proof.
  intros fexp flog sf ppf eig draw t ref pw c m limits out metric method x cl clr E N H NE CX CR LX MO I IR.
  refine (identical_table _ (fn_f64_zero_laws fexp flog sf ppf eig E N) draw t ref pw c m limits out metric method x cl clr H NE CX CR MO _ I IR).
  intros k K. apply f_of_Z_correct. lia.
Qed.
Print Assumptions C88_losses_doubles.

(** Curve tables; any curve function. *)
Theorem C88_curves_exact :
  forall draw (tbl : pred_table xr) kd y curves ref_method x_grid n_boot pairwise c out method rows curve cl dump,
  NoDup (map fst curves) -> NoDup (map fst (pt_methods tbl)) ->
  curve_summary_table draw tbl kd y curves ref_method x_grid n_boot pairwise c = Ok out ->
  method <> ref_method -> frame_of tbl method rows -> frame_of tbl ref_method rows -> entry_of out method curve cl dump ->
  cell_pval cl = Fin 1 /\ (forall r, pairwise = true -> cell_mean cl = Fin r -> cell_error cl = Fin 0) /\
  forall clr dumpr, entry_of out ref_method curve clr dumpr -> cell_mean cl = cell_mean clr.
Proof.
  intros draw tbl kd y cs rm g nb pw c out method rows curve cl dump N1 N2 H NE M MR EN.
  destruct (identical_curve_table (NT := xr_num) draw tbl kd y cs rm g nb pw c out method rows curve cl dump eq_refl N1 N2 H NE M MR EN) as (A & B & C).
  split; [exact A|]. split; [|exact C]. intros r P Q. apply B; [exact P|]. now rewrite Q.
Qed.
Print Assumptions C88_curves_exact.

Theorem C88_curves_doubles :
  forall draw (tbl : pred_table f64) kd y curves ref_method x_grid n_boot pairwise c out method rows curve cl dump,
  (1 <= n_boot <= 2 ^ 53)%Z -> NoDup (map fst curves) -> NoDup (map fst (pt_methods tbl)) ->
  curve_summary_table draw tbl kd y curves ref_method x_grid n_boot pairwise c = Ok out ->
  method <> ref_method -> frame_of tbl method rows -> frame_of tbl ref_method rows -> entry_of out method curve cl dump ->
  cell_pval cl = f_of_Z 1 /\ (pairwise = true -> fisfin (cell_mean cl) = true -> cell_error cl = f0) /\
  forall clr dumpr, entry_of out ref_method curve clr dumpr -> cell_mean cl = cell_mean clr.
Proof.
  intros draw tbl kd y cs rm g nb pw c out method rows curve cl dump NB N1 N2 H NE M MR EN.
  apply (identical_curve_table (NT := f64_num) draw tbl kd y cs rm g nb pw c out method rows curve cl dump); auto. apply f_of_Z_correct. lia.
Qed.
Print Assumptions C88_curves_doubles.

(** ** C89: which of two methods is the reference *)

Theorem C89_losses_exact :
  forall sf ppf draw draw' (t : loss_table_t xr) a b pairwise c m limits out out' metric x y cl cl',
  @loss_summary_table _ _ (special sf ppf) draw t a pairwise c m limits = Ok out ->
  @loss_summary_table _ _ (special sf ppf) draw' t b pairwise c m limits = Ok out' ->
  a <> b -> column t metric a x -> column t metric b y -> length x = length y ->
  (m = Mboot -> forall w, draw metric b w = draw' metric a w /\ draw metric b w <> []) ->
  In ((metric, b), cl) out -> In ((metric, a), cl') out' ->
  cell_pval cl = cell_pval cl' /\ (pairwise = true -> cell_error cl = cell_error cl').
Proof.
  intros sf ppf draw draw' t a b pw c m limits out out' metric x y cl cl' H H' NE CX CY L DR I I'.
  destruct (exchange_table (NT := xr_num) (rel := xrel) (special sf ppf) draw draw' t a b pw c m limits out out' metric x y cl cl') as (P & _ & Q); auto.
  { intros B w. destruct (DR B w). auto. }
  split; [exact P|]. intros PW. destruct (Q PW) as (counts & lo & mu & mu' & B & G & G').
  exact (proj2 (swap_get_mean_EB_test_xr _ _ _ _ _ _ _ _ _ _ _ _ _ (swap_deltas (rel := xrel) y x (eq_sym L)) B G G')).
Qed.
Print Assumptions C89_losses_exact.

(** In doubles the p-values are the same double, and the pairwise errors of the
    t-test and Bernstein methods are equal, for every mathematical library. *)
Theorem C89_losses_doubles :
  forall fexp flog sf ppf eig draw draw' (t : loss_table_t f64) a b pairwise c m limits out out' metric x y cl cl',
  @loss_summary_table _ _ (fn_f64 fexp flog sf ppf eig) draw t a pairwise c m limits = Ok out ->
  @loss_summary_table _ _ (fn_f64 fexp flog sf ppf eig) draw' t b pairwise c m limits = Ok out' ->
  a <> b -> column t metric a x -> column t metric b y -> length x = length y ->
  (m = Mboot -> forall w, draw metric b w = draw' metric a w /\ (1 <= Z.of_nat (length (draw metric b w)) <= 2 ^ 53)%Z) ->
  In ((metric, b), cl) out -> In ((metric, a), cl') out' ->
  cell_pval cl = cell_pval cl' /\ (pairwise = true -> m <> Mboot -> feqb (cell_error cl) (cell_error cl') = true).
Proof.
  intros fexp flog sf ppf eig draw draw' t a b pw c m limits out out' metric x y cl cl' H H' NE CX CY L DR I I'.
  destruct (exchange_table (NT := f64_num) (rel := frel) (fn_f64 fexp flog sf ppf eig) draw draw' t a b pw c m limits out out' metric x y cl cl') as (P & Q & _); auto.
  intros B w. destruct (DR B w) as [D1 D2]. split; [exact D1|]. split; [intros Z; rewrite Z in D2; cbn in D2; lia|]. apply f_of_Z_correct. lia.
Qed.
Print Assumptions C89_losses_doubles.

Theorem C89_curves_exact :
  forall draw draw' (tbl : pred_table xr) kd y curves a b g g' n_boot pairwise c out out' curve cl dump cl' dump',
  NoDup (map fst curves) -> NoDup (map fst (pt_methods tbl)) ->
  curve_summary_table draw tbl kd y curves a g n_boot pairwise c = Ok out ->
  curve_summary_table draw' tbl kd y curves b g' n_boot pairwise c = Ok out' ->
  a <> b -> draw b curve = draw' a curve ->
  entry_of out b curve cl dump -> entry_of out' a curve cl' dump' ->
  cell_pval cl = cell_pval cl' /\ (pairwise = true -> cell_error cl = cell_error cl').
Proof.
  intros draw draw' tbl kd y cs a b g g' nb pw c out out' curve cl dump cl' dump' N1 N2 H H' NE DR EN EN'.
  destruct (exchange_curve_table (NT := xr_num) (rel := xrel) draw draw' tbl kd y cs a b g g' nb pw c out out' curve cl dump cl' dump' eq_refl N1 N2 H H' NE DR EN EN') as [P Q].
  split; [exact P|]. intros PW. destruct (Q PW) as (l & l' & F & E & E'). eapply swap_error_bar_xr; [exact F| |exact E|exact E']. apply (sw_sub (rel := xrel)).
Qed.
Print Assumptions C89_curves_exact.

Theorem C89_curves_doubles :
  forall draw draw' (tbl : pred_table f64) kd y curves a b g g' n_boot pairwise c out out' curve cl dump cl' dump',
  (1 <= n_boot <= 2 ^ 53)%Z -> NoDup (map fst curves) -> NoDup (map fst (pt_methods tbl)) ->
  curve_summary_table draw tbl kd y curves a g n_boot pairwise c = Ok out ->
  curve_summary_table draw' tbl kd y curves b g' n_boot pairwise c = Ok out' ->
  a <> b -> draw b curve = draw' a curve ->
  entry_of out b curve cl dump -> entry_of out' a curve cl' dump' ->
  cell_pval cl = cell_pval cl'.
Proof.
  intros draw draw' tbl kd y cs a b g g' nb pw c out out' curve cl dump cl' dump' NB N1 N2 H H' NE DR EN EN'.
  apply (exchange_curve_table (NT := f64_num) (rel := frel) draw draw' tbl kd y cs a b g g' nb pw c out out' curve cl dump cl' dump'); auto.
  apply f_of_Z_correct. lia.
Qed.
Print Assumptions C89_curves_doubles.

(** The bootstrap errors in doubles do depend on which method is the reference:
    the two percentile indices are rounded differently (here, with 21
    replicates and confidence 0.9, to the smallest and the second largest
    replicate), so negating the replicates does not just exchange the bounds. *)
Definition draws21 : list (list Z) :=
  [[0; 2; 1; 0; 2]; [1; 0; 0; 1; 3]; [1; 1; 1; 1; 1]; [0; 1; 0; 2; 2]; [0; 3; 0; 1; 1]; [2; 1; 0; 1; 1]; [2; 0; 2; 1; 0]; [0; 0; 0; 3; 2]; [2; 1; 1; 1; 0]; [0; 2; 1; 2; 0]; [0; 0; 1; 2; 2]; [0; 0; 1; 1; 3]; [1; 1; 2; 0; 1]; [0; 1; 1; 0; 3]; [1; 1; 2; 0; 1]; [3; 0; 0; 2; 0]; [2; 1; 1; 1; 0]; [2; 0; 1; 2; 0]; [1; 0; 0; 1; 3]; [0; 1; 2; 0; 2]; [4; 0; 1; 0; 0]]%Z.
Definition two_methods : pred_table f64 :=
  let p l := ([0; 1]%Z, map (fun v => [f0; f_of_Z v]) l) in
  {| pt_len := 5; pt_labels := [0; 1]%Z; pt_methods := [(tA, p [3; 1; 2; 2; 1]%Z); (tB, p [1; 2; 2; 1; 3]%Z)] |}.
Definition versus ref : res (list ((pystr * pystr) * (cell f64 * list (@grid_row f64)))) :=
  curve_summary_table (fun _ _ => draws21) two_methods Ki [1; 0; 1; 0; 1]%Z [(tM, roc_curve)] ref
    (Some [f0; f_lit 1 2; f_of_Z 1]) 21 true (f_lit 9 10).
Definition errors_of (r : res (list ((pystr * pystr) * (cell f64 * list (@grid_row f64))))) (method : pystr) : list f64 :=
  match r with
  | Ok out => map (fun e => cell_error (fst (snd e))) (filter (fun e => pystr_eqb (fst (fst e)) method) out)
  | Err _ => []
  end.
Lemma versus_entry ref method (f : f64 -> bool) :
  match errors_of (versus ref) method with [e] => f e | _ => false end = true ->
  exists out cl dump, versus ref = Ok out /\ In ((method, tM), (cl, dump)) out /\ f (cell_error cl) = true.
Proof.
  intros Q. destruct (versus ref) as [out|] eqn:V; [|discriminate]. exists out. unfold errors_of in Q.
  remember (filter (fun e => pystr_eqb (fst (fst e)) method) out) as l eqn:F. destruct l as [|[[m cv] [cl dump]] [|]]; try discriminate Q. cbn [map fst snd] in Q.
  assert (In ((m, cv), (cl, dump)) (filter (fun e => pystr_eqb (fst (fst e)) method) out)) as I by (rewrite <- F; now left).
  apply filter_In in I as [I1 I2]. cbn [fst] in I2. apply pystr_eqb_spec in I2. subst m. exists cl, dump. split; [reflexivity|]. split; [|exact Q].
  assert (cv = tM) as ->; [|exact I1].
  assert (NoDup (map fst [(tM, roc_curve (T := f64))])) as N1 by (constructor; [intros []|constructor]).
  assert (NoDup (map fst (pt_methods two_methods))) as N2 by (constructor; [intros [Z|[]]; discriminate|constructor; [intros []|constructor]]).
  unfold versus in V. destruct (C77_entries _ _ _ _ _ _ _ _ _ _ _ N1 N2 V) as (_ & L & _). apply (in_map fst) in I1. apply L in I1 as [_ I1].
  destruct I1 as [I1|[]]. now symmetry.
Qed.
Lemma versus_eq ref : versus ref =
  curve_summary_table (fun _ _ => draws21) two_methods Ki [1; 0; 1; 0; 1]%Z [(tM, roc_curve)] ref (Some [f0; f_lit 1 2; f_of_Z 1]) 21 true (f_lit 9 10).
Proof. unfold versus. reflexivity. Qed.
Lemma versus_a : match errors_of (versus tA) tB with [e] => fltb e (f_lit 9 10) | _ => false end = true.
Proof. vm_compute. reflexivity. Qed.
Lemma versus_b : match errors_of (versus tB) tA with [e] => fltb (f_lit 9 10) e | _ => false end = true.
Proof. vm_compute. reflexivity. Qed.
Lemma draws21_ok : multinomial_outcome 5 21 draws21.
Proof. split; [reflexivity|]; repeat (constructor; [split; [reflexivity|split; [repeat constructor; lia|reflexivity]]|]); constructor. Qed.
Theorem C89_curves_doubles_error_refuted :
  exists draw (tbl : pred_table f64) kd y curves a b x_grid n_boot c out out' cl dump cl' dump' curve,
  curve_summary_table draw tbl kd y curves a x_grid n_boot true c = Ok out /\
  curve_summary_table draw tbl kd y curves b x_grid n_boot true c = Ok out' /\
  a <> b /\ draw b curve = draw a curve /\ multinomial_outcome (Z.of_nat (length y)) n_boot (draw a curve) /\
  In ((b, curve), (cl, dump)) out /\ In ((a, curve), (cl', dump')) out' /\
  fltb (cell_error cl) (f_lit 9 10) = true /\ fltb (f_lit 9 10) (cell_error cl') = true.
Proof.
  destruct (versus_entry tA tB (fun e => fltb e (f_lit 9 10)) versus_a) as (out & cl & dump & H1 & H2 & H3).
  destruct (versus_entry tB tA (fun e => fltb (f_lit 9 10) e) versus_b) as (out' & cl' & dump' & H1' & H2' & H3').
  rewrite versus_eq in H1, H1'.
  exists (fun _ _ => draws21), two_methods, Ki, [1; 0; 1; 0; 1]%Z, [(tM, roc_curve)], tA, tB, (Some [f0; f_lit 1 2; f_of_Z 1]), 21%Z, (f_lit 9 10), out, out', cl, dump, cl', dump', tM.
  split; [exact H1|]. split; [exact H1'|]. split; [discriminate|]. split; [reflexivity|].
  split; [exact draws21_ok|]. auto.
Qed.
Print Assumptions C89_curves_doubles_error_refuted.

(** In doubles: a and b have the same losses, so b has p-value one and pairwise
    error zero; and with different losses the p-values of a against b and of b
    against a agree. *)
Definition same_losses := small_table [f_of_Z 1; f_of_Z 3; f_of_Z 2] [f_of_Z 1; f_of_Z 3; f_of_Z 2].
Definition other_losses := small_table [f_of_Z 1; f_of_Z 3; f_of_Z 2] [f_of_Z 4; f_of_Z 3; f_of_Z 5].
Definition thirds : list (list Z) := [[2; 1; 0]; [1; 1; 1]; [0; 0; 3]]%Z.
(* a mathematical library that meets the hypotheses of [C88_losses_doubles] *)
Definition lib_fn : fn f64 :=
  fn_f64 (fun x => fadd x (f_of_Z 1)) (fun x => fsub x (f_of_Z 1)) (fun _ x => fdiv (f_lit 1 2) (fadd (f_of_Z 1) x)) (fun _ q => fsub q (f_lit 1 2)) (fun _ _ => None).
Definition show_p (r : res (list ((pystr * pystr) * cell f64))) : list (option Z * option Z) :=
  match r with Ok out => map (fun e => (Props_Curves.milli (cell_error (snd e)), Props_Curves.milli (cell_pval (snd e)))) out | Err _ => [] end.
Example C88_example :
  let lims := [(mL, (f0, f_of_Z 10))] in
  fadd f0 (f_of_Z 1) = f_of_Z 1 /\ fisnan (fdiv (f_lit 1 2) (fadd (f_of_Z 1) fnan)) = true /\
  column same_losses mL mA [f_of_Z 1; f_of_Z 3; f_of_Z 2] /\ column same_losses mL mB [f_of_Z 1; f_of_Z 3; f_of_Z 2] /\
  show_p (@loss_summary_table _ _ lib_fn (fun _ _ _ => []) same_losses mA true (f_lit 95 100) Mt lims) = [(None, None); (Some 0, Some 1000)]%Z /\
  show_p (@loss_summary_table _ _ lib_fn (fun _ _ _ => []) same_losses mA false (f_lit 95 100) Mbernstein lims) = [(Some 8000, None); (Some 8000, Some 1000)]%Z /\
  show_p (@loss_summary_table _ _ lib_fn (fun _ _ _ => thirds) same_losses mA true (f_lit 95 100) Mboot lims) = [(None, None); (Some 0, Some 1000)]%Z.
Proof.
  intros lims. split; [reflexivity|]. split; [reflexivity|].
  assert (forall m, m = mA \/ m = mB -> column same_losses mL m [f_of_Z 1; f_of_Z 3; f_of_Z 2]) as C.
  { intros m M. split; [destruct M as [->| ->]; [now left|now right; left]|]. intros z [H|[H|[]]]; injection H; congruence. }
  split; [auto|]. split; [auto|]. vm_compute. repeat split.
Qed.
Example C89_example :
  let lims := [(mL, (f0, f_of_Z 10))] in
  show_p (@loss_summary_table _ _ lib_fn (fun _ _ _ => []) other_losses mA true (f_lit 95 100) Mt lims) = [(None, None); (Some 475, Some 333)]%Z /\
  show_p (@loss_summary_table _ _ lib_fn (fun _ _ _ => []) other_losses mB true (f_lit 95 100) Mt lims) = [(Some 475, Some 333); (None, None)]%Z.
Proof. vm_compute. repeat split. Qed.
(** The hypotheses of the curve theorems: two methods with the same predictions. *)
Example C88_curves_example :
  let p := ([0; 1]%Z, map (fun v => [f0; f_of_Z v]) [3; 1; 2; 2; 1]%Z) in
  let tbl := {| pt_len := 5; pt_labels := [0; 1]%Z; pt_methods := [(tA, p); (tB, p)] |} in
  NoDup (map fst (pt_methods tbl)) /\ frame_of tbl tA (snd p) /\ frame_of tbl tB (snd p) /\
  match curve_summary_table (fun _ _ => [[2; 1; 0; 1; 1]; [1; 1; 1; 1; 1]; [0; 1; 2; 2; 0]]%Z) tbl Ki [1; 0; 1; 0; 1]%Z [(tM, roc_curve)] tB
    (Some [f0; f_lit 1 2; f_of_Z 1]) 3 true (f_lit 95 100) with
  | Ok out => map (fun e => let c := fst (snd e) in (fst e, Props_Curves.milli (cell_mean c), Props_Curves.milli (cell_error c), Props_Curves.milli (cell_pval c))) out
      = [((tA, tM), Some 666, Some 0, Some 1000); ((tB, tM), Some 666, None, None)]%Z
  | Err _ => False
  end.
Proof.
  intros p tbl. split; [constructor; [intros [H|[]]; discriminate|constructor; [intros []|constructor]]|].
  split; [exists [0; 1]%Z; now left|]. split; [exists [0; 1]%Z; now right; left|]. vm_compute. reflexivity.
Qed.
