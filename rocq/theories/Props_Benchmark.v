(** Property theorems C83-C87: the one-call benchmark functions. *)
From Coq Require Import Reals Lra Lia.
From Flocq Require Import Core BinarySingleNaN.
From Verif Require Import PyBase ListLemmas F64 Num F64Lemmas NumOk Util UtilProofs BootUtil PerfCurves PerfProofs CurveBoot CurveProofs CurveProofs2
  MLPaper MLProofs2 MLProofs3 MLProofs4 Checkpoint CheckpointProofs Classification Regression Benchmark ClassProofs ClassProofs2 ClassProofs3 ClassProofs4
  ClassProofs5 RegrProofs LossTableProofs BenchProofs.
From Verif Require Import Props_Boot Props_Curves Props_MLPaper Props_Classification Props_Predict Props_Regression Props_Tables.
Open Scope R_scope.

(** ** C83 *)
Section C83.
  Context {T : Type} {NT : num T} {FT : fn T} (normalize : nat -> list (list T) -> res (list (list T))) {S X : Type}.

  (** Accepted exactly when the inputs have the documented form and every
      estimator predicts a matrix of the right shape that can be normalised;
      the table then holds that matrix for every method. *)
  Theorem C83_classification :
    forall key_eqb (o : classifier T S X) X_train kd y_train X_test n_labels methods min_log_prob,
    let predicted s rows := c_predicts o s (fa_data X_train) y_train (fa_data X_test) rows n_labels in
    ((exists tbl, get_pred_log_prob normalize key_eqb o false [] X_train kd y_train X_test n_labels methods min_log_prob = Ok tbl) <->
     exists n_test, c_inputs X_train kd y_train X_test n_labels min_log_prob n_test /\
     forall name s, In (name, s) methods -> exists rows P, predicted s rows /\ length rows = n_test /\
       normalize n_labels (map (map (nmax min_log_prob)) rows) = Ok P) /\
    forall tbl, get_pred_log_prob normalize key_eqb o false [] X_train kd y_train X_test n_labels methods min_log_prob = Ok tbl ->
    map fst (pt_methods tbl) = map fst methods /\ pt_labels tbl = map Z.of_nat (seq 0 n_labels) /\
    Forall2 (fun m frame => exists rows, predicted (snd m) rows /\ length rows = pt_len tbl /\ fst (snd frame) = pt_labels tbl /\
      normalize n_labels (map (map (nmax min_log_prob)) rows) = Ok (snd (snd frame))) methods (pt_methods tbl).
  Proof.
    intros key_eqb o Xtr kd ytr Xte L methods m predicted. split; [apply get_pred_iff|]. intros tbl E.
    apply get_pred_inv in E as (_ & E2 & _ & F). split; [|split; [exact E2|]].
    - clear - F. induction F as [|? ? ? ? (H & _) F IH]; cbn; [reflexivity|]. now rewrite H, IH.
    - rewrite E2. eapply Forall2_impl_; [|exact F]. intros [n s] fr (H1 & H2 & rows & H3 & H4 & H5). exists rows. split; [now apply c_train_predict_iff|auto].
  Qed.

  Theorem C83_classification_rejected :
    forall (X_train : farray X) kd y_train (X_test : farray X) n_labels (min_log_prob : T),
    (forall n_test, ~ c_inputs X_train kd y_train X_test n_labels min_log_prob n_test) ->
    exists e, forall key_eqb (o : classifier T S X) memory st methods,
    get_pred_log_prob normalize key_eqb o memory st X_train kd y_train X_test n_labels methods min_log_prob = Err e.
  Proof. intros. now apply get_pred_reject. Qed.

  Theorem C83_regression :
    forall key_eqb (o : regressor T S X) X_train y_train X_test methods (min_std : T),
    let predicted s mu std := r_predicts o s (fa_data X_train) y_train (fa_data X_test) mu std in
    ((exists tbl, get_gauss_pred key_eqb o false [] X_train y_train X_test methods min_std = Ok tbl) <->
     exists n_test, r_inputs X_train y_train X_test min_std n_test /\
     forall name s, In (name, s) methods -> exists mu std, predicted s mu std /\ length mu = n_test /\ length std = n_test) /\
    forall tbl, get_gauss_pred key_eqb o false [] X_train y_train X_test methods min_std = Ok tbl ->
    Forall2 (fun m row => fst row = fst m /\ exists mu std, predicted (snd m) mu std /\
      length mu = gt_len tbl /\ length std = gt_len tbl /\ snd row = (mu, map (nmax min_std) std)) methods (gt_methods tbl).
  Proof.
    intros key_eqb o Xtr ytr Xte methods m predicted. split; [apply get_gauss_iff|]. intros tbl E.
    apply get_gauss_inv in E as (_ & _ & _ & F). eapply Forall2_impl_; [|exact F]. intros [n s] row (H1 & mu & std & H2 & H3). split; [exact H1|].
    exists mu, std. split; [now apply r_train_predict_iff|auto].
  Qed.

  Theorem C83_regression_rejected :
    forall (X_train : farray X) y_train (X_test : farray X) (min_std : T),
    (forall n_test, ~ r_inputs X_train y_train X_test min_std n_test) ->
    forall key_eqb (o : regressor T S X) memory st methods,
    get_gauss_pred key_eqb o memory st X_train y_train X_test methods min_std = Err AssertionError.
  Proof. intros. now apply get_gauss_reject. Qed.
End C83.
Print Assumptions C83_classification.
Print Assumptions C83_classification_rejected.
Print Assumptions C83_regression.
Print Assumptions C83_regression_rejected.

(** The fall-backs: an estimator without log probabilities, one without
    standard deviations. *)
Example C83_example :
  c_inputs one_point Ki [0%Z] one_point 2 (Fin (-1)) 1 /\
  r_inputs one_point [Fin 0] one_point (Fin 0) 1 /\
  (forall sf ppf, @c_predicts _ (fn_xr sf ppf) unit unit
    {| cl_fit := fun s _ _ => Ok s; cl_predict_log_proba := fun _ _ => Err KeyError; cl_predict_proba := fun _ _ => Ok ([[Fin 1; Fin 0]], 2%nat) |}
    tt tt [0%Z] tt [[Fin 0; NInf]] 2) /\
  r_predicts {| rg_fit := fun s _ _ => Ok s; rg_predict_std := fun _ _ => Err TypeError; rg_predict := fun _ _ => Ok [Fin 3] |} tt tt [Fin 0] tt [Fin 3] [Fin 1].
Proof.
  split; [|split; [|split]].
  - exists 1%Z, [], []. cbn. repeat split; auto; try discriminate; try lia.
    + repeat constructor; lia.
    + unfold Rltb. destruct (Rlt_dec _ _); [reflexivity|lra].
  - exists 1%Z. cbn. repeat split; auto. unfold Rleb. destruct (Rle_dec _ _); [reflexivity|lra].
  - intros sf ppf. exists tt. split; [reflexivity|]. right. exists KeyError, [[Fin 1; Fin 0]]. split; [reflexivity|]. split; [reflexivity|].
    cbn. unfold Rltb, Reqb. destruct (Rlt_dec 0 1); [|lra]. destruct (Rlt_dec 0 0); [lra|]. destruct (Req_EM_T 0 0); [|lra]. now rewrite ln_1.
  - exists tt. split; [reflexivity|]. right. auto.
Qed.

(** ** C84 *)
Lemma label_dec (a b : pystr) : a = b \/ a <> b.
Proof. destruct (pystr_eqb a b) eqn:E; [left; now apply pystr_eqb_spec|right]. intros H. apply pystr_eqb_spec in H. congruence. Qed.

(** What a cell says about a list of losses and the losses of the reference.
    [draw b] are the draws made for the cell. *)
Definition loss_cell {T} {NT : num T} {FT : fn T} (draw : bool -> list (list Z)) (is_ref pairwise : bool) (confidence : T) (m : eb_method)
    (lim : T * T) (loss loss_ref : list T) (c : cell T) : Prop :=
  let range_ := nsub (snd lim) (fst lim) in
  let deltas := map2 nsub loss loss_ref in
  cell_mean c = nmean loss /\
  match is_ref, pairwise with
  | true, true => cell_error c = nnan /\ cell_pval c = nnan
  | true, false => (exists mu, get_mean_and_EB (draw false) loss confidence n0 (fst lim) (snd lim) m = Ok (mu, cell_error c)) /\ cell_pval c = nnan
  | false, true => exists mu, get_mean_EB_test (draw false) deltas confidence n0 (nopp range_) range_ m = Ok (mu, cell_error c, cell_pval c)
  | false, false => (exists mu, get_mean_and_EB (draw false) loss confidence n0 (fst lim) (snd lim) m = Ok (mu, cell_error c)) /\
                    get_test (draw true) deltas (nopp range_) range_ m = Ok (cell_pval c)
  end.
Lemma loss_cell_unique {T} {NT : num T} {FT : fn T} draw r p cf m lim l lr (c c' : cell T) :
  loss_cell draw r p cf m lim l lr c -> loss_cell draw r p cf m lim l lr c' -> c = c'.
Proof.
  destruct c as [a b q], c' as [a' b' q']. unfold loss_cell. cbn [cell_mean cell_error cell_pval]. intros [-> H] [-> H'].
  destruct r, p.
  - destruct H as [-> ->], H' as [-> ->]. reflexivity.
  - destruct H as [(u & H) ->], H' as [(v & H') ->]. rewrite H in H'. apply Ok_inj in H'. now injection H' as _ ->.
  - destruct H as (u & H), H' as (v & H'). rewrite H in H'. apply Ok_inj in H'. now injection H' as _ -> ->.
  - destruct H as [(u & H) G], H' as [(v & H') G']. rewrite H in H'. apply Ok_inj in H'. injection H' as _ ->. rewrite G in G'. apply Ok_inj in G'. now subst.
Qed.
Lemma table_cell {T} {NT : num T} {FT : fn T} draw (t : loss_table_t T) ref pw cf m limits out metric method c loss loss_ref :
  loss_summary_table draw t ref pw cf m limits = Ok out -> In ((metric, method), c) out -> column t metric method loss -> column t metric ref loss_ref ->
  loss_cell (draw metric method) (pystr_eqb method ref) pw cf m (limits_of limits metric) loss loss_ref c.
Proof.
  intros H I C1 C2. destruct (C60_cells _ _ _ _ _ _ _ _ H) as [_ K]. destruct (K _ _ _ I) as (x & r & X & R & D). clear K.
  rewrite (column_unique _ _ _ _ _ X C1), (column_unique _ _ _ _ _ R C2) in D.
  unfold loss_cell. destruct (limits_of limits metric) as [lower upper]. cbn [fst snd]. cbv zeta in D |- *. destruct D as (D1 & D2 & D3 & D4 & D5 & D6).
  split; [exact D1|]. destruct (pystr_eqb method ref) eqn:E.
  - apply pystr_eqb_spec in E. destruct pw; auto.
  - assert (method <> ref) as NE by (intros Q; apply pystr_eqb_spec in Q; congruence). destruct pw; auto.
Qed.
Lemma NoDup_entry {K V} (l : list (K * V)) k : In k (map fst l) -> exists v, In (k, v) l.
Proof. intros H. apply in_map_iff in H. destruct H as ([k' v] & E & H). cbn [fst] in E. subst k'. now exists v. Qed.

Section C84.
  Context {T : Type} {NT : num T} {FT : fn T} (normalize : nat -> list (list T) -> res (list (list T))) {S X : Type}.
  Context (key_eqb : S * (X * list Z * X) -> S * (X * list Z * X) -> bool) (o : classifier T S X).
  Context (draw_curve : pystr -> pystr -> list (list Z)) (draw_loss : pystr -> pystr -> bool -> list (list Z)).
  Context (X_train : farray X) (kd : dkind) (y_train : list Z) (X_test : farray X) (y_test : list Z) (n_labels : nat).
  Context (ref_method : pystr) (min_log_prob : T) (pairwise : bool) (m : eb_method).
  Notation bench methods losses curves limits :=
    (just_benchmark normalize key_eqb o draw_curve draw_loss X_train kd y_train X_test y_test n_labels methods losses curves ref_method min_log_prob pairwise m limits).
  Notation c95 := (ndiv (nofZ 95) (nofZ 100)).

  (** what the estimator says about the test points, floored and normalised *)
  Definition reported (s : S) (P : list (list T)) : Prop :=
    exists rows, c_predicts o s (fa_data X_train) y_train (fa_data X_test) rows n_labels /\ normalize n_labels (map (map (nmax min_log_prob)) rows) = Ok P.
  Lemma reported_unique s P P' : reported s P -> reported s P' -> P = P'.
  Proof.
    intros (r & H & E) (r' & H' & E'). apply c_train_predict_iff in H, H'. rewrite H in H'. apply Ok_inj in H'. injection H' as <-. rewrite E in E'. now apply Ok_inj in E'.
  Qed.
  (** its losses, after normalising once more *)
  Definition losses_of (f : metric_fun T) (s : S) (loss : list T) : Prop :=
    exists P P', reported s P /\ normalize n_labels P = Ok P' /\ f kd y_test P' n_labels = Ok loss /\ length loss = length y_test.
  Lemma losses_unique f s l l' : losses_of f s l -> losses_of f s l' -> l = l'.
  Proof.
    intros (P & P' & R & E & F & _) (Q & Q' & R' & E' & F' & _). rewrite (reported_unique _ _ _ R' R) in E'. rewrite E in E'. apply Ok_inj in E'. subst Q'.
    rewrite F in F'. now apply Ok_inj in F'.
  Qed.
  (** its curve summary against the reference *)
  Definition curve_entry (f : curve_fun T) (method curve : pystr) (s s_ref : S) (e : cell T * list grid_row) : Prop :=
    exists P P_ref auc EB p, reported s P /\ reported s_ref P_ref /\
      curve_boot (draw_curve method curve) kd y_test P n_labels (RefPred P_ref) f None 1000 pairwise c95 = Ok ((auc, EB, p), snd e) /\
      cell_mean (fst e) = auc /\ cell_error (fst e) = (if pystr_eqb method ref_method && pairwise then nnan else EB) /\
      cell_pval (fst e) = (if pystr_eqb method ref_method then nnan else p).
  Lemma curve_entry_unique f method curve s sr e e' : curve_entry f method curve s sr e -> curve_entry f method curve s sr e' -> e = e'.
  Proof.
    intros (P & R & auc & EB & p & H1 & H2 & H3 & H4 & H5 & H6) (P' & R' & auc' & EB' & p' & H1' & H2' & H3' & H4' & H5' & H6').
    rewrite (reported_unique _ _ _ H1' H1), (reported_unique _ _ _ H2' H2), H3 in H3'. apply Ok_inj in H3'. injection H3' as <- <- <- Hd.
    destruct e as [[a b q] d], e' as [[a' b' q'] d']. cbn [fst snd cell_mean cell_error cell_pval] in *. congruence.
  Qed.

  Lemma bench_inv methods losses curves limits lo cu : NoDup (map fst methods) -> NoDup (map fst losses) -> NoDup (map fst curves) ->
    bench methods losses curves limits = Ok (lo, cu) ->
    map fst lo = list_prod (map fst losses) (map fst methods) /\ NoDup (map fst cu) /\
    (forall method curve, In (method, curve) (map fst cu) <-> In method (map fst methods) /\ In curve (map fst curves)) /\
    exists s_ref, In (ref_method, s_ref) methods /\
    forall method s, In (method, s) methods ->
      (forall metric f c, In (metric, f) losses -> In ((metric, method), c) lo ->
         exists loss loss_ref, losses_of f s loss /\ losses_of f s_ref loss_ref /\
           loss_cell (draw_loss metric method) (pystr_eqb method ref_method) pairwise c95 m (limits_of limits metric) loss loss_ref c) /\
      (forall curve f e, In (curve, f) curves -> In ((method, curve), e) cu -> curve_entry f method curve s s_ref e).
  Proof.
    intros N1 N2 N3 H. unfold just_benchmark in H. destruct (get_pred_log_prob _ _ _ _ _ _ _ _ _ _ _ _) as [tbl|] eqn:E1; [|discriminate]. cbn [bind] in H.
    unfold summary_table in H. destruct (curve_summary_table _ _ _ _ _ _ _ _ _ _) as [cu'|] eqn:E2; [|discriminate]. cbn [bind] in H.
    destruct (loss_table _ _ _ _ _ _) as [lt|] eqn:E3; [|discriminate]. cbn [bind] in H.
    destruct (loss_summary_table _ _ _ _ _ _ _) as [lo'|] eqn:E4; [|discriminate]. cbn [bind] in H. apply Ok_inj in H. injection H as -> ->.
    apply get_pred_inv in E1 as (_ & EL & _ & F).
    assert (length (pt_labels tbl) = n_labels) as LL by (rewrite EL; unfold range_Z; now rewrite map_length, seq_length).
    assert (map fst (pt_methods tbl) = map fst methods) as EM.
    { clear - F. induction F as [|? ? ? ? (H & _) F IH]; cbn; [reflexivity|]. now rewrite H, IH. }
    assert (NoDup (map fst (pt_methods tbl))) as N1' by now rewrite EM.
    assert (forall method cols rows, In (method, (cols, rows)) (pt_methods tbl) -> forall s, In (method, s) methods -> reported s rows) as RP.
    { intros method cols rows I s Is. destruct (Forall2_in_r _ _ _ _ F I) as ([n s'] & I' & A & _ & rows' & B & _ & D). cbn [fst snd] in *. subst n.
      rewrite (NoDup_fst_inj _ _ _ _ N1 Is I'). exists rows'. split; [now apply c_train_predict_iff|exact D]. }
    destruct (C76_classification normalize tbl kd y_test losses false lt N2 N1' E3) as (T1 & T2 & T3 & T4 & T5 & T6).
    destruct (C77_entries _ _ _ _ _ _ _ _ _ _ _ N3 N1' E2) as (Q1 & Q2 & ref & [rc Hr] & Q3).
    assert (In ref_method (map fst methods)) as IR by (rewrite <- EM; exact (in_map fst _ _ Hr)).
    apply NoDup_entry in IR. destruct IR as [s_ref Is].
    destruct (C60_cells _ _ _ _ _ _ _ _ E4) as [K1 _]. rewrite T2, T3, EM in K1.
    split; [exact K1|]. split; [exact Q1|]. split; [intros; rewrite Q2, EM; reflexivity|].
    exists s_ref. split; [exact Is|]. intros method s Im.
    assert (In method (map fst (pt_methods tbl))) as IM by (rewrite EM; exact (in_map fst _ _ Im)). apply NoDup_entry in IM. destruct IM as [[cols rows] IM]. split.
    - intros metric f c If Ic.
      destruct (T6 metric f method cols rows If IM) as (P & l & A1 & A2 & A3 & A4).
      destruct (T6 metric f ref_method rc ref If Hr) as (P2 & lr & B1 & B2 & B3 & B4). rewrite LL in *. cbn [seen] in A1, B1.
      exists l, lr. split; [exists rows, P; eauto|]. split; [exists ref, P2; eauto|].
      eapply table_cell; eassumption.
    - intros curve f e If Ie. destruct (Q3 method rows curve f (ex_intro _ cols IM) If) as (auc & EB & p & d & c & B1 & [B2 B3] & B4 & B5 & B6).
      apply B3 in Ie. subst e. rewrite LL in B1. exists rows, ref, auc, EB, p. split; [eauto|]. split; [eauto|]. split; [exact B1|]. split; [exact B4|]. cbn [fst].
      destruct (pystr_eqb method ref_method) eqn:E.
      + apply pystr_eqb_spec in E. destruct (B6 E) as (P1 & P2 & P3). split; [|exact P1]. destruct pairwise; cbn [andb]; [now apply P2|now apply P3].
      + assert (method <> ref_method) as NE by (intros Q; apply pystr_eqb_spec in Q; congruence). cbn [andb]. now apply B5.
  Qed.

  (** What every cell of the benchmark is computed from. *)
  Theorem C84_cells :
    forall methods losses curves limits loss_part curve_part,
    NoDup (map fst methods) -> NoDup (map fst losses) -> NoDup (map fst curves) ->
    bench methods losses curves limits = Ok (loss_part, curve_part) ->
    map fst loss_part = list_prod (map fst losses) (map fst methods) /\ NoDup (map fst curve_part) /\
    (forall method curve, In (method, curve) (map fst curve_part) <-> In method (map fst methods) /\ In curve (map fst curves)) /\
    exists s_ref, In (ref_method, s_ref) methods /\
    forall method s, In (method, s) methods ->
      (forall metric f c, In (metric, f) losses -> In ((metric, method), c) loss_part ->
         exists loss loss_ref, losses_of f s loss /\ losses_of f s_ref loss_ref /\
           loss_cell (draw_loss metric method) (pystr_eqb method ref_method) pairwise c95 m (limits_of limits metric) loss loss_ref c) /\
      (forall curve f e, In (curve, f) curves -> In ((method, curve), e) curve_part -> curve_entry f method curve s s_ref e).
  Proof. exact bench_inv. Qed.

  (** A row depends on its own method and the reference only: methods, losses
      and curves may be added, removed and reordered. *)
  Theorem C84_independent :
    forall methods methods' losses losses' curves curves' limits limits' lo lo' cu cu' method s s_ref,
    NoDup (map fst methods) -> NoDup (map fst losses) -> NoDup (map fst curves) ->
    NoDup (map fst methods') -> NoDup (map fst losses') -> NoDup (map fst curves') ->
    bench methods losses curves limits = Ok (lo, cu) -> bench methods' losses' curves' limits' = Ok (lo', cu') ->
    In (method, s) methods -> In (method, s) methods' -> In (ref_method, s_ref) methods -> In (ref_method, s_ref) methods' ->
    (forall metric f c, In (metric, f) losses -> In (metric, f) losses' -> limits_of limits metric = limits_of limits' metric ->
      In ((metric, method), c) lo -> In ((metric, method), c) lo') /\
    (forall curve f e, In (curve, f) curves -> In (curve, f) curves' -> In ((method, curve), e) cu -> In ((method, curve), e) cu').
  Proof.
    intros ms ms' ls ls' cs cs' lim lim' lo lo' cu cu' method s sr N1 N2 N3 N1' N2' N3' H H' I I' R R'.
    destruct (bench_inv _ _ _ _ _ _ N1 N2 N3 H) as (A1 & A2 & A3 & sr1 & A4 & A5).
    destruct (bench_inv _ _ _ _ _ _ N1' N2' N3' H') as (B1 & B2 & B3 & sr2 & B4 & B5).
    rewrite (NoDup_fst_inj _ _ _ _ N1 A4 R) in A5. rewrite (NoDup_fst_inj _ _ _ _ N1' B4 R') in B5.
    destruct (A5 _ _ I) as [P1 P2], (B5 _ _ I') as [Q1 Q2]. split.
    - intros metric f c F F' EL Ic. assert (In (metric, method) (map fst lo')) as J.
      { rewrite B1. apply in_prod; [exact (in_map fst _ _ F')|exact (in_map fst _ _ I')]. }
      apply NoDup_entry in J. destruct J as [c' J]. destruct (P1 _ _ _ F Ic) as (l & lr & L1 & L2 & L3). destruct (Q1 _ _ _ F' J) as (l' & lr' & L1' & L2' & L3').
      rewrite (losses_unique _ _ _ _ L1' L1), (losses_unique _ _ _ _ L2' L2), <- EL in L3'. now rewrite (loss_cell_unique _ _ _ _ _ _ _ _ _ _ L3 L3').
    - intros curve f e F F' Ie. assert (In (method, curve) (map fst cu')) as J.
      { apply B3. split; [exact (in_map fst _ _ I')|exact (in_map fst _ _ F')]. }
      apply NoDup_entry in J. destruct J as [e' J]. now rewrite (curve_entry_unique _ _ _ _ _ _ _ (P2 _ _ _ F Ie) (Q2 _ _ _ F' J)).
  Qed.
End C84.
Print Assumptions C84_cells.
Print Assumptions C84_independent.

(** ** C85 *)
Section C85.
  Context {T : Type} {NT : num T} {FT : fn T} (normalize : nat -> list (list T) -> res (list (list T))) {S X : Type}.

  (** Two labels, a curve and a loss: without them there is no benchmark. *)
  Theorem C85_binary_only :
    forall key_eqb (o : classifier T S X) draw_curve draw_loss X_train kd y_train X_test y_test n_labels methods losses curves ref_method min_log_prob pairwise m limits r,
    just_benchmark normalize key_eqb o draw_curve draw_loss X_train kd y_train X_test y_test n_labels methods losses curves ref_method min_log_prob pairwise m limits = Ok r ->
    n_labels = 2%nat /\ losses <> [] /\ curves <> [] /\ In ref_method (map fst methods) /\ Forall (fun v => v = 0 \/ v = 1)%Z y_test /\
    c_inputs X_train kd y_train X_test n_labels min_log_prob (length y_test).
  Proof.
    intros key_eqb o dc dl Xtr kd ytr Xte yte L ms ls cs ref m pw eb lim [lo cu] H.
    unfold just_benchmark in H. destruct (get_pred_log_prob _ _ _ _ _ _ _ _ _ _ _ _) as [tbl|] eqn:E1; [|discriminate]. cbn [bind] in H.
    unfold summary_table in H. destruct (curve_summary_table _ _ _ _ _ _ _ _ _ _) as [cu'|] eqn:E2; [|discriminate]. cbn [bind] in H.
    destruct (loss_table _ _ _ _ _ _) as [lt|] eqn:E3; [|discriminate]. cbn [bind] in H.
    destruct (loss_summary_table _ _ _ _ _ _ _) as [lo'|] eqn:E4; [|discriminate]. clear H.
    pose proof (proj1 (get_pred_iff normalize key_eqb o Xtr kd ytr Xte L ms m) (ex_intro _ _ E1)) as (n & CI & _).
    pose proof (c_inputs_len _ _ _ _ _ _ _ CI) as En. apply get_pred_inv in E1 as (EL & ER & _ & F).
    assert (length (pt_labels tbl) = L) as LL by (rewrite ER; unfold range_Z; now rewrite map_length, seq_length).
    apply curve_table_iff in E2 as (A1 & A2 & A3 & A4 & rf & A5 & _ & cols & _ & A6).
    assert (exists rows, In (ref, rows) (pt_methods tbl)) as [rows IR].
    { clear - A5. exists rf. induction (pt_methods tbl) as [|[k v] l IH]; [discriminate|]. cbn [dict_get] in A5. destruct (pystr_eqb ref k) eqn:Q.
      - apply pystr_eqb_spec in Q. subst k. injection A5 as ->. now left.
      - right. now apply IH. }
    destruct (Forall2_in_l _ _ _ _ A6 IR) as (out & _ & CM). apply curve_method_iff in CM as (_ & CM).
    destruct cs as [|[ck cf] cs]; [cbn in A4; lia|]. inversion CM as [|? ? ? ? (auc & EB & p & dump & B & _)]; subst. clear CM.
    unfold curve_boot in B. destruct (shape_and_validate _ _ _ _) as [[N nl]|] eqn:SV; [|discriminate]. cbn [bind] in B.
    pose proof (validate_ok _ _ _ _ _ SV) as V. rewrite (proj2 (validate_iff _ _ _ _) V) in SV. apply Ok_inj in SV. injection SV as <- <-.
    destruct (Z.eqb_spec (Z.of_nat (length (pt_labels tbl))) 2) as [E|]; [|discriminate].
    assert (length (pt_labels tbl) = 2%nat) as L2 by lia. destruct V as (_ & _ & _ & _ & V). rewrite L2 in V, CI |- *.
    split; [reflexivity|]. split; [|split; [discriminate|split; [|split]]].
    - intros ->. apply loss_table_inv in E3 as (_ & _ & _ & _ & E3 & _). apply table_inv in E4 as (_ & _ & E4 & _). cbn in E3. congruence.
    - destruct (Forall2_in_r _ _ _ _ F IR) as (ms' & I & Q & _). cbn [fst] in Q. rewrite Q. exact (in_map fst _ _ I).
    - eapply Forall_impl; [|exact V]. cbn. intros v ?. lia.
    - rewrite A1, EL. exact CI.
  Qed.

  Theorem C85_multiclass_always_raises :
    forall key_eqb (o : classifier T S X) draw_curve draw_loss X_train kd y_train X_test y_test n_labels methods losses curves ref_method min_log_prob pairwise m limits,
    n_labels <> 2%nat \/ curves = [] ->
    exists e, just_benchmark normalize key_eqb o draw_curve draw_loss X_train kd y_train X_test y_test n_labels methods losses curves ref_method min_log_prob pairwise m limits = Err e.
  Proof.
    intros. destruct (just_benchmark _ _ _ _ _ _ _ _ _ _ _ _ _ _ _ _ _ _ _) as [r|e] eqn:E; [|now exists e].
    apply C85_binary_only in E as (E1 & _ & E2 & _). tauto.
  Qed.
End C85.
Print Assumptions C85_binary_only.
Print Assumptions C85_multiclass_always_raises.

(** ** C86 *)

(** Finite numbers within limits. *)
Definition real_losses (lim : xr * xr) (n : nat) (r : res (list xr)) : Prop :=
  exists l, r = Ok (map Fin l) /\ length l = n /\ Forall (fun x => nleb (fst lim) (Fin x) = true /\ nleb (Fin x) (snd lim) = true) l.
(** A loss that is a finite number within its limits whenever the predictions
    are distributions with no zero probability. *)
Definition real_metric (f : metric_fun xr) (lim : xr * xr) : Prop :=
  forall kd y P, valid_y kd y (length P) 2%nat -> Forall (fun row => dist 2%nat row /\ Forall is_fin row) P -> real_losses lim (length y) (f kd y P 2%nat).

Lemma Rleb_t a b : a <= b -> nleb (Fin a) (Fin b) = true.
Proof. intros H. cbn. unfold Rleb. destruct (Rle_dec a b); [reflexivity|contradiction]. Qed.
Lemma Rleb_inv a b : nleb (Fin a) (Fin b) = true -> a <= b.
Proof. cbn. unfold Rleb. destruct (Rle_dec a b); [auto|discriminate]. Qed.
Lemma real_points lim l : (forall i, (i < length l)%nat -> exists x, nth_error l i = Some (Fin x) /\ nleb (fst lim) (Fin x) = true /\ nleb (Fin x) (snd lim) = true) ->
  real_losses lim (length l) (Ok l).
Proof.
  intros H. assert (exists r, l = map Fin r /\ Forall (fun x => nleb (fst lim) (Fin x) = true /\ nleb (Fin x) (snd lim) = true) r) as (r & -> & F).
  { induction l as [|a l IH]; [now exists []|]. destruct IH as (r & -> & F).
    - intros i Hi. apply (H (Datatypes.S i)). cbn. lia.
    - destruct (H 0%nat) as (x & E & Hx); [cbn; lia|]. cbn in E. injection E as ->. exists (x :: r). split; [reflexivity|now constructor]. }
  exists r. now rewrite map_length.
Qed.
Lemma nth_some {A} (l : list A) i : (i < length l)%nat -> exists a, nth_error l i = Some a /\ In a l.
Proof.
  intros H. destruct (nth_error l i) as [a|] eqn:E; [|apply nth_error_None in E; lia]. exists a. split; [reflexivity|]. eapply nth_error_In; eassumption.
Qed.
Lemma prob_fin_pos row k : Forall is_fin row -> (k < length row)%nat -> 0 < prob row k.
Proof.
  intros F H. rewrite <- (prob_nth row k NaN H). pose proof (nth_In row NaN H) as I. rewrite Forall_forall in F. apply F in I. destruct (nth k row NaN); try easy. apply exp_pos.
Qed.
Lemma sub_range lim x : nleb (fst lim) (Fin x) = true -> nleb (Fin x) (snd lim) = true -> nleb (Fin 0) (nsub (snd lim) (fst lim)) = true.
Proof.
  destruct lim as [lo up]. cbn [fst snd]. intros H1 H2. destruct lo as [a| | |], up as [b| | |]; try reflexivity; try discriminate.
  apply Rleb_inv in H1, H2. apply (Rleb_t 0 (b - a)). lra.
Qed.
Definition wider (lim lim' : xr * xr) : Prop := nleb (fst lim') (fst lim) = true /\ nleb (snd lim) (snd lim') = true.
Lemma xle_trans (a b c : xr) : nleb a b = true -> nleb b c = true -> nleb a c = true.
Proof. destruct a, b, c; cbn; try reflexivity; try discriminate. unfold Rleb. repeat destruct (Rle_dec _ _); auto; lra. Qed.
Lemma real_metric_wider f lim lim' : wider lim lim' -> real_metric f lim -> real_metric f lim'.
Proof.
  intros [W1 W2] H kd y P V F. destruct (H kd y P V F) as (l & E & L & G). exists l. split; [exact E|]. split; [exact L|]. eapply Forall_impl; [|exact G].
  intros x [G1 G2]. split; eapply xle_trans; eassumption.
Qed.

(** The losses of classification.py. *)
Theorem C86_standard_losses :
  forall sf ppf, let hard kd y P n := @hard_loss _ _ (fn_xr sf ppf) kd y P n None in
  real_metric log_loss (Fin 0, PInf) /\
  real_metric (@brier_loss _ _ (fn_xr sf ppf) true) (Fin 0, Fin 4) /\ real_metric (@brier_loss _ _ (fn_xr sf ppf) false) (Fin 0, Fin 2) /\
  real_metric (spherical_loss true) (Fin 0, Fin (1 / (1 - 1 / sqrt 2))) /\ real_metric (spherical_loss false) (Fin (-1), Fin 0) /\
  real_metric hard (Fin 0, Fin 1).
Proof.
  intros sf ppf hard.
  assert (forall kd y (P : list (list xr)), valid_y kd y (length P) 2%nat -> length y = length P) as LY by (intros kd y P V; apply V).
  assert (forall kd y (P : list (list xr)) i, valid_y kd y (length P) 2%nat -> Forall (fun row => dist 2%nat row /\ Forall is_fin row) P -> (i < length y)%nat ->
    exists v row, nth_error y i = Some v /\ nth_error P i = Some row /\ (0 <= v < 2)%Z /\ dist 2%nat row /\ Forall is_fin row) as PT.
  { intros kd y P i V F Hi. destruct (nth_some y i Hi) as (v & Ev & Iv). destruct (nth_some P i) as (row & Er & Ir); [rewrite <- (LY kd y P V); exact Hi|].
    exists v, row. split; [exact Ev|]. split; [exact Er|]. destruct V as (_ & _ & _ & _ & V). rewrite Forall_forall in V, F. split; [now apply V|now apply F]. }
  assert (forall P, Forall (fun row => dist 2%nat row /\ Forall is_fin row) P -> Forall (dist 2%nat) P) as FD.
  { intros P F. eapply Forall_impl; [|exact F]. now intros row [D _]. }
  split; [|split; [|split; [|split; [|split]]]]; intros kd y P V F.
  - destruct (C65_log_loss_values kd y P 2%nat V (FD P F)) as (l & E & L & K). rewrite E, <- L. apply real_points. intros i Hi. rewrite L in Hi.
    destruct (PT kd y P i V F Hi) as (v & row & Ev & Er & Hv & D & Ff). destruct (K i v row Ev Er) as (x & Ex & Q & R & _).
    assert (0 < prob row (Z.to_nat v)) as PP by (apply prob_fin_pos; [exact Ff|destruct D as ((-> & _) & _); lia]).
    destruct (Req_EM_T (prob row (Z.to_nat v)) 0); [lra|]. subst x. eexists. split; [exact Ex|]. split; [exact R|reflexivity].
  - destruct (C66_brier_values sf ppf true kd y P 2%nat V (FD P F)) as (l & E & L & K). rewrite E, <- L. apply real_points. intros i Hi. rewrite L in Hi.
    destruct (PT kd y P i V F Hi) as (v & row & Ev & Er & _). destruct (K i v row Ev Er) as (x & Ex & _ & R & _). cbn [andb Nat.ltb Nat.leb INR] in R.
    exists x. split; [exact Ex|]. split; apply Rleb_t; lra.
  - destruct (C66_brier_values sf ppf false kd y P 2%nat V (FD P F)) as (l & E & L & K). rewrite E, <- L. apply real_points. intros i Hi. rewrite L in Hi.
    destruct (PT kd y P i V F Hi) as (v & row & Ev & Er & _). destruct (K i v row Ev Er) as (x & Ex & _ & R & _). cbn [andb] in R.
    exists x. split; [exact Ex|]. split; apply Rleb_t; lra.
  - assert (Forall (fun row => ok_row 2%nat row /\ Exists is_fin row) P) as FS.
    { eapply Forall_impl; [|exact F]. intros row [D _]. split; [apply D|eapply dist_exists_fin; exact D]. }
    destruct (C67_spherical_values kd y P 2%nat V FS) as (l & l' & _ & E & _ & L & K). rewrite E, <- L. apply real_points. intros i Hi. rewrite L in Hi.
    destruct (PT kd y P i V F Hi) as (v & row & Ev & Er & _). destruct (K i v row Ev Er) as (x & _ & _ & _ & Ex & R & _).
    eexists. split; [exact Ex|]. cbn [fst snd]. cbn [Nat.ltb Nat.leb INR] in R |- *. split; apply Rleb_t; [apply R|]. replace 2 with (1 + 1) by lra. apply R.
  - assert (Forall (fun row => ok_row 2%nat row /\ Exists is_fin row) P) as FS.
    { eapply Forall_impl; [|exact F]. intros row [D _]. split; [apply D|eapply dist_exists_fin; exact D]. }
    destruct (C67_spherical_values kd y P 2%nat V FS) as (l & l' & E & _ & L & _ & K). rewrite E, <- L. apply real_points. intros i Hi. rewrite L in Hi.
    destruct (PT kd y P i V F Hi) as (v & row & Ev & Er & _). destruct (K i v row Ev Er) as (x & _ & R & Ex & _).
    eexists. split; [exact Ex|]. cbn [fst snd]. split; apply Rleb_t; lra.
  - assert (Forall (ok_row 2%nat) P) as FO by (eapply Forall_impl; [|exact F]; intros row [D _]; apply D).
    destruct (C64_zero_one sf ppf kd y P 2%nat V FO) as (acts & l & FA & E & L & K). unfold hard. rewrite E, <- L. apply real_points. intros i Hi. rewrite L in Hi.
    destruct (PT kd y P i V F Hi) as (v & row & Ev & Er & _). destruct (nth_some acts i) as (a & Ea & _).
    { rewrite <- (Forall2_len _ _ _ FA), <- (LY kd y P V). exact Hi. }
    eexists. split; [exact (K i v a Ev Ea)|]. cbn [fst snd]. split; apply Rleb_t; destruct (v =? Z.of_nat a)%Z; lra.
Qed.
Print Assumptions C86_standard_losses.

(** p-values and error bars of the loss summary *)
Lemma get_test_unit {T} {NT : num T} {FT : fn T} counts (x : list T) lo up m p : nleb n0 n1 = true -> nleb n1 n1 = true ->
  get_test counts x lo up m = Ok p -> nleb n0 p = true /\ nleb p n1 = true.
Proof.
  intros A B. unfold get_test. destruct m; [| | |discriminate].
  - unfold t_test. destruct (negb _); [|discriminate]. cbn [py_assert bind]. destruct (degenerate x); [intros H; apply Ok_inj in H; now subst|].
    destruct (if nisnan _ then _ else _) as [q|]; [|discriminate]. cbn [bind]. destruct (nleb n0 q && nleb q n1) eqn:C; [|discriminate]. cbn [py_assert bind].
    intros H. apply Ok_inj in H. subst q. now apply andb_true_iff.
  - unfold bernstein_test. destruct (negb _); [|discriminate]. cbn [py_assert bind]. destruct (nleb n0 (nsub up lo)); [|discriminate]. cbn [py_assert bind].
    destruct (within lo up x); [|discriminate]. cbn [py_assert bind]. destruct (degenerate x); [intros H; apply Ok_inj in H; now subst|].
    destruct (neqb _ _ || neqb _ _); [intros H; apply Ok_inj in H; now subst|].
    destruct (nisfin _ && nisfin _ && nisfin _); [|discriminate]. cbn [py_assert bind]. destruct (np_roots _ _ _) as [r|]; [|discriminate].
    destruct (length r =? 2)%nat; [|discriminate]. cbn [py_assert bind]. destruct (existsb _ r); [|discriminate]. cbn [py_assert bind].
    destruct (existsb _ r); [|discriminate]. cbn [py_assert bind]. match goal with |- bind (py_assert ?b) _ = _ -> _ => destruct b eqn:C; [|discriminate] end.
    cbn [py_assert bind]. intros H. apply Ok_inj in H. subst p. now apply andb_true_iff.
  - unfold boot_test. destruct (_boot_EB_and_test _ _ _ _ _ _ _) as [r|]; [|discriminate]. cbn [bind].
    destruct (nleb n0 (snd (fst r)) && _) eqn:C; [|discriminate]. cbn [py_assert bind]. intros H. apply Ok_inj in H. subst p. now apply andb_true_iff.
Qed.
Lemma clip_EB_nonneg {T} {NT : num T} (mu EB lo up v : T) : nltb n0 n0 = false -> clip_EB mu EB lo up n0 = Ok v -> nltb v n0 = false.
Proof.
  intros Z. unfold clip_EB. destruct (nleb n0 _); [|discriminate]. cbn [py_assert bind]. destruct (nleb n0 n0 && _); [|discriminate]. cbn [py_assert bind].
  destruct (_ || _); [discriminate|]. destruct (nltb _ (nmul _ _)); [discriminate|]. cbv zeta. destruct (negb (nltb _ n0)) eqn:A; [|discriminate]. cbn [py_assert bind].
  intros H. apply Ok_inj in H. subst v. apply negb_true_iff in A. unfold nclip. destruct (nltb EB n0) eqn:B; [exact Z|]. destruct (nltb _ EB); [exact A|exact B].
Qed.
Lemma loss_cell_error {T} {NT : num T} {FT : fn T} draw r pw (c : T) m lim loss loss_ref cl : nltb n0 n0 = false -> nltb nnan n0 = false ->
  loss_cell draw r pw c m lim loss loss_ref cl -> nltb (cell_error cl) n0 = false.
Proof.
  intros Z NZ [_ H].
  assert (forall mu v counts lo up l, get_mean_and_EB counts l c n0 lo up m = Ok (mu, v) -> nltb v n0 = false) as K1.
  { intros mu v counts lo up l. unfold get_mean_and_EB. destruct (within lo up l); [|discriminate]. cbn [py_assert bind]. destruct (match m with Mt => _ | Mbernstein => _ | Mboot => _ | Mother => _ end); [|discriminate].
    cbn [bind]. destruct (clip_chk _ _ _ _); [|discriminate]. cbn [bind]. destruct (clip_EB _ _ _ _ _) eqn:E; [|discriminate]. cbn [bind]. intros Q. apply Ok_inj in Q. injection Q as <- <-.
    eapply clip_EB_nonneg; eassumption. }
  assert (forall mu v p counts lo up l, get_mean_EB_test counts l c n0 lo up m = Ok (mu, v, p) -> nltb v n0 = false) as K2.
  { intros mu v p counts lo up l. unfold get_mean_EB_test. destruct (within lo up l); [|discriminate]. cbn [py_assert bind]. destruct (match m with Mt => _ | Mbernstein => _ | Mboot => _ | Mother => _ end); [|discriminate].
    cbn [bind]. destruct (clip_chk _ _ _ _); [|discriminate]. cbn [bind]. destruct (clip_EB _ _ _ _ _) eqn:E; [|discriminate]. cbn [bind]. intros Q. apply Ok_inj in Q. injection Q as <- <- <-.
    eapply clip_EB_nonneg; eassumption. }
  destruct r, pw.
  - destruct H as [-> _]. exact NZ.
  - destruct H as [[mu H] _]. eapply K1, H.
  - destruct H as [mu H]. eapply K2, H.
  - destruct H as [[mu H] _]. eapply K1, H.
Qed.

Section C86.
  Context (sf ppf : Z -> R -> R) (t_functions : forall df, (1 <= df)%Z -> t_like (sf df) (ppf df)).
  Notation summary := (@loss_summary_table _ _ (special sf ppf)).

  Lemma within_map lo up l : Forall (fun x => nleb lo (Fin x) = true /\ nleb (Fin x) up = true) l -> within lo up (map Fin l) = true.
  Proof.
    intros F. unfold within. apply andb_true_iff. split; apply forallb_forall; intros a I; apply in_map_iff in I as (x & <- & I); rewrite Forall_forall in F; now apply F.
  Qed.
  Lemma within_delta (lim : xr * xr) l l' : length l = length l' ->
    Forall (fun x => nleb (fst lim) (Fin x) = true /\ nleb (Fin x) (snd lim) = true) l ->
    Forall (fun x => nleb (fst lim) (Fin x) = true /\ nleb (Fin x) (snd lim) = true) l' ->
    map2 nsub (map Fin l) (map Fin l') = map Fin (map2 Rminus l l') /\
    Forall (fun x => nleb (nopp (nsub (snd lim) (fst lim))) (Fin x) = true /\ nleb (Fin x) (nsub (snd lim) (fst lim)) = true) (map2 Rminus l l').
  Proof.
    destruct lim as [lo up]. cbn [fst snd]. intros L F. revert l' L. induction F as [|x l [H1 H2] F IH]; intros [|y l'] L F'; try discriminate; [split; constructor|].
    inversion F' as [|? ? [H3 H4] F'']; subst. destruct (IH l') as [A B]; [now injection L|exact F''|]. cbn [map map2]. split; [now rewrite A|].
    constructor; [|exact B]. clear - H1 H2 H3 H4. unfold nopp.
    destruct lo as [a| | |], up as [b| | |]; cbn in *; try discriminate; auto; unfold Rleb, Rltb in *; repeat destruct (Rle_dec _ _); auto; try discriminate; lra.
  Qed.
  Lemma xmean_within (lim : xr * xr) l : l <> [] -> Forall (fun x => nleb (fst lim) (Fin x) = true /\ nleb (Fin x) (snd lim) = true) l ->
    nleb (fst lim) (Fin (rmean l)) = true /\ nleb (Fin (rmean l)) (snd lim) = true.
  Proof.
    destruct lim as [lo up]. cbn [fst snd]. intros NE F.
    assert (exists a b, In a l /\ In b l /\ Forall (fun x => a <= x <= b) l) as (a & b & Ia & Ib & H).
    { clear - NE. induction l as [|x l IH]; [easy|]. destruct l as [|y l].
      - exists x, x. split; [now left|]. split; [now left|]. repeat constructor; lra.
      - destruct IH as (a & b & Ia & Ib & H); [discriminate|]. exists (Rmin x a), (Rmax x b). split; [|split].
        + unfold Rmin. destruct (Rle_dec x a); [now left|now right].
        + unfold Rmax. destruct (Rle_dec x b); [now right|now left].
        + pose proof (Rmin_l x a). pose proof (Rmin_r x a). pose proof (Rmax_l x b). pose proof (Rmax_r x b).
          constructor; [lra|]. eapply Forall_impl; [|exact H]. cbn. intros z ?. lra. }
    apply rmean_bounds in H; [|exact NE]. rewrite Forall_forall in F. destruct (F a Ia) as [A _], (F b Ib) as [_ B].
    split; eapply xle_trans; try eassumption; apply Rleb_t; lra.
  Qed.

  (** Finite losses within their limits: every cell is proper. *)
  Definition proper_cell (is_ref pairwise : bool) (lim : xr * xr) (c : cell xr) : Prop :=
    (exists mean, cell_mean c = Fin mean /\ nleb (fst lim) (Fin mean) = true /\ nleb (Fin mean) (snd lim) = true) /\
    (if is_ref then cell_pval c = NaN else in_unit (cell_pval c)) /\
    (if is_ref && pairwise then cell_error c = NaN else nleb (Fin 0) (cell_error c) = true).

  Lemma clip_not_nan (mu EB lo up v : xr) : clip_EB mu EB lo up n0 = Ok v -> EB <> NaN -> v <> NaN.
  Proof.
    intros H N. unfold clip_EB in H. destruct (nleb n0 _); [|discriminate]. cbn [py_assert bind] in H. destruct (nleb n0 n0 && _); [|discriminate]. cbn [py_assert bind] in H.
    destruct (_ || _); [discriminate|]. destruct (nltb _ (nmul _ _)); [discriminate|]. cbv zeta in H. destruct (negb (nltb _ n0)); [|discriminate]. cbn [py_assert bind] in H.
    apply Ok_inj in H. subst v. unfold nclip. destruct (nltb EB n0); [discriminate|]. destruct (nltb _ EB) eqn:Q; [|exact N]. intros W. rewrite W in Q. now destruct EB.
  Qed.
  Lemma nonneg_not_nan (e : xr) : nleb n0 e = true -> e <> NaN.
  Proof. destruct e; cbn; congruence. Qed.
  Lemma EB_not_nan counts l c lo up m mu e : @get_mean_and_EB _ _ (special sf ppf) counts (map Fin l) (Fin c) n0 lo up m = Ok (mu, e) -> e <> NaN.
  Proof.
    unfold get_mean_and_EB. destruct (within _ _ _); [|discriminate]. cbn [py_assert bind].
    assert (forall E, match m with Mt => @t_EB _ _ (special sf ppf) (map Fin l) (Fin c) | Mbernstein => @bernstein_EB _ _ (special sf ppf) (map Fin l) lo up (Fin c)
      | Mboot => boot_EB counts (map Fin l) (Fin c) N_BOOT | Mother => Err AssertionError end = Ok E -> E <> NaN) as K.
    { intros E. destruct m; [| | |discriminate].
      - unfold t_EB. destruct (negb _); [|discriminate]. cbn [py_assert bind]. destruct (_ && _); [|discriminate]. cbn [py_assert bind].
        destruct (degenerate _); [intros H; apply Ok_inj in H; subst E; discriminate|]. cbv zeta. destruct (negb _); [|discriminate]. cbn [py_assert bind].
        match goal with |- bind (py_assert ?b) _ = _ -> _ => destruct b eqn:B; [|discriminate] end. cbn [py_assert bind]. intros H. apply Ok_inj in H. rewrite <- H. now apply nonneg_not_nan.
      - unfold bernstein_EB. destruct (negb _); [|discriminate]. cbn [py_assert bind]. cbv zeta. destruct (nleb n0 (nsub up lo)) eqn:R; [|discriminate]. cbn [py_assert bind].
        destruct (within _ _ _); [|discriminate]. cbn [py_assert bind]. destruct (_ && _); [|discriminate]. cbn [py_assert bind].
        destruct (degenerate _); [intros H; apply Ok_inj in H; rewrite <- H; now apply nonneg_not_nan|].
        match goal with |- bind (py_assert ?b) _ = _ -> _ => destruct b eqn:B; [|discriminate] end. cbn [py_assert bind]. intros H. apply Ok_inj in H. rewrite <- H. now apply nonneg_not_nan.
      - unfold boot_EB. destruct (_boot_EB_and_test _ _ _ _ _ _ _) as [r|]; [|discriminate]. cbn [bind].
        match goal with |- bind (py_assert ?b) _ = _ -> _ => destruct b eqn:B; [|discriminate] end. cbn [py_assert bind]. intros H. apply Ok_inj in H. rewrite <- H. now apply nonneg_not_nan. }
    destruct (match m with Mt => _ | Mbernstein => _ | Mboot => _ | Mother => _ end) as [E|]; [|discriminate]. cbn [bind].
    destruct (clip_chk _ _ _ _); [|discriminate]. cbn [bind]. destruct (clip_EB _ _ _ _ _) eqn:CE; [|discriminate]. cbn [bind]. intros Q. apply Ok_inj in Q. injection Q as <- <-.
    eapply clip_not_nan; [exact CE|now apply K].
  Qed.
  Lemma EBt_not_nan counts l c lo up m mu e p : l <> [] -> @get_mean_EB_test _ _ (special sf ppf) counts (map Fin l) (Fin c) n0 lo up m = Ok (mu, e, p) -> e <> NaN.
  Proof.
    intros NE H. destruct m; [| | |unfold get_mean_EB_test in H; destruct (within _ _ _); discriminate].
    - unfold get_mean_EB_test in H. apply (EB_not_nan counts l c lo up Mt mu). unfold get_mean_and_EB.
      destruct (within _ _ _); [|discriminate]. cbn [py_assert bind] in *. destruct (t_EB _ _); [|discriminate]. cbn [bind] in *. destruct (t_test _); [|discriminate]. cbn [bind fst snd] in *.
      destruct (clip_chk _ _ _ _); [|discriminate]. cbn [bind] in *. destruct (clip_EB _ _ _ _ _); [|discriminate]. cbn [bind] in *. apply Ok_inj in H. now injection H as -> -> _.
    - unfold get_mean_EB_test in H. apply (EB_not_nan counts l c lo up Mbernstein mu). unfold get_mean_and_EB.
      destruct (within _ _ _); [|discriminate]. cbn [py_assert bind] in *. destruct (bernstein_EB _ _ _ _); [|discriminate]. cbn [bind] in *. destruct (bernstein_test _ _ _); [|discriminate]. cbn [bind fst snd] in *.
      destruct (clip_chk _ _ _ _); [|discriminate]. cbn [bind] in *. destruct (clip_EB _ _ _ _ _); [|discriminate]. cbn [bind] in *. apply Ok_inj in H. now injection H as -> -> _.
    - unfold get_mean_EB_test in H. destruct (within _ _ _); [|discriminate]. cbn [py_assert bind] in *.
      destruct (_boot_EB_and_test _ _ _ _ _ _ _) as [r|] eqn:B; [|discriminate]. cbn [bind fst snd] in *.
      destruct (clip_chk _ _ _ _); [|discriminate]. cbn [bind] in *. destruct (clip_EB _ _ _ _ _) eqn:CE; [|discriminate]. cbn [bind] in *. apply Ok_inj in H. injection H as <- <- _.
      eapply clip_not_nan; [exact CE|]. unfold _boot_EB_and_test in B. destruct (negb _); [|discriminate]. cbn [py_assert bind] in B.
      destruct (degenerate _); [apply Ok_inj in B; subst r; discriminate|]. destruct (boot_weights _ _ _ _); [|discriminate]. cbn [bind] in B. destruct (significance _ _); [|discriminate]. cbn [bind] in B.
      destruct (error_bar _ _ _) as [E|] eqn:EE; [|discriminate]. cbn [bind] in B. apply Ok_inj in B. subst r. cbn [fst snd]. apply error_bar_not_nan in EE as [_ EE].
      rewrite nmean_r in EE by exact NE. specialize (EE eq_refl). intros ->. discriminate.
  Qed.
  Lemma unit_of (p : xr) : nleb n0 p = true -> nleb p n1 = true -> in_unit p.
  Proof.
    destruct p as [r| | |]; cbn; try discriminate. intros A B. exists r. split; [reflexivity|]. change (nleb (Fin 0) (Fin r) = true) in A. change (nleb (Fin r) (Fin 1) = true) in B.
    apply Rleb_inv in A, B. lra.
  Qed.

  Lemma real_table draw (t : loss_table_t xr) ref pw c m limits : m <> Mother -> 0 < c < 1 ->
    (forall metric method b, multinomial_outcome (Z.of_nat (lt_len t)) 1000 (draw metric method b)) ->
    In ref (lt_methods t) -> lt_metrics t <> [] -> (1 <= lt_len t)%nat -> NoDup (map fst (lt_cols t)) ->
    (forall metric method, In metric (lt_metrics t) -> In method (lt_methods t) -> exists l, column t metric method (map Fin l) /\ length l = lt_len t /\
       Forall (fun x => nleb (fst (limits_of limits metric)) (Fin x) = true /\ nleb (Fin x) (snd (limits_of limits metric)) = true) l) ->
    (forall metric method, In (metric, method) (map fst (lt_cols t)) -> In metric (lt_metrics t) /\ In method (lt_methods t)) ->
    exists out, summary draw t ref pw (Fin c) m limits = Ok out /\
    forall metric method cl, In ((metric, method), cl) out -> proper_cell (pystr_eqb method ref) pw (limits_of limits metric) cl.
  Proof.
    intros M C G RI MN LN ND P IN.
    assert (forall df, (1 <= df)%Z -> t_dist (sf df) (ppf df)) as TD by (intros df D; apply t_like_dist, t_functions, D).
    assert (real_method m = true) as RM by (destruct m; [reflexivity|reflexivity|reflexivity|contradiction]).
    assert (forall metric, In metric (lt_metrics t) -> nleb (Fin 0) (nsub (snd (limits_of limits metric)) (fst (limits_of limits metric))) = true) as RG.
    { intros metric I. destruct (P metric ref I RI) as (l & _ & L & F). destruct l as [|x l]; [cbn in L; lia|]. inversion F as [|? ? [A B]]; subst. eapply sub_range; eassumption. }
    destruct (C62_within_limits_accepted sf ppf t_functions draw t ref pw c m limits) as [out E]; auto.
    { split; [exact RI|]. split; [exact MN|]. split; [exact LN|]. split; [exact ND|]. intros metric I. specialize (RG metric I). specialize (P metric).
      destruct (limits_of limits metric) as [lo up]. cbn [fst snd] in *. split; [exact RG|]. intros method J. destruct (P method I J) as (l & K & L & F).
      exists (map Fin l). split; [exact K|]. split; [now rewrite map_length|]. apply Forall_map. eapply Forall_impl; [|exact F]. intros x [A B]. split; [discriminate|now split]. }
    { intros metric method x K. destruct (IN metric method) as [I J]; [exact (in_map fst _ _ (proj1 K))|]. destruct (P metric method I J) as (l & K' & _).
      exists l. eapply column_unique; eassumption. }
    exists out. split; [exact E|]. intros metric method cl I. destruct (C60_cells _ _ _ _ _ _ _ _ E) as [KE _].
    assert (In (metric, method) (list_prod (lt_metrics t) (lt_methods t))) as I' by (rewrite <- KE; exact (in_map fst _ _ I)).
    apply in_prod_iff in I' as [I1 I2]. destruct (P metric method I1 I2) as (l & K & L & F). destruct (P metric ref I1 RI) as (lr & KR & LR & FR).
    pose proof (table_cell _ _ _ _ _ _ _ _ _ _ _ _ _ E I K KR) as LC. specialize (RG metric I1).
    assert (l <> []) as NE by (destruct l; [cbn in L; lia|discriminate]).
    destruct (within_delta (limits_of limits metric) l lr) as [D1 D2]; [congruence|exact F|exact FR|].
    assert (length (map2 Rminus l lr) = lt_len t) as DL by (rewrite BootProofs5.map2_length; lia).
    assert (forall b, good_draw (length (map2 Rminus l lr)) (draw metric method b)) as GD by (intros b; rewrite DL; apply G).
    assert (nltb (n0 : xr) n0 = false) as Z00 by (cbn; unfold Rltb; destruct (Rlt_dec 0 0); [lra|reflexivity]).
    pose proof (loss_cell_error _ _ _ _ _ _ _ _ _ Z00 eq_refl LC) as LE.
    assert (forall a, nltb a (n0 : xr) = false -> a <> NaN -> nleb (Fin 0) a = true) as GE.
    { intros [a| | |] A B; cbn in *; try congruence. unfold Rltb in A. destruct (Rlt_dec a 0); [discriminate|]. apply (Rleb_t 0 a). lra. }
    assert (nleb (n0 : xr) n1 = true /\ nleb (n1 : xr) n1 = true) as [U1 U2] by (split; apply Rleb_t; lra).
    destruct LC as [LM LC]. split; [|].
    - exists (rmean l). rewrite LM, nmean_r by exact NE. split; [reflexivity|]. now apply xmean_within.
    - rewrite D1 in LC. destruct (pystr_eqb method ref), pw; cbn [andb].
      + tauto.
      + destruct LC as [[mu LC] LC']. split; [exact LC'|]. apply GE; [exact LE|]. eapply EB_not_nan, LC.
      + destruct LC as [mu LC]. split; [|apply GE; [exact LE|eapply EBt_not_nan; [|exact LC]; intros Q; rewrite Q in DL; cbn in DL; lia]].
        assert (RG' : nleb (Fin 0) (nsub (nsub (snd (limits_of limits metric)) (fst (limits_of limits metric))) (nopp (nsub (snd (limits_of limits metric)) (fst (limits_of limits metric))))) = true).
        { destruct (map2 Rminus l lr) as [|x dl] eqn:Q; [cbn in DL; lia|]. inversion D2 as [|? ? [A B]]; subst. apply (sub_range (nopp (nsub (snd (limits_of limits metric)) (fst (limits_of limits metric))), nsub (snd (limits_of limits metric)) (fst (limits_of limits metric))) x A B). }
        destruct (get_test_exact sf ppf TD (draw metric method false) (map Fin (map2 Rminus l lr)) (nopp (nsub (snd (limits_of limits metric)) (fst (limits_of limits metric)))) (nsub (snd (limits_of limits metric)) (fst (limits_of limits metric))) m RM RG') as [q Q].
        { now apply within_map. }
        { rewrite map_length. apply GD. }
        { clear. induction (map2 Rminus l lr); [reflexivity|exact IHl0]. }
        assert (q = cell_pval cl) as <-.
        { destruct m; [| | |easy].
          - assert (Ok q = Ok (cell_pval cl)) as W by (rewrite <- Q; apply (get_test_pairwise _ _ _ _ _ _ _ _ _ LC); discriminate). now apply Ok_inj in W.
          - assert (Ok q = Ok (cell_pval cl)) as W by (rewrite <- Q; apply (get_test_pairwise _ _ _ _ _ _ _ _ _ LC); discriminate). now apply Ok_inj in W.
          - eapply get_test_pairwise_boot; eassumption. }
        apply get_test_unit in Q as [Q1 Q2]; auto. now apply unit_of.
      + destruct LC as [[mu LC] LC']. split; [|apply GE; [exact LE|eapply EB_not_nan, LC]].
        apply get_test_unit in LC' as [Q1 Q2]; auto. now apply unit_of.
  Qed.

  (** what flooring and normalising makes of a matrix *)
  Definition smoothed (floor : R) (rows : list (list xr)) : list (list R) := map (fun row => map (fun a => raised floor a - ln (mass floor row)) row) rows.
  Lemma smoothed_ok L floor rows : (1 <= L)%nat -> Forall (ok_row L) rows ->
    normalize L (map (map (nmax (Fin floor))) rows) = Ok (fin_matrix (smoothed floor rows)) /\
    normalize L (fin_matrix (smoothed floor rows)) = Ok (fin_matrix (smoothed floor rows)) /\
    Forall (fun row => dist L row /\ Forall is_fin row) (fin_matrix (smoothed floor rows)).
  Proof.
    intros HL F.
    assert (forall row, ok_row L row -> normalize_row (map (nmax (Fin floor)) row) = map Fin (map (fun a => raised floor a - ln (mass floor row)) row)) as FF.
    { intros row [Lr Fr]. rewrite floor_form by (auto; intros ->; cbn in Lr; lia). now rewrite map_map. }
    assert (forall row, ok_row L row -> Forall logp (map (nmax (Fin floor)) row) /\ Exists is_fin (map (nmax (Fin floor)) row)) as NF.
    { intros row [Lr Fr]. assert (Forall is_fin (map (nmax (Fin floor)) row)) as K.
      { apply Forall_map. eapply Forall_impl; [|exact Fr]. intros a Ha. rewrite (nmax_raised floor a Ha). exact I. }
      split; [eapply Forall_impl; [|exact K]; intros []; cbn; tauto|]. destruct row as [|a row]; [cbn in Lr; lia|]. cbn [map] in *. apply Exists_cons_hd. now inversion K. }
    unfold normalize. destruct (Z.leb_spec 1 (Z.of_nat L)); [|lia]. cbn [py_assert bind]. split; [|split].
    - f_equal. unfold fin_matrix, smoothed. rewrite !map_map. apply map_ext_Forall. eapply Forall_impl; [|exact F]. intros row Hr. now apply FF.
    - f_equal. unfold fin_matrix, smoothed. rewrite !map_map. apply map_ext_Forall. eapply Forall_impl; [|exact F]. intros row Hr. rewrite <- (FF row Hr).
      apply normalize_row_idem; now apply NF.
    - unfold fin_matrix, smoothed. rewrite map_map. apply Forall_map. eapply Forall_impl; [|exact F]. intros row Hr. assert (Forall is_fin (map Fin (map (fun a => raised floor a - ln (mass floor row)) row))) as K.
      { apply Forall_map, Forall_forall. intros ? _. exact I. }
      split; [|exact K]. split; [split|].
      + rewrite !map_length. apply Hr.
      + eapply Forall_impl; [|exact K]. intros []; cbn; tauto.
      + rewrite <- (FF row Hr). apply normalize_row_sum; now apply NF.
  Qed.

  Theorem C86_benchmark_succeeds :
    forall (S X : Type) key_eqb (o : classifier xr S X) draw_curve draw_loss X_train kd y_train X_test y_test methods losses curves ref_method floor pairwise m limits,
    NoDup (map fst methods) -> NoDup (map fst losses) -> NoDup (map fst curves) ->
    c_inputs X_train kd y_train X_test 2 (Fin floor) (length y_test) -> Forall (fun v => v = 0 \/ v = 1)%Z y_test ->
    (forall name s, In (name, s) methods -> exists rows, @c_predicts _ (special sf ppf) _ _ o s (fa_data X_train) y_train (fa_data X_test) rows 2 /\
       length rows = length y_test /\ Forall (ok_row 2) rows) ->
    In ref_method (map fst methods) -> losses <> [] -> curves <> [] -> m <> Mother ->
    (forall metric f, In (metric, f) losses -> real_metric f (limits_of limits metric)) ->
    (forall curve f, In (curve, f) curves -> exists Q, std_curve pairwise f Q) ->
    (forall method curve, multinomial_outcome (Z.of_nat (length y_test)) 1000 (draw_curve method curve)) ->
    (forall metric method b, multinomial_outcome (Z.of_nat (length y_test)) 1000 (draw_loss metric method b)) ->
    exists lo cu, @just_benchmark _ _ (special sf ppf) normalize _ _ key_eqb o draw_curve draw_loss X_train kd y_train X_test y_test 2 methods losses curves ref_method (Fin floor)
        pairwise m limits = Ok (lo, cu) /\
    (forall metric method c, In ((metric, method), c) lo -> proper_cell (pystr_eqb method ref_method) pairwise (limits_of limits metric) c) /\
    (forall method curve f Q c dump, In (curve, f) curves -> std_curve pairwise f Q -> In ((method, curve), (c, dump)) cu ->
       Q (cell_mean c) /\ (method <> ref_method -> in_unit (cell_pval c)) /\
       Forall (fun r => Q (snd (fst (fst r))) /\ Q (snd (fst r)) /\ Q (snd r) /\ xleb (snd (fst r)) (snd r) = true) dump).
  Proof.
    intros S X key_eqb o dc dl Xtr kd ytr Xte yte ms ls cs ref fl pw m lim N1 N2 N3 CI Y P RI LN CN M LR CR DC DL.
    assert (exists tbl, @get_pred_log_prob _ _ (special sf ppf) normalize _ _ key_eqb o false [] Xtr kd ytr Xte 2 ms (Fin fl) = Ok tbl) as [tbl E1].
    { apply get_pred_iff. exists (length yte). split; [exact CI|]. intros name s Im. destruct (P name s Im) as (rows & A & B & C). exists rows, (fin_matrix (smoothed fl rows)).
      split; [exact A|]. split; [exact B|]. now apply smoothed_ok; [lia|]. }
    pose proof (c_inputs_len _ _ _ _ _ _ _ CI) as En.
    assert (KD : kd = Kb \/ kd = Ki) by (destruct CI as (? & ? & ? & ? & ? & ? & ? & ? & ? & ?); assumption).
    assert (Yn : yte <> []) by (destruct CI as (? & ? & ? & ? & ? & ? & CI & ?); destruct yte; [cbn in CI; lia|discriminate]).
    unfold just_benchmark. rewrite E1. cbn [bind]. apply get_pred_inv in E1 as (EL & EB & _ & F). rewrite <- En in EL.
    assert (length (pt_labels tbl) = 2%nat) as LL by (rewrite EB; reflexivity).
    assert (map fst (pt_methods tbl) = map fst ms) as EM.
    { clear - F. induction F as [|? ? ? ? (H & _) F IH]; cbn; [reflexivity|]. now rewrite H, IH. }
    assert (NoDup (map fst (pt_methods tbl))) as N1' by now rewrite EM.
    assert (forall method frame, In (method, frame) (pt_methods tbl) -> exists rows, frame = ([0; 1]%Z, fin_matrix (smoothed fl rows)) /\
       length rows = length yte /\ Forall (ok_row 2) rows) as FR.
    { intros method frame I. destruct (Forall2_in_r _ _ _ _ F I) as ([n s'] & I' & A & B & rows & C & D & G). cbn [fst snd] in *. subst n.
      destruct (P method s' I') as (rows' & Q1 & Q2 & Q3). apply c_train_predict_iff in Q1. assert (Ok (rows', 2%nat) = Ok (rows, 2%nat)) as W by (rewrite <- Q1; exact C).
      apply Ok_inj in W. injection W as ->. exists rows. destruct frame as [cols fr]. cbn [fst snd] in *. subst cols.
      destruct (smoothed_ok 2 fl rows) as [Q4 _]; [lia|exact Q3|]. rewrite Q4 in G. apply Ok_inj in G. subst fr. auto. }
    assert (ndiv (nofZ 95) (nofZ 100) = Fin (95 / 100)) as E95.
    { change (xdiv (Fin (IZR 95)) (Fin (IZR 100)) = Fin (95 / 100)). apply BootProofs5.xdiv_fin. lra. }
    destruct (C77_exact dc tbl kd yte cs ref None 1000 pw (95 / 100)) as (cu & E2 & K2); auto.
    { lia. } { exact I. } { lra. } { now rewrite EM. }
    { intros method frame Im. destruct (FR _ _ Im) as (rows & A & B & C). exists (smoothed fl rows). split; [exact A|]. unfold smoothed. rewrite map_length. split; [exact B|].
      apply Forall_map. eapply Forall_impl; [|exact C]. intros row [Lr _]. now rewrite map_length. }
    unfold summary_table. cbn [option_map] in E2. rewrite E95, E2. cbn [bind].
    assert (forall method rows, In (method, ([0; 1]%Z, fin_matrix (smoothed fl rows))) (pt_methods tbl) -> Forall (ok_row 2) rows -> length rows = length yte ->
      valid_y kd yte (length (fin_matrix (smoothed fl rows))) 2) as VY.
    { intros method rows _ C B. unfold fin_matrix, smoothed. rewrite !map_length, B. split; [destruct yte; [easy|cbn; lia]|]. split; [lia|]. split; [reflexivity|]. split; [exact KD|].
      eapply Forall_impl; [|exact Y]. cbn. intros v ?. lia. }
    assert (exists lt, loss_table normalize tbl kd yte ls false = Ok lt) as [lt E3].
    { apply C76_classification_accepts. rewrite LL. split; [now symmetry|]. split; [destruct yte; [easy|cbn; lia]|]. split; [rewrite EB; discriminate|]. split.
      { intros Q. rewrite Q in EM. rewrite <- EM in RI. destruct RI. }
      intros method frame Im. destruct (FR _ _ Im) as (rows & -> & B & C). destruct (smoothed_ok 2 fl rows) as (_ & Q1 & Q2); [lia|exact C|]. cbn [snd seen]. split.
      - split; [reflexivity|]. cbn [snd]. unfold fin_matrix, smoothed. rewrite !map_length. split; [congruence|]. rewrite map_map. apply Forall_map. eapply Forall_impl; [|exact C].
        intros row [Lr _]. rewrite !map_length. split; [exact Lr|]. apply Forall_map, Forall_forall. intros x _. reflexivity.
      - eexists. split; [exact Q1|]. intros metric f If. destruct (LR metric f If kd yte _ (VY _ _ Im C B) Q2) as (l & A1 & A2 & _). exists (map Fin l). split; [exact A1|]. now rewrite map_length. }
    rewrite E3. cbn [bind]. destruct (C76_classification normalize tbl kd yte ls false lt N2 N1' E3) as (T1 & T2 & T3 & T4 & T5 & T6).
    destruct (real_table dl lt ref pw (95 / 100) m lim) as (lo & E4 & K4); auto.
    { lra. } { intros. rewrite T1. apply DL. } { now rewrite T3, EM. } { rewrite T2. destruct ls; [easy|discriminate]. } { rewrite T1. destruct yte; [easy|cbn; lia]. }
    { intros metric method I1 I2. rewrite T2 in I1. rewrite T3 in I2. apply NoDup_entry in I1, I2. destruct I1 as [f I1], I2 as [frame I2].
      destruct (FR _ _ I2) as (rows & -> & B & C). destruct (smoothed_ok 2 fl rows) as (_ & Q1 & Q2); [lia|exact C|].
      destruct (T6 metric f method _ _ I1 I2) as (PP & l & A1 & A2 & A3 & A4). cbn [seen] in A1. rewrite LL in A1, A2. rewrite Q1 in A1. apply Ok_inj in A1. subst PP.
      destruct (LR metric f I1 kd yte _ (VY _ _ I2 C B) Q2) as (l' & B1 & B2 & B3). rewrite A2 in B1. apply Ok_inj in B1. subst l. exists l'. rewrite T1. auto. }
    { intros metric method I1. rewrite T2, T3. now apply T5. }
    rewrite E4. cbn [bind]. exists lo, cu. split; [reflexivity|]. split; [exact K4|]. intros method curve f Q c dump I1 I2 I3.
    destruct (K2 _ _ _ _ _ _ I1 I2 I3) as (A & B & _ & D). auto.
  Qed.
End C86.
Print Assumptions C86_benchmark_succeeds.

(** Two methods on two test points, log loss and ROC; the first method reports
    a zero probability, which the floor removes. *)
Definition ex_points (n : Z) : farray unit := {| fa_shape := [n; 1]%Z; fa_kind := Kf; fa_data := tt |}.
Definition ex_classifier : classifier xr (list (list xr)) unit :=
  {| cl_fit := fun s _ _ => Ok s; cl_predict_log_proba := fun s _ => Ok (s, 2%nat); cl_predict_proba := fun _ _ => Err KeyError |}.
Definition ex_estimators : list (pystr * list (list xr)) := [(tA, [[NInf; Fin 0]; [Fin (-1); Fin 2]]); (tB, [[Fin 0; Fin 0]; [Fin 1; Fin 0]])].
Definition ex_bench (m : eb_method) (pairwise : bool) :=
  @just_benchmark _ _ (special (fun _ => cauchy_sf) (fun _ => cauchy_ppf)) normalize _ _ (fun _ _ => false) ex_classifier
  (fun _ _ => repeat [2; 0]%Z 1000) (fun _ _ _ => repeat [0; 2]%Z 1000) (ex_points 2) Ki [0; 1]%Z (ex_points 2) [1; 0]%Z 2
  ex_estimators [(tM, log_loss)] [(tM, roc_curve)] tB (Fin (-5)) pairwise m [].
Example C86_example :
  forall m pairwise, m <> Mother -> exists lo cu, ex_bench m pairwise = Ok (lo, cu) /\
  forall metric method c, In ((metric, method), c) lo -> proper_cell (pystr_eqb method tB) pairwise (NInf, PInf) c.
Proof.
  intros m pw M.
  destruct (C86_benchmark_succeeds (fun _ => cauchy_sf) (fun _ => cauchy_ppf) (fun _ _ => C57_cauchy) (list (list xr)) unit (fun _ _ => false) ex_classifier
    (fun _ _ => repeat [2; 0]%Z 1000) (fun _ _ _ => repeat [0; 2]%Z 1000) (ex_points 2) Ki [0; 1]%Z (ex_points 2) [1; 0]%Z
    ex_estimators [(tM, log_loss)] [(tM, roc_curve)] tB (-5) pw m []) as (lo & cu & E & K & _).
  - constructor; [intros [H|[]]; discriminate|]. constructor; [intros []|constructor].
  - constructor; [intros []|constructor].
  - constructor; [intros []|constructor].
  - exists 1%Z, [], []. split; [reflexivity|]. split; [reflexivity|]. split; [reflexivity|]. split; [cbn; lia|]. split; [discriminate|]. split; [now right|].
    split; [repeat constructor; lia|]. split; [reflexivity|]. cbn. unfold Rltb. destruct (Rlt_dec _ _); [reflexivity|lra].
  - constructor; [now right|constructor; [now left|constructor]].
  - intros name s [H|[H|[]]]; injection H as <- <-; eexists; (split; [eexists; split; [reflexivity|left; reflexivity]|]); (split; [reflexivity|]); repeat constructor.
  - now right; left.
  - discriminate.
  - discriminate.
  - exact M.
  - intros metric f [H|[]]. injection H as <- <-. cbn. eapply real_metric_wider; [|apply (C86_standard_losses (fun _ => cauchy_sf) (fun _ => cauchy_ppf))]. split; reflexivity.
  - intros curve f [H|[]]. injection H as <- <-. exists in_unit. constructor.
  - intros _ _. split; [now rewrite repeat_length|]. apply Forall_forall. intros r Hr. apply repeat_spec in Hr. subst r. repeat split; auto. repeat constructor; lia.
  - intros _ _ _. split; [now rewrite repeat_length|]. apply Forall_forall. intros r Hr. apply repeat_spec in Hr. subst r. repeat split; auto. repeat constructor; lia.
  - exists lo, cu. split; [exact E|]. intros metric method c I. exact (K metric method c I).
Qed.
(** The same run meets the hypotheses of C84 and C85. *)
Example C84_C85_example :
  exists lo cu, ex_bench Mt true = Ok (lo, cu) /\ NoDup (map fst ex_estimators) /\ map fst lo = [(tM, tA); (tM, tB)] /\
  (forall c, In ((tM, tB), c) lo -> cell_error c = NaN /\ cell_pval c = NaN).
Proof.
  destruct (C86_example Mt true) as (lo & cu & E & K); [discriminate|]. exists lo, cu. split; [exact E|].
  assert (NoDup (map fst ex_estimators)) as N by (constructor; [intros [H|[]]; discriminate|]; constructor; [intros []|constructor]). split; [exact N|].
  split.
  - unfold ex_bench in E. apply C84_cells in E as (E & _); [exact E|exact N| |]; (constructor; [intros []|constructor]).
  - intros c I. specialize (K _ _ _ I). unfold proper_cell in K. change (pystr_eqb tB tB) with true in K. cbn [andb] in K. tauto.
Qed.

(** ** C87 *)
Section C87.
  Context {T : Type} {NT : num T} {FT : fn T} {S X : Type}.
  Context (key_eqb : S * (X * list T * X) -> S * (X * list T * X) -> bool) (o : regressor T S X) (draw : pystr -> pystr -> bool -> list (list Z)).
  Context (X_train : farray X) (y_train : list T) (X_test : farray X) (y_test : list T) (ref_method : pystr) (min_std : T) (pairwise : bool) (m : eb_method).
  Notation bench methods losses limits := (r_just_benchmark key_eqb o draw X_train y_train X_test y_test methods losses ref_method min_std pairwise m limits).
  Notation c95 := (ndiv (nofZ 95) (nofZ 100)).

  (** the losses of an estimator: standard deviations are raised to the floor first *)
  Definition r_losses_of (f : r_metric_fun T) (s : S) (loss : list T) : Prop :=
    exists mu std, r_predicts o s (fa_data X_train) y_train (fa_data X_test) mu std /\ f y_test mu (map (nmax min_std) std) = Ok loss /\ length loss = length y_test.
  Lemma r_losses_unique f s l l' : r_losses_of f s l -> r_losses_of f s l' -> l = l'.
  Proof.
    intros (mu & std & H & E & _) (mu' & std' & H' & E' & _). apply r_train_predict_iff in H, H'. rewrite H in H'. apply Ok_inj in H'. injection H' as <- <-.
    rewrite E in E'. now apply Ok_inj in E'.
  Qed.

  Theorem C87_cells :
    forall methods losses limits out,
    NoDup (map fst methods) -> NoDup (map fst losses) -> bench methods losses limits = Ok out ->
    map fst out = list_prod (map fst losses) (map fst methods) /\
    exists s_ref, In (ref_method, s_ref) methods /\
    forall method s metric f c, In (method, s) methods -> In (metric, f) losses -> In ((metric, method), c) out ->
      exists loss loss_ref, r_losses_of f s loss /\ r_losses_of f s_ref loss_ref /\
        loss_cell (draw metric method) (pystr_eqb method ref_method) pairwise c95 m (limits_of limits metric) loss loss_ref c.
  Proof.
    intros methods losses limits out N1 N2 H. unfold r_just_benchmark in H.
    destruct (get_gauss_pred _ _ _ _ _ _ _ _ _) as [tbl|] eqn:E1; [|discriminate]. cbn [bind] in H.
    destruct (r_loss_table _ _ _) as [lt|] eqn:E2; [|discriminate]. cbn [bind] in H.
    apply get_gauss_inv in E1 as (EL & _ & _ & F).
    assert (map fst (gt_methods tbl) = map fst methods) as EM.
    { clear - F. induction F as [|? ? ? ? (H & _) F IH]; cbn; [reflexivity|]. now rewrite H, IH. }
    assert (NoDup (map fst (gt_methods tbl))) as N1' by now rewrite EM.
    destruct (C76_regression tbl y_test losses lt N2 N1' E2) as (T1 & T2 & T3 & T4 & T5 & T6).
    destruct (C60_cells _ _ _ _ _ _ _ _ H) as [K1 _]. rewrite T2, T3, EM in K1. split; [exact K1|].
    pose proof (table_inv _ _ _ _ _ _ _ _ H) as (RI & _). apply existsb_exists in RI as (r' & RI & RE). apply pystr_eqb_spec in RE. subst r'. rewrite T3 in RI. pose proof RI as RI'. rewrite EM in RI'. apply NoDup_entry in RI, RI'. destruct RI as [[rmu rstd] RI], RI' as [s_ref RI'].
    exists s_ref. split; [exact RI'|]. intros method s metric f c Im If Ic.
    assert (In method (map fst (gt_methods tbl))) as IM by (rewrite EM; exact (in_map fst _ _ Im)). apply NoDup_entry in IM. destruct IM as [[mu std] IM].
    assert (forall name s0 mu0 std0, In (name, (mu0, std0)) (gt_methods tbl) -> In (name, s0) methods -> exists std1, r_predicts o s0 (fa_data X_train) y_train (fa_data X_test) mu0 std1 /\ std0 = map (nmax min_std) std1) as RP.
    { intros name s0 mu0 std0 I I'. destruct (Forall2_in_r _ _ _ _ F I) as ([n s'] & I1 & A & mu1 & std1 & B & _ & _ & D). cbn [fst snd] in *. subst n. injection D as -> ->.
      rewrite (NoDup_fst_inj _ _ _ _ N1 I' I1). exists std1. split; [now apply r_train_predict_iff|reflexivity]. }
    destruct (RP _ _ _ _ IM Im) as (std1 & P1 & ->). destruct (RP _ _ _ _ RI RI') as (std2 & P2 & ->).
    destruct (T6 _ _ _ _ _ If IM) as (l & A1 & A2 & A3). destruct (T6 _ _ _ _ _ If RI) as (lr & B1 & B2 & B3).
    exists l, lr. split; [exists mu, std1; auto|]. split; [exists rmu, std2; auto|]. eapply table_cell; eassumption.
  Qed.

  Theorem C87_independent :
    forall methods methods' losses losses' limits limits' out out' method s s_ref metric f c,
    NoDup (map fst methods) -> NoDup (map fst losses) -> NoDup (map fst methods') -> NoDup (map fst losses') ->
    bench methods losses limits = Ok out -> bench methods' losses' limits' = Ok out' ->
    In (method, s) methods -> In (method, s) methods' -> In (ref_method, s_ref) methods -> In (ref_method, s_ref) methods' ->
    In (metric, f) losses -> In (metric, f) losses' -> limits_of limits metric = limits_of limits' metric ->
    In ((metric, method), c) out -> In ((metric, method), c) out'.
  Proof.
    intros ms ms' ls ls' lim lim' out out' method s sr metric f c N1 N2 N1' N2' H H' I I' R R' F F' EL Ic.
    destruct (C87_cells _ _ _ _ N1 N2 H) as (_ & sr1 & A4 & A5). destruct (C87_cells _ _ _ _ N1' N2' H') as (B1 & sr2 & B4 & B5).
    rewrite (NoDup_fst_inj _ _ _ _ N1 A4 R) in A5. rewrite (NoDup_fst_inj _ _ _ _ N1' B4 R') in B5.
    assert (In (metric, method) (map fst out')) as J by (rewrite B1; apply in_prod; [exact (in_map fst _ _ F')|exact (in_map fst _ _ I')]).
    apply NoDup_entry in J. destruct J as [c' J]. destruct (A5 _ _ _ _ _ I F Ic) as (l & lr & L1 & L2 & L3). destruct (B5 _ _ _ _ _ I' F' J) as (l' & lr' & L1' & L2' & L3').
    rewrite (r_losses_unique _ _ _ _ L1' L1), (r_losses_unique _ _ _ _ L2' L2), <- EL in L3'. now rewrite (loss_cell_unique _ _ _ _ _ _ _ _ _ _ L3 L3').
  Qed.
End C87.
Print Assumptions C87_cells.
Print Assumptions C87_independent.

(** The losses of regression.py. *)
Inductive r_std_loss (sf ppf : Z -> R -> R) : r_metric_fun xr -> xr * xr -> Prop :=
  | r_std_square lim : wider (Fin 0, PInf) lim -> r_std_loss sf ppf square_loss lim
  | r_std_abs lim : wider (Fin 0, PInf) lim -> r_std_loss sf ppf abs_loss lim
  | r_std_log c lim : wider (NInf, PInf) lim -> r_std_loss sf ppf (@r_log_loss _ _ (fn_xr sf ppf) (Fin c)) lim.
Section C87_exact.
  Context (sf ppf : Z -> R -> R) (t_functions : forall df, (1 <= df)%Z -> t_like (sf df) (ppf df)).

  Lemma mapM_mix_ok {A B} (f : A -> res B) l : (forall x, In x l -> exists y, f x = Ok y) -> exists ys, mapM f l = Ok ys.
  Proof.
    induction l as [|x l IH]; intros H; [now exists []|]. destruct (H x) as [y E]; [now left|]. destruct IH as [ys E']; [intros z Hz; apply H; now right|].
    exists (y :: ys). cbn [mapM]. now rewrite E, E'.
  Qed.
  Lemma mapM_mix_err {A B} (f : A -> res B) l e : (forall x, In x l -> (exists y, f x = Ok y) \/ f x = Err e) -> (exists x, In x l /\ f x = Err e) -> mapM f l = Err e.
  Proof.
    induction l as [|x l IH]; intros H (z & I & E); [destruct I|]. cbn [mapM]. destruct (H x) as [[y Ey]|Ey]; [now left| |now rewrite Ey].
    rewrite Ey. cbn [bind]. rewrite IH; [reflexivity|intros w Hw; apply H; now right|]. destruct I as [->|I]; [congruence|]. now exists z.
  Qed.
  Lemma Forall_map2 {A B C} (P : C -> Prop) (f : A -> B -> C) l l' : (forall a b, P (f a b)) -> Forall P (map2 f l l').
  Proof. intros H. revert l'. induction l as [|a l IH]; intros [|b l']; cbn; constructor; auto. Qed.
  Lemma r_std_real f lim y mu std : r_std_loss sf ppf f lim -> real_input y mu std ->
    exists l, f (map Fin y) (map Fin mu) (map Fin std) = Ok (map Fin l) /\ length l = length y /\ Forall (fun x => nleb (fst lim) (Fin x) = true /\ nleb (Fin x) (snd lim) = true) l.
  Proof.
    intros SL (Y & M & SD & P).
    assert (forall a b lo up, wider (lo, up) lim -> nleb lo (Fin a) = true -> nleb (Fin b) up = true -> nleb (fst lim) (Fin a) = true /\ nleb (Fin b) (snd lim) = true) as WD.
    { intros a b lo up [W1 W2] H1 H2. split; eapply xle_trans; eassumption. }
    destruct SL as [lim W|lim W|c lim W].
    - eexists. split; [now apply square_loss_fin|]. split; [rewrite BootProofs5.map2_length; lia|]. apply Forall_map2. intros a b. apply (WD _ _ _ _ W); [apply Rleb_t; apply Rle_0_sqr|reflexivity].
    - eexists. split; [now apply abs_loss_fin|]. split; [rewrite BootProofs5.map2_length; lia|]. apply Forall_map2. intros a b. apply (WD _ _ _ _ W); [apply Rleb_t; apply Rabs_pos|reflexivity].
    - eexists. split; [now apply r_log_loss_fin|]. split; [rewrite BootProofs5.map2_length, combine_length; lia|]. apply Forall_map2. intros a b. now apply (WD _ _ _ _ W).
  Qed.

  (** With finite predictions, exactly the positive standard deviations (after
      the floor) are accepted, and then every number is proper. *)
  Theorem C87_succeeds_iff :
    forall (S X : Type) key_eqb (o : regressor xr S X) draw X_train y_train X_test y_test methods losses ref_method min_std pairwise m limits
      (mu std : S -> list R),
    NoDup (map fst methods) -> NoDup (map fst losses) ->
    r_inputs X_train y_train X_test (Fin min_std) (length y_test) ->
    (forall name s, In (name, s) methods -> r_predicts o s (fa_data X_train) y_train (fa_data X_test) (map Fin (mu s)) (map Fin (std s)) /\
       length (mu s) = length y_test /\ length (std s) = length y_test) ->
    In ref_method (map fst methods) -> losses <> [] -> m <> Mother ->
    (forall metric f, In (metric, f) losses -> r_std_loss sf ppf f (limits_of limits metric)) ->
    (forall metric method b, multinomial_outcome (Z.of_nat (length y_test)) 1000 (draw metric method b)) ->
    let bench := @r_just_benchmark _ _ (special sf ppf) _ _ key_eqb o draw X_train y_train X_test (map Fin y_test) methods losses ref_method (Fin min_std) pairwise m limits in
    let positive := forall name s, In (name, s) methods -> Forall (fun d => 0 < min_std \/ 0 < d) (std s) in
    (positive -> exists out, bench = Ok out /\
       forall metric method c, In ((metric, method), c) out -> proper_cell (pystr_eqb method ref_method) pairwise (limits_of limits metric) c) /\
    (~ positive -> bench = Err AssertionError).
  Proof.
    intros S X key_eqb o draw Xtr ytr Xte yte ms ls ref fl pw m lim mu std N1 N2 RI P IR LN M SL DL bench positive.
    assert (0 <= fl) as FL by (destruct RI as (? & _ & _ & _ & _ & RI); now apply Rleb_inv).
    assert (exists tbl, get_gauss_pred key_eqb o false [] Xtr ytr Xte ms (Fin fl) = Ok tbl) as [tbl E1].
    { apply get_gauss_iff. exists (length yte). split; [exact RI|]. intros name s Im. destruct (P name s Im) as (A & B & C). exists (map Fin (mu s)), (map Fin (std s)). rewrite !map_length. auto. }
    pose proof (r_inputs_len _ _ _ _ _ RI) as En.
    assert (Yn : (1 <= length yte)%nat) by (destruct RI as (? & _ & _ & RI & _); exact RI).
    assert (bench = (do loss_tbl <- r_loss_table tbl (map Fin yte) ls;
      @loss_summary_table _ _ (special sf ppf) draw loss_tbl ref pw (ndiv (nofZ 95) (nofZ 100)) m lim)) as EBench by (unfold bench, r_just_benchmark; rewrite E1; reflexivity).
    apply get_gauss_inv in E1 as (EL & _ & _ & F). rewrite <- En in EL.
    assert (map fst (gt_methods tbl) = map fst ms) as EM.
    { clear - F. induction F as [|? ? ? ? (H & _) F IH]; cbn; [reflexivity|]. now rewrite H, IH. }
    assert (NoDup (map fst (gt_methods tbl))) as N1' by now rewrite EM.
    assert (forall d, nmax (Fin fl) (Fin d) = Fin (Rmax fl d)) as NM.
    { intros d. unfold nmax. cbn. destruct (Rleb d fl) eqn:Q; cbn.
      - apply Rleb_spec in Q. now rewrite Rmax_left.
      - apply Rleb_false in Q. now rewrite Rmax_right by lra. }
    assert (forall method frame, In (method, frame) (gt_methods tbl) -> exists s, In (method, s) ms /\ frame = (map Fin (mu s), map Fin (map (Rmax fl) (std s)))) as FR.
    { intros method frame I. destruct (Forall2_in_r _ _ _ _ F I) as ([n s'] & I' & A & mu' & std' & B & _ & _ & D). cbn [fst snd] in *. subst n. exists s'. split; [exact I'|].
      destruct (P method s' I') as (Q1 & _). apply r_train_predict_iff in Q1. rewrite Q1 in B. apply Ok_inj in B. injection B as <- <-. rewrite D. f_equal. rewrite !map_map. apply map_ext. intros d. apply NM. }
    assert (forall s, Forall (fun d => 0 < fl \/ 0 < d) (std s) <-> Forall (fun d => 0 < d) (map (Rmax fl) (std s))) as PM.
    { intros s. rewrite Forall_map. split; intros H; (eapply Forall_impl; [|exact H]); cbn; intros d Hd; unfold Rmax in *; destruct (Rle_dec fl d); lra. }
    assert (ndiv (nofZ 95) (nofZ 100) = Fin (95 / 100)) as E95.
    { change (xdiv (Fin (IZR 95)) (Fin (IZR 100)) = Fin (95 / 100)). apply BootProofs5.xdiv_fin. lra. }
    set (good := fun frame : list xr * list xr => exists d, snd frame = map Fin d /\ Forall (fun d => 0 < d) d).
    assert (forall method frame metric f, In (method, frame) (gt_methods tbl) -> good frame -> In (metric, f) ls -> exists l, f (map Fin yte) (fst frame) (snd frame) = Ok (map Fin l) /\ length l = length yte /\
      Forall (fun x => nleb (fst (limits_of lim metric)) (Fin x) = true /\ nleb (Fin x) (snd (limits_of lim metric)) = true) l) as RL.
    { intros method frame metric f I1 (d & Ed & G) I2. destruct (FR _ _ I1) as (s & Is & ->). cbn [fst snd] in *. rewrite Ed. destruct (P _ _ Is) as (_ & L1 & L2).
      assert (length (map Fin (map (Rmax fl) (std s))) = length (map Fin d)) as Ld by now rewrite Ed. rewrite !map_length in Ld.
      apply r_std_real; [now apply SL|]. split; [exact Yn|]. split; [exact L1|]. split; [congruence|exact G]. }
    set (one := fun m0 : pystr * (list xr * list xr) => mapM (fun mf : pystr * r_metric_fun xr =>
       do loss <- (snd mf) (map Fin yte) (fst (snd m0)) (snd (snd m0)); do v <- r_column_values (gt_len tbl) loss; Ok ((fst mf, fst m0), v)) ls).
    assert (forall m0, In m0 (gt_methods tbl) -> good (snd m0) -> exists c, one m0 = Ok c) as ONE.
    { intros [method frame] I1 G. apply mapM_mix_ok. intros [metric f] I2. cbn [fst snd] in *. destruct (RL _ _ _ _ I1 G I2) as (l & Q1 & Q2 & _). rewrite Q1. cbn [bind].
      unfold r_column_values. rewrite map_length, Q2, EL, Nat.eqb_refl. cbn [bind]. eauto. }
    assert (r_loss_table tbl (map Fin yte) ls = (do cols <- mapM one (gt_methods tbl);
      Ok {| lt_metrics := map fst ls; lt_methods := map fst (gt_methods tbl); lt_len := gt_len tbl; lt_cols := concat cols |})) as ET.
    { unfold r_loss_table. rewrite map_length, EL, Nat.eqb_refl. cbn [py_assert bind].
      destruct (Nat.leb_spec 1 (length yte)); [|lia]. destruct (Nat.leb_spec 1 (length (gt_methods tbl))) as [_|Q].
      2:{ assert (gt_methods tbl = []) as G by (destruct (gt_methods tbl); [reflexivity|cbn in Q; lia]). rewrite G in EM. cbn in EM. rewrite <- EM in IR. destruct IR. }
      cbn [andb py_assert bind]. unfold one. rewrite EL. reflexivity. }
    split.
    - intros POS. assert (forall method frame, In (method, frame) (gt_methods tbl) -> good frame) as PF.
      { intros method frame I1. destruct (FR _ _ I1) as (s & Is & ->). eexists. split; [reflexivity|]. apply PM. eapply POS, Is. }
      assert (exists lt, r_loss_table tbl (map Fin yte) ls = Ok lt) as [lt E2].
      { destruct (mapM_mix_ok one (gt_methods tbl)) as [cols E]; [intros [method frame] I1; apply ONE; [exact I1|eapply PF, I1]|]. rewrite ET, E. cbn [bind]. eauto. }
      destruct (C76_regression tbl (map Fin yte) ls lt N2 N1' E2) as (T1 & T2 & T3 & T4 & T5 & T6). rewrite map_length in T1.
      destruct (real_table sf ppf t_functions draw lt ref pw (95 / 100) m lim) as (out & E4 & K4); auto.
      { lra. } { intros. rewrite T1. apply DL. } { now rewrite T3, EM. } { rewrite T2. destruct ls; [easy|discriminate]. } { now rewrite T1. }
      { intros metric method I1 I2. rewrite T2 in I1. rewrite T3 in I2. apply NoDup_entry in I1, I2. destruct I1 as [f I1], I2 as [[mu1 std1] I2].
        destruct (T6 metric f method mu1 std1 I1 I2) as (l & A2 & A3 & A4). destruct (RL _ _ _ _ I2 (PF _ _ I2) I1) as (l' & B1 & B2 & B3). cbn [fst snd] in B1. rewrite A2 in B1. apply Ok_inj in B1. subst l.
        exists l'. rewrite T1. auto. }
      { intros metric method I1. rewrite T2, T3. now apply T5. }
      exists out. split; [|exact K4]. rewrite EBench, E2. cbn [bind]. rewrite E95. exact E4.
    - intros NP. rewrite EBench, ET.
      assert (forall s, Forall (fun d => 0 < d) (map (Rmax fl) (std s)) \/ Exists (fun d => nltb (Fin 0) d = false) (map Fin (map (Rmax fl) (std s)))) as DEC.
      { intros s. induction (map (Rmax fl) (std s)) as [|d l IH]; [now left|]. destruct (Rlt_dec 0 d) as [Q|Q].
        - destruct IH; [left; now constructor|right; now apply Exists_cons_tl].
        - right. apply Exists_cons_hd. cbn. unfold Rltb. now destruct (Rlt_dec 0 d). }
      assert (forall method frame, In (method, frame) (gt_methods tbl) -> forall d, frame = (map Fin (mu d), map Fin (map (Rmax fl) (std d))) ->
        Exists (fun d => nltb (Fin 0) d = false) (map Fin (map (Rmax fl) (std d))) -> one (method, frame) = Err AssertionError) as BAD.
      { intros method frame I1 s -> EX. unfold one. destruct ls as [|[metric f] ls']; [easy|]. cbn [mapM fst snd].
        assert (f (map Fin yte) (map Fin (mu s)) (map Fin (map (Rmax fl) (std s))) = Err AssertionError) as ->; [|reflexivity].
        destruct (C72_validation xr _ (fn_xr sf ppf) (Fin 0) (map Fin yte) (map Fin (mu s)) (map Fin (map (Rmax fl) (std s)))) as (V1 & V2 & _); [do 4 right; exact EX|].
        pose proof (SL metric f (or_introl eq_refl)) as SF. inversion SF as [? W E1 E2|? W E1 E2|c ? W E1 E2]; subst; auto.
        apply (C72_validation xr _ (fn_xr sf ppf) (Fin c) (map Fin yte) (map Fin (mu s)) (map Fin (map (Rmax fl) (std s)))). do 4 right. exact EX. }
      rewrite (mapM_mix_err one (gt_methods tbl) AssertionError); [reflexivity| |].
      + intros [method frame] I1. destruct (FR _ _ I1) as (s & Is & Ef). destruct (DEC s) as [G|G]; [left|right].
        * apply ONE; [exact I1|]. subst frame. eexists. split; [reflexivity|exact G].
        * eapply BAD; eassumption.
      + assert (exists name s, In (name, s) ms /\ Exists (fun d => nltb (Fin 0) d = false) (map Fin (map (Rmax fl) (std s)))) as (name & s & Is & EX).
        { clear - NP DEC PM. unfold positive in NP. clear positive. induction ms as [|[name s] ms IH].
          - exfalso. apply NP. intros ? ? [].
          - destruct (DEC s) as [G|G]; [|exists name, s; split; [now left|exact G]]. destruct IH as (n & s' & Q1 & Q2).
            + intros Q. apply NP. intros n s' [Q'|Q']; [injection Q' as <- <-; now apply PM|eapply Q, Q'].
            + exists n, s'. split; [now right|exact Q2]. }
        assert (In name (map fst (gt_methods tbl))) as I1 by (rewrite EM; exact (in_map fst _ _ Is)). apply NoDup_entry in I1. destruct I1 as [frame I1].
        exists (name, frame). split; [exact I1|]. destruct (FR _ _ I1) as (s' & Is' & Ef). rewrite (NoDup_fst_inj _ _ _ _ N1 Is Is') in EX. eapply BAD; eassumption.
  Qed.
End C87_exact.
Print Assumptions C87_succeeds_iff.

(** Two regressors on two points; the second predicts a zero standard deviation,
    which is accepted with a positive floor only. *)
Definition ex_regressor : regressor xr (list R) unit :=
  {| rg_fit := fun s _ _ => Ok s; rg_predict_std := fun s _ => Ok (map Fin s, map Fin s); rg_predict := fun _ _ => Err KeyError |}.
Definition ex_r_bench (floor : R) (m : eb_method) (pairwise : bool) :=
  @r_just_benchmark _ _ (special (fun _ => cauchy_sf) (fun _ => cauchy_ppf)) _ _ (fun _ _ => false) ex_regressor
  (fun _ _ _ => repeat [0; 2]%Z 1000) (ex_points 2) [Fin 1; Fin 4] (ex_points 2) (map Fin [1; 2]) [(tA, [1; 2]); (tB, [0; 3])] [(tM, square_loss)] tA (Fin floor) pairwise m [].
Example C87_example :
  forall m pairwise, m <> Mother ->
  (exists out, ex_r_bench 1 m pairwise = Ok out /\ map fst out = [(tM, tA); (tM, tB)]) /\ ex_r_bench 0 m pairwise = Err AssertionError.
Proof.
  intros m pw M.
  assert (forall floor, 0 <= floor -> forall P : Prop, (
    let positive := forall name s, In (name, s) [(tA, [1; 2]); (tB, [0; 3])] -> Forall (fun d => 0 < floor \/ 0 < d) s in
    (positive -> exists out, ex_r_bench floor m pw = Ok out /\ forall metric method c, In ((metric, method), c) out -> proper_cell (pystr_eqb method tA) pw (limits_of [] metric) c) /\
    (~ positive -> ex_r_bench floor m pw = Err AssertionError) -> P) -> P) as K.
  { intros floor F P H. apply H.
    apply (C87_succeeds_iff (fun _ => cauchy_sf) (fun _ => cauchy_ppf) (fun _ _ => C57_cauchy) (list R) unit (fun _ _ => false) ex_regressor
      (fun _ _ _ => repeat [0; 2]%Z 1000) (ex_points 2) [Fin 1; Fin 4] (ex_points 2) [1; 2] [(tA, [1; 2]); (tB, [0; 3])] [(tM, square_loss)] tA floor pw m [] (fun s => s) (fun s => s)).
    - constructor; [intros [Q|[]]; discriminate|]. constructor; [intros []|constructor].
    - constructor; [intros []|constructor].
    - exists 1%Z. split; [reflexivity|]. split; [reflexivity|]. split; [cbn; lia|]. split; [reflexivity|]. now apply Rleb_t.
    - intros name s [Q|[Q|[]]]; injection Q as <- <-; (split; [eexists; split; [reflexivity|left; reflexivity]|]); now split.
    - now left.
    - discriminate.
    - exact M.
    - intros metric f [Q|[]]. injection Q as <- <-. constructor. split; reflexivity.
    - intros _ _ _. split; [now rewrite repeat_length|]. apply Forall_forall. intros r Hr. apply repeat_spec in Hr. subst r. repeat split; auto. repeat constructor; lia. }
  split.
  - apply (K 1); [lra|]. intros positive [H _]. destruct H as (out & E & _).
    + intros name s _. apply Forall_forall. intros. left. lra.
    + exists out. split; [exact E|]. unfold ex_r_bench in E. apply C87_cells in E as [E _]; [exact E| |]; (constructor; [|constructor]); try (intros []); try discriminate; try tauto. constructor.
  - apply (K 0); [lra|]. intros positive [_ H]. apply H. intros Q. specialize (Q tB [0; 3] (or_intror (or_introl eq_refl))). inversion Q; subst. lra.
Qed.
