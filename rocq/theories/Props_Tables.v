(** Property theorems C75-C77: checkpointing, the loss tables and the curve
    summary table. *)
From Coq Require Import Reals Lra Lia.
From Flocq Require Import Core BinarySingleNaN.
From Verif Require Import PyBase ListLemmas F64 Num F64Lemmas NumOk Util UtilProofs BootUtil PerfCurves PerfProofs CurveBoot CurveProofs CurveProofs2
  MLPaper MLProofs4 Checkpoint CheckpointProofs Classification Regression Benchmark ClassProofs5 LossTableProofs.
From Verif Require Import Props_Boot Props_Curves Props_MLPaper Props_Predict.
Open Scope R_scope.

(** ** C75 *)
Section C75.
  Context {S D V W : Type} (key_eqb : S * D -> S * D -> bool) (KEY : forall a b, key_eqb a b = true <-> a = b).
  Context (train_predict : S -> D -> res V).
  Implicit Types (st : store (S := S) (D := D) (V := V)).
  Notation run_ finish st data methods crash := (run (W := W) key_eqb train_predict finish true st data methods crash).
  (** any number of later runs, each with its own data, methods and crash *)
  Inductive later st : store -> Prop :=
  | later_here : later st st
  | later_run st' finish data methods crash : later st st' -> later st (fst (fst (run_ finish st' data methods crash))).
  Definition stored st s data : Prop := lookup key_eqb st (s, data) <> None.

  Lemma later_reachable st st' : reachable (W := W) key_eqb train_predict st -> later st st' -> reachable (W := W) key_eqb train_predict st'.
  Proof. intros R L. induction L; [exact R|]. now apply reach_run. Qed.
  Lemma later_extends st st' : reachable (W := W) key_eqb train_predict st -> later st st' -> extends key_eqb st st'.
  Proof.
    intros R L. induction L as [|st' finish data methods crash L IH]; [now intros k v|].
    pose proof (reachable_sound key_eqb KEY train_predict _ (later_reachable _ _ R L)) as SO.
    destruct (run_inv key_eqb KEY train_predict finish methods st' data crash SO) as [_ E]. intros k v H. apply E, IH, H.
  Qed.

  (** Runs are consecutive from the empty directory on.  A result once stored is
      never computed again. *)
  Theorem C75_no_refit :
    forall st st' s data, reachable (W := W) key_eqb train_predict st -> stored st s data -> later st st' ->
    forall finish methods crash name, NoDup (map fst methods) -> In (name, s) methods ->
    ~ In name (snd (fst (run_ finish st' data methods crash))).
  Proof.
    intros st st' s data R H L finish methods crash name ND I F.
    pose proof (reachable_sound key_eqb KEY train_predict _ (later_reachable _ _ R L)) as SO.
    destruct (run_fits key_eqb KEY train_predict finish methods st' data crash SO name F) as (s' & I' & N).
    assert (s' = s) as -> by (eapply NoDup_fst_inj; eassumption).
    unfold stored in H. destruct (lookup key_eqb st (s, data)) as [v|] eqn:E; [|congruence]. apply (later_extends _ _ R L) in E. congruence.
  Qed.

  (** What a run leaves behind: a crash in the (n+1)-th method loses none of
      the first n; a completed run leaves everything stored. *)
  Theorem C75_progress :
    forall st finish data methods n kind st' fitted, reachable (W := W) key_eqb train_predict st ->
    run_ finish st data methods (Some (n, kind)) = (st', fitted, Crashed) ->
    Forall (fun m => stored st' (snd m) data) (firstn n methods).
  Proof.
    intros st finish data methods n kind st' fitted R E. pose proof (reachable_sound key_eqb KEY train_predict _ R) as SO.
    pose proof (run_progress key_eqb KEY train_predict finish methods st data (Some (n, kind)) SO) as P. cbv zeta in P.
    rewrite E in P. exact P.
  Qed.

  Theorem C75_completed :
    forall st finish data methods crash st' fitted t, reachable (W := W) key_eqb train_predict st ->
    run_ finish st data methods crash = (st', fitted, Done t) ->
    Forall (fun m => stored st' (snd m) data) methods /\
    (forall st'' finish' crash', NoDup (map fst methods) -> later st' st'' -> snd (fst (run_ finish' st'' data methods crash')) = []).
  Proof.
    intros st finish data methods crash st' fitted t R E. pose proof (reachable_sound key_eqb KEY train_predict _ R) as SO.
    pose proof (run_progress key_eqb KEY train_predict finish methods st data crash SO) as P. cbv zeta in P. rewrite E in P. cbn in P.
    split; [exact P|]. intros st'' finish' crash' ND L.
    assert (reachable (W := W) key_eqb train_predict st') as R'.
    { replace st' with (fst (fst (run_ finish st data methods crash))) by (now rewrite E). now apply reach_run. }
    destruct (snd (fst (run_ finish' st'' data methods crash'))) as [|name l] eqn:F; [reflexivity|]. exfalso.
    assert (In name (snd (fst (run_ finish' st'' data methods crash')))) as I by (rewrite F; now left).
    destruct (run_fits key_eqb KEY train_predict finish' methods st'' data crash' (reachable_sound key_eqb KEY train_predict _ (later_reachable _ _ R' L)) name I) as (s & Is & _).
    rewrite Forall_forall in P. exact (C75_no_refit st' st'' s data R' (P _ Is) L finish' methods crash' name ND Is I).
  Qed.
End C75.
Print Assumptions C75_no_refit.
Print Assumptions C75_progress.
Print Assumptions C75_completed.

(** After any history of runs, completed, failed or killed, a run with the
    checkpoint directory returns what a run without one does. *)
Theorem C75_classification :
  forall (T : Type) (NT : num T) (FT : fn T) (normalize : nat -> list (list T) -> res (list (list T))) (S X : Type) key_eqb
    (o : classifier T S X) st Xtr kd ytr Xte L methods (m : T),
  (forall a b, key_eqb a b = true <-> a = b) -> reachable (W := list (list T)) key_eqb (c_train_predict o) st ->
  get_pred_log_prob normalize key_eqb o true st Xtr kd ytr Xte L methods m =
  get_pred_log_prob normalize key_eqb o false [] Xtr kd ytr Xte L methods m.
Proof. intros. now apply get_pred_memory. Qed.
Print Assumptions C75_classification.

Theorem C75_regression :
  forall (T : Type) (NT : num T) (S X : Type) key_eqb (o : regressor T S X) st Xtr ytr Xte methods (min_std : T),
  (forall a b, key_eqb a b = true <-> a = b) -> reachable (W := list T * list T) key_eqb (r_train_predict o) st ->
  get_gauss_pred key_eqb o true st Xtr ytr Xte methods min_std = get_gauss_pred key_eqb o false [] Xtr ytr Xte methods min_std.
Proof. intros. now apply get_gauss_memory. Qed.
Print Assumptions C75_regression.

(** Three methods; the first run is killed while the second result is being
    written, the second run while the third method is fitted. *)
Definition nat_key (a b : nat * unit) : bool := (fst a =? fst b)%nat.
Definition ex_methods : list (pystr * nat) := [(["a"%char], 1%nat); (["b"%char], 2%nat); (["c"%char], 3%nat)].
Definition ex_run st crash := run (W := nat) nat_key (fun s _ => Ok (10 * s)%nat) (fun v => Ok (v + 1)%nat) true st tt ex_methods crash.
Example C75_example :
  (forall a b, nat_key a b = true <-> a = b) /\
  let r1 := ex_run [] (Some (1%nat, InWrite)) in let r2 := ex_run (fst (fst r1)) (Some (2%nat, InFit)) in let r3 := ex_run (fst (fst r2)) None in
  snd r1 = Crashed /\ snd r2 = Crashed /\
  snd (fst r1) = [["a"%char]; ["b"%char]] /\ snd (fst r2) = [["b"%char]; ["c"%char]] /\ snd (fst r3) = [["c"%char]] /\
  snd r3 = Done [(["a"%char], 11%nat); (["b"%char], 21%nat); (["c"%char], 31%nat)] /\
  snd (fst (ex_run (fst (fst r3)) None)) = [] /\ reachable (W := nat) nat_key (fun s _ => Ok (10 * s)%nat) (fst (fst r2)).
Proof.
  split.
  - intros [a []] [b []]. unfold nat_key. cbn [fst]. rewrite Nat.eqb_eq. split; congruence.
  - cbv zeta. repeat (split; [reflexivity|]). apply reach_run, reach_run, reach_empty.
Qed.

(** ** C76 *)

(** The predictions of a method as the metrics see them. *)
Definition seen {T} (normalize : nat -> list (list T) -> res (list (list T))) (assume_normalized : bool) (n_labels : nat)
    (rows : list (list T)) : res (list (list T)) :=
  if assume_normalized then Ok rows else normalize n_labels rows.
(** A sub-frame with the columns 0, 1, .. and no NaN *)
Definition proper_frame {T} {NT : num T} (n n_labels : nat) (f : list Z * list (list T)) : Prop :=
  fst f = map Z.of_nat (seq 0 n_labels) /\ length (snd f) = n /\
  Forall (fun row => length row = n_labels /\ Forall (fun a => nisnan a = false) row) (snd f).

Lemma proper_good {T} {NT : num T} (tbl : pred_table T) f : proper_frame (pt_len tbl) (length (pt_labels tbl)) f <-> good_frame tbl f.
Proof.
  unfold proper_frame, good_frame, range_Z. rewrite !Forall_forall. split.
  - intros (A & B & C). split; [exact A|]. split; [exact B|]. split; intros r Hr; now apply C.
  - intros (A & B & C & E). split; [exact A|]. split; [exact B|]. intros r Hr. split; [now apply C|now apply E].
Qed.
Lemma seen_prepared {T} (normalize : nat -> list (list T) -> res (list (list T))) (tbl : pred_table T) an rows P :
  seen normalize an (length (pt_labels tbl)) rows = Ok P <-> prepared normalize tbl an rows P.
Proof. unfold seen, prepared. destruct an; [|tauto]. split; [intros H; now apply Ok_inj in H|now intros ->]. Qed.

Section C76.
  Context {T : Type} {NT : num T} (normalize : nat -> list (list T) -> res (list (list T))).

  Theorem C76_classification :
    forall (tbl : pred_table T) kd y (metrics : dict (metric_fun T)) assume_normalized lt,
    NoDup (map fst metrics) -> NoDup (map fst (pt_methods tbl)) ->
    loss_table normalize tbl kd y metrics assume_normalized = Ok lt ->
    lt_len lt = length y /\ lt_metrics lt = map fst metrics /\ lt_methods lt = map fst (pt_methods tbl) /\
    NoDup (map fst (lt_cols lt)) /\
    (forall metric method, In (metric, method) (map fst (lt_cols lt)) <-> In metric (map fst metrics) /\ In method (map fst (pt_methods tbl))) /\
    (forall metric metric_f method cols rows, In (metric, metric_f) metrics -> In (method, (cols, rows)) (pt_methods tbl) ->
      exists P loss, seen normalize assume_normalized (length (pt_labels tbl)) rows = Ok P /\
        metric_f kd y P (length (pt_labels tbl)) = Ok loss /\ length loss = length y /\ column lt metric method loss).
  Proof.
    intros tbl kd y md an lt N1 N2 H. pose proof (loss_table_labels _ _ _ _ _ _ _ H) as EL.
    pose proof (loss_table_inv _ _ _ _ _ _ _ H) as (A & _ & _ & _ & B & C & D & cols & EC & F).
    assert (NoDup (map fst (lt_cols lt))) as N.
    { rewrite EL. apply (nodup_pair_labels (pt_methods tbl) md (fun p q => (p, q))); auto. intros p q p' q' E. now injection E. }
    split; [congruence|]. split; [exact B|]. split; [exact C|]. split; [exact N|]. split.
    - intros metric method. rewrite EL. rewrite (in_pair_labels (pt_methods tbl) md (fun p q => (p, q))). split.
      + intros (p & q & E & Hp & Hq). injection E as -> ->. auto.
      + intros [Hp Hq]. exists metric, method. auto.
    - intros metric f method cs rows Hm Ht. destruct (Forall2_in_l _ _ _ _ F Ht) as (c & Hc & E). apply method_losses_iff in E.
      destruct E as (_ & P & EP & E). destruct (Forall2_in_l _ _ _ _ E Hm) as (e & He & l & E1 & E2 & ->). cbn [fst snd] in *.
      exists P, l. split; [now apply seen_prepared|]. split; [exact E1|]. split; [congruence|].
      assert (In ((metric, method), l) (lt_cols lt)) as I by (rewrite EC; apply in_concat; exists c; auto).
      split; [exact I|]. intros z Hz. exact (NoDup_fst_inj _ _ _ _ N Hz I).
  Qed.

  (** When the table is produced at all. *)
  Theorem C76_classification_accepts :
    forall (tbl : pred_table T) kd y (metrics : dict (metric_fun T)) assume_normalized,
    (exists lt, loss_table normalize tbl kd y metrics assume_normalized = Ok lt) <->
    length y = pt_len tbl /\ (1 <= length y)%nat /\ pt_labels tbl <> [] /\ pt_methods tbl <> [] /\
    (forall method frame, In (method, frame) (pt_methods tbl) -> proper_frame (pt_len tbl) (length (pt_labels tbl)) frame /\
      exists P, seen normalize assume_normalized (length (pt_labels tbl)) (snd frame) = Ok P /\
      forall metric metric_f, In (metric, metric_f) metrics ->
        exists loss, metric_f kd y P (length (pt_labels tbl)) = Ok loss /\ length loss = length y).
  Proof.
    intros tbl kd y md an. rewrite loss_table_iff.
    assert (forall {A} (l : list A), (1 <= length l)%nat <-> l <> []) as NE by (intros A [|]; cbn; split; try lia; congruence).
    rewrite (NE _ (pt_labels tbl)), (NE _ (pt_methods tbl)), Forall_forall. split; intros (A & B & C & D & E); rewrite A in *; (split; [reflexivity|]);
      (split; [lia|]); (split; [assumption|]); (split; [assumption|]).
    - intros method f Hf. destruct (E _ Hf) as [c Hc]. apply method_losses_iff in Hc. destruct Hc as (G & P & EP & F).
      split; [now apply proper_good|]. exists P. split; [now apply seen_prepared|]. intros metric mf Hm.
      destruct (Forall2_in_l _ _ _ _ F Hm) as (e & _ & l & E1 & E2 & _). exists l. auto.
    - intros [method f] Hf. destruct (E _ _ Hf) as (G & P & EP & F).
      assert (exists c, Forall2 (fun (mf : pystr * metric_fun T) e => exists l, snd mf kd y P (length (pt_labels tbl)) = Ok l /\ length l = pt_len tbl /\ e = ((fst mf, method), l)) md c) as [c Fc].
      { clear -F. induction md as [|[k mf] md IH]; [exists []; constructor|].
        destruct IH as [c IH]; [intros; eapply F; right; eassumption|]. destruct (F k mf (or_introl eq_refl)) as (l & E1 & E2).
        exists (((k, method), l) :: c). constructor; [exists l; auto|exact IH]. }
      exists c. apply method_losses_iff. split; [now apply proper_good|]. exists P. split; [now apply seen_prepared|exact Fc].
  Qed.

  Theorem C76_regression :
    forall (tbl : gauss_table T) y (metrics : dict (r_metric_fun T)) lt,
    NoDup (map fst metrics) -> NoDup (map fst (gt_methods tbl)) -> r_loss_table tbl y metrics = Ok lt ->
    lt_len lt = length y /\ lt_metrics lt = map fst metrics /\ lt_methods lt = map fst (gt_methods tbl) /\
    NoDup (map fst (lt_cols lt)) /\
    (forall metric method, In (metric, method) (map fst (lt_cols lt)) <-> In metric (map fst metrics) /\ In method (map fst (gt_methods tbl))) /\
    (forall metric metric_f method mu std, In (metric, metric_f) metrics -> In (method, (mu, std)) (gt_methods tbl) ->
      exists loss, metric_f y mu std = Ok loss /\ length loss = length y /\ column lt metric method loss).
  Proof.
    intros tbl y md lt N1 N2 H. apply r_loss_table_iff in H. destruct H as (A & _ & _ & B & C & D & cols & EC & F).
    assert (map fst (lt_cols lt) = flat_map (fun m => map (fun mf => (fst mf, fst m)) md) (gt_methods tbl)) as EL.
    { rewrite EC. apply (pair_labels (gt_methods tbl) md cols (fun p q => (p, q))). eapply Forall2_impl_; [|exact F]. intros m c E.
      eapply Forall2_impl_; [|exact E]. intros mf e (l & _ & _ & ->). reflexivity. }
    assert (NoDup (map fst (lt_cols lt))) as N.
    { rewrite EL. apply (nodup_pair_labels (gt_methods tbl) md (fun p q => (p, q))); auto. intros p q p' q' E. now injection E. }
    split; [congruence|]. split; [exact B|]. split; [exact C|]. split; [exact N|]. split.
    - intros metric method. rewrite EL. rewrite (in_pair_labels (gt_methods tbl) md (fun p q => (p, q))). split.
      + intros (p & q & E & Hp & Hq). injection E as -> ->. auto.
      + intros [Hp Hq]. exists metric, method. auto.
    - intros metric f method mu std Hm Ht. destruct (Forall2_in_l _ _ _ _ F Ht) as (c & Hc & E).
      destruct (Forall2_in_l _ _ _ _ E Hm) as (e & He & l & E1 & E2 & ->). cbn [fst snd] in *.
      exists l. split; [exact E1|]. split; [congruence|].
      assert (In ((metric, method), l) (lt_cols lt)) as I by (rewrite EC; apply in_concat; exists c; auto).
      split; [exact I|]. intros z Hz. exact (NoDup_fst_inj _ _ _ _ N Hz I).
  Qed.
End C76.
Print Assumptions C76_classification.
Print Assumptions C76_classification_accepts.
Print Assumptions C76_regression.

(** End to end for the log loss in exact arithmetic: unnormalised predictions
    [row] cost log(sum exp row) - row[y]. *)
Theorem C76_log_loss_of_scores :
  forall (tbl : pred_table xr) kd y (metrics : dict (metric_fun xr)) lt metric method cols (rows : list (list R)),
  NoDup (map fst metrics) -> NoDup (map fst (pt_methods tbl)) -> loss_table normalize tbl kd y metrics false = Ok lt ->
  In (metric, log_loss) metrics -> In (method, (cols, map (map Fin) rows)) (pt_methods tbl) ->
  exists loss, column lt metric method loss /\ length loss = length y /\
    forall i v row, nth_error y i = Some v -> nth_error rows i = Some row ->
    nth_error loss i = Some (Fin (ln (Rsum (map exp row)) - nth (Z.to_nat v) row 0)).
Proof.
  intros tbl kd y md lt metric method cols rows N1 N2 E Hm Ht.
  pose proof (proj1 (C76_classification_accepts normalize tbl kd y md false) (ex_intro _ lt E)) as (_ & _ & NL & _ & PF).
  destruct (PF _ _ Ht) as ((_ & _ & FR) & _). cbn [snd] in FR.
  destruct (C76_classification normalize tbl kd y md false lt N1 N2 E) as (_ & _ & _ & _ & _ & K).
  destruct (K _ _ _ _ _ Hm Ht) as (P & loss & EP & EL & LL & C). exists loss. split; [exact C|]. split; [exact LL|].
  intros i v row Hy Hr. unfold seen, normalize in EP. destruct (1 <=? Z.of_nat (length (pt_labels tbl)))%Z; [|discriminate].
  cbn [py_assert bind] in EP. apply Ok_inj in EP. subst P. unfold log_loss in EL.
  destruct (shape_and_validate kd y _ _) as [[n k]|] eqn:V; [|discriminate]. cbn [bind] in EL. apply Ok_inj in EL. subst loss.
  assert (length row = length (pt_labels tbl)) as LR.
  { rewrite Forall_forall in FR. destruct (FR (map Fin row)) as [H _]; [|now rewrite map_length in H]. apply in_map. eapply nth_error_In; eassumption. }
  assert ((Z.to_nat v < length row)%nat) as Hv.
  { revert V. unfold shape_and_validate. do 3 (match goal with |- context [py_assert ?b] => destruct b; [|discriminate]; cbn [py_assert bind] end).
    destruct (forallb _ y && _) eqn:B; [|discriminate]. intros _. apply andb_true_iff in B. destruct B as [B1 B2]. rewrite forallb_forall in B1, B2.
    pose proof (B1 _ (nth_error_In _ _ Hy)) as H1. pose proof (B2 _ (nth_error_In _ _ Hy)) as H2. apply Z.leb_le in H1. apply Z.ltb_lt in H2. lia. }
  assert (normalize_row (map Fin row) = map (fun x => Fin (x - ln (Rsum (map exp row)))) row) as EN.
  { rewrite normalize_row_spec.
    - rewrite !map_map. reflexivity.
    - apply Forall_forall. intros a Ha. apply in_map_iff in Ha. destruct Ha as (x & <- & _). exact I.
    - destruct row; [cbn in Hv; lia|]. now constructor. }
  assert (nth_error (map normalize_row (map (map Fin) rows)) i = Some (map (fun x => Fin (x - ln (Rsum (map exp row)))) row)) as HP.
  { rewrite <- EN. apply map_nth_error. now apply map_nth_error. }
  revert Hy HP. generalize (map normalize_row (map (map Fin) rows)). clear -Hv. revert i. induction y as [|a y IH]; intros [|i] [|q m]; cbn; try discriminate.
  - intros E1 E2. injection E1 as ->. injection E2 as ->. f_equal.
    rewrite (nth_indep _ _ (Fin (0 - ln (Rsum (map exp row))))) by (now rewrite map_length). rewrite (map_nth (fun x => Fin (x - ln (Rsum (map exp row))))). cbn. f_equal. ring.
  - apply IH.
Qed.
Print Assumptions C76_log_loss_of_scores.

Example C76_example :
  let t := {| pt_len := 2; pt_labels := [0; 1]%Z;
              pt_methods := [(tA, ([0; 1]%Z, map (map Fin) [[1; 2]; [3; 1]])); (tB, ([0; 1]%Z, map (map Fin) [[0; 0]; [5; 1]]))] |} in
  NoDup (map fst (pt_methods t)) /\ exists lt, loss_table normalize t Ki [0; 1]%Z [(tM, log_loss)] false = Ok lt.
Proof.
  intros t. split; [|eexists; unfold loss_table; cbn; reflexivity].
  constructor; [intros [H|[]]; discriminate|]. constructor; [intros []|constructor].
Qed.

(** ** C77 *)

(** the entry of a (method, curve) pair *)
Definition entry_of {T} (out : list ((pystr * pystr) * (cell T * list (@grid_row T)))) (method curve : pystr) (c : cell T) (dump : list (@grid_row T)) : Prop :=
  In ((method, curve), (c, dump)) out /\ forall e, In ((method, curve), e) out -> e = (c, dump).
Definition frame_of {T} (tbl : pred_table T) (method : pystr) (rows : list (list T)) : Prop :=
  exists cols, In (method, (cols, rows)) (pt_methods tbl).

Lemma dict_get_in {V} (d : list (pystr * V)) k v : NoDup (map fst d) -> (dict_get d k = Some v <-> In (k, v) d).
Proof.
  induction d as [|[k' v'] d IH]; [cbn; split; [discriminate|tauto]|]. intros N. inversion N as [|? ? Hn N']; subst. cbn [dict_get].
  destruct (pystr_eqb k k') eqn:E.
  - apply pystr_eqb_spec in E. subst k'. split.
    + intros H. left. congruence.
    + intros [H|H]; [congruence|]. exfalso. apply Hn. change k with (fst (k, v)). now apply in_map.
  - rewrite IH by exact N'. split; [now right|]. intros [H|H]; [|exact H]. injection H as -> ->.
    rewrite (proj2 (pystr_eqb_spec k k) eq_refl) in E. discriminate.
Qed.

Section C77.
  Context {T : Type} {NT : num T}.
  Implicit Types (tbl : pred_table T) (curves : dict (curve_fun T)).

  (** Every entry comes from comparing that method with the reference by
      curve_boot; the reference row has a NaN p-value, and a NaN error bar
      exactly if the error bars are pairwise. *)
  Theorem C77_entries :
    forall draw tbl kd y curves ref_method x_grid n_boot pairwise confidence out,
    NoDup (map fst curves) -> NoDup (map fst (pt_methods tbl)) ->
    curve_summary_table draw tbl kd y curves ref_method x_grid n_boot pairwise confidence = Ok out ->
    NoDup (map fst out) /\
    (forall method curve, In (method, curve) (map fst out) <-> In method (map fst (pt_methods tbl)) /\ In curve (map fst curves)) /\
    exists ref, frame_of tbl ref_method ref /\
    forall method rows curve curve_f, frame_of tbl method rows -> In (curve, curve_f) curves ->
    exists auc EB p dump c,
      curve_boot (draw method curve) kd y rows (length (pt_labels tbl)) (RefPred ref) curve_f x_grid n_boot pairwise confidence = Ok ((auc, EB, p), dump) /\
      entry_of out method curve c dump /\ cell_mean c = auc /\
      (method <> ref_method -> cell_error c = EB /\ cell_pval c = p) /\
      (method = ref_method -> cell_pval c = nnan /\
         (pairwise = true -> cell_error c = nnan) /\
         (pairwise = false -> cell_error c = EB /\ nltb EB n0 = false /\ (nisfin auc = true -> nisnan EB = false))).
  Proof.
    intros draw tbl kd y cd refm g nb pw c out N1 N2 H. pose proof (curve_table_labels _ _ _ _ _ _ _ _ _ _ _ H) as EL.
    apply curve_table_iff in H. destruct H as (_ & _ & _ & _ & [rc ref] & ER & _ & cols & EO & F).
    assert (NoDup (map fst out)) as N.
    { rewrite EL. apply (nodup_pair_labels (pt_methods tbl) cd (fun p q => (q, p))); auto. intros p q p' q' E. injection E. auto. }
    split; [exact N|]. split.
    - intros method curve. rewrite EL. rewrite (in_pair_labels (pt_methods tbl) cd (fun p q => (q, p))). split.
      + intros (p & q & E & Hp & Hq). injection E as -> ->. auto.
      + intros [Hp Hq]. exists curve, method. auto.
    - exists ref. split; [exists rc; now apply dict_get_in|]. intros method rows curve cf [cs Ht] Hc.
      destruct (Forall2_in_l _ _ _ _ F Ht) as (o & Ho & E). apply curve_method_iff in E. destruct E as [_ E].
      destruct (Forall2_in_l _ _ _ _ E Hc) as (e & He & auc & EB & p & dump & EB1 & ->). cbn [fst snd] in *.
      eexists auc, EB, p, dump, _. split; [exact EB1|].
      match type of He with In (_, (?cl, _)) _ => assert (In ((method, curve), (cl, dump)) out) as I by (rewrite EO; apply in_concat; exists o; auto) end.
      split; [split; [exact I|]; intros z Hz; exact (NoDup_fst_inj _ _ _ _ N Hz I)|]. cbn [cell_mean cell_error cell_pval]. split; [reflexivity|].
      destruct (pystr_eqb method refm) eqn:Q.
      + apply pystr_eqb_spec in Q. split; [congruence|]. intros _. split; [reflexivity|]. split; [now intros ->|]. intros ->.
        split; [reflexivity|]. exact (curve_boot_error _ _ _ _ _ _ _ _ _ _ _ _ _ _ EB1).
      + split; [intros _; rewrite andb_false_r; auto|]. intros ->. rewrite (proj2 (pystr_eqb_spec refm refm) eq_refl) in Q. discriminate.
  Qed.

  (** The entry of a method depends on no other method but the reference. *)
  Theorem C77_independent :
    forall draw tbl tbl' kd y curves ref_method x_grid n_boot pairwise confidence out out' ref method rows curve c dump,
    NoDup (map fst curves) -> NoDup (map fst (pt_methods tbl)) -> NoDup (map fst (pt_methods tbl')) ->
    length (pt_labels tbl) = length (pt_labels tbl') ->
    curve_summary_table draw tbl kd y curves ref_method x_grid n_boot pairwise confidence = Ok out ->
    curve_summary_table draw tbl' kd y curves ref_method x_grid n_boot pairwise confidence = Ok out' ->
    frame_of tbl ref_method ref -> frame_of tbl' ref_method ref -> frame_of tbl method rows -> frame_of tbl' method rows ->
    entry_of out method curve c dump -> entry_of out' method curve c dump.
  Proof.
    intros draw tbl tbl' kd y cd refm g nb pw cf out out' ref method rows curve c dump N0 N N' L H H' R R' M M' E.
    assert (forall (t : pred_table T) m a b, NoDup (map fst (pt_methods t)) -> frame_of t m a -> frame_of t m b -> a = b) as U.
    { intros t m a b Nt [ca Ha] [cb Hb]. pose proof (NoDup_fst_inj _ _ _ _ Nt Ha Hb) as Q. congruence. }
    destruct (C77_entries _ _ _ _ _ _ _ _ _ _ _ N0 N H) as (_ & LAB & r & Hr & K).
    destruct (C77_entries _ _ _ _ _ _ _ _ _ _ _ N0 N' H') as (_ & _ & r' & Hr' & K').
    rewrite (U _ _ _ _ N Hr R) in K. rewrite (U _ _ _ _ N' Hr' R') in K'.
    assert (In (method, curve) (map fst out)) as I by (destruct E as [I _]; exact (in_map fst _ _ I)).
    apply LAB in I. destruct I as [_ I]. apply in_map_iff in I. destruct I as ([k f] & Q & I). cbn in Q. subst k.
    destruct (K _ _ _ _ M I) as (auc & EB & p & d & c1 & B & E1 & C1 & C2 & C3).
    destruct (K' _ _ _ _ M' I) as (auc' & EB' & p' & d' & c1' & B' & E1' & C1' & C2' & C3').
    rewrite L in B. rewrite B in B'. apply Ok_inj in B'. injection B' as <- <- <- <-.
    assert ((c, dump) = (c1, d)) as Q by (apply E1; apply E). injection Q as -> ->.
    assert (c1 = c1') as ->; [|exact E1'].
    assert (method = refm \/ method <> refm) as [Hm|Hm].
    { destruct (pystr_eqb method refm) eqn:Q; [left; now apply pystr_eqb_spec|right]. intros ->. rewrite (proj2 (pystr_eqb_spec refm refm) eq_refl) in Q. discriminate. }
    - specialize (C3 Hm). specialize (C3' Hm). destruct C3 as (P1 & P2 & P3), C3' as (P1' & P2' & P3'). destruct c1, c1'; cbn in *. destruct pw.
      + rewrite (P2 eq_refl), (P2' eq_refl). congruence.
      + destruct (P3 eq_refl) as [-> _], (P3' eq_refl) as [-> _]. congruence.
    - specialize (C2 Hm). specialize (C2' Hm). destruct c1, c1'; cbn in *. destruct C2 as [-> ->], C2' as [-> ->]. congruence.
  Qed.

  (** A reference that is not in the table, labels for another number of
      points, an empty table or no curve, and a reference frame of another
      shape are refused with an AssertionError. *)
  Theorem C77_rejected :
    forall draw tbl kd y curves ref_method x_grid n_boot pairwise confidence,
    length y <> pt_len tbl \/ ~ In ref_method (map fst (pt_methods tbl)) \/ pt_len tbl = 0%nat \/ pt_labels tbl = [] \/ curves = [] \/
    (NoDup (map fst (pt_methods tbl)) /\ exists cols rows, In (ref_method, (cols, rows)) (pt_methods tbl) /\
      (cols <> map Z.of_nat (seq 0 (length (pt_labels tbl))) \/ length rows <> pt_len tbl \/
       exists r, In r rows /\ length r <> length (pt_labels tbl))) ->
    curve_summary_table draw tbl kd y curves ref_method x_grid n_boot pairwise confidence = Err AssertionError.
  Proof.
    intros draw tbl kd y cd refm g nb pw c H. unfold curve_summary_table, sub_frame.
    destruct (length y =? pt_len tbl)%nat eqn:E1; [|reflexivity]. cbn [py_assert bind]. apply Nat.eqb_eq in E1.
    destruct (dict_get (pt_methods tbl) refm) as [[cols rows]|] eqn:E2; [|reflexivity]. cbn [bind].
    destruct ((1 <=? pt_len tbl) && (1 <=? length (pt_labels tbl)) && (1 <=? length cd))%nat eqn:E3; [|reflexivity]. cbn [py_assert bind].
    rewrite !andb_true_iff, !Nat.leb_le in E3. destruct E3 as [[A B] C].
    destruct (listZ_eqb cols (range_Z (length (pt_labels tbl)))) eqn:E4; [|reflexivity]. cbn [py_assert bind].
    destruct ((length rows =? pt_len tbl)%nat && forallb (fun r => (length r =? length (pt_labels tbl))%nat) rows) eqn:E5; [|reflexivity]. exfalso.
    apply andb_true_iff in E5 as [E5 E6]. apply Nat.eqb_eq in E5. rewrite forallb_forall in E6.
    destruct H as [H|[H|[H|[H|[H|(N & cs & rs & I & H)]]]]].
    - contradiction.
    - apply H. clear -E2. induction (pt_methods tbl) as [|[k v] d IH]; [discriminate|]. cbn [dict_get] in E2. destruct (pystr_eqb refm k) eqn:Q; [left; symmetry; now apply pystr_eqb_spec|right; auto].
    - lia.
    - rewrite H in B. cbn in B. lia.
    - rewrite H in C. cbn in C. lia.
    - apply (dict_get_in _ _ _ N) in I. rewrite I in E2. assert (cs = cols /\ rs = rows) as [-> ->] by (split; congruence).
      destruct H as [H|[H|(r & Hr & H)]]; [apply H; now apply listZ_eqb_spec|contradiction|]. apply H. apply Nat.eqb_eq. auto.
  Qed.
End C77.
Print Assumptions C77_entries.
Print Assumptions C77_independent.
Print Assumptions C77_rejected.

(** The curve dump: one row per grid point; in doubles the lower bound is at
    most the upper one. *)
Theorem C77_dump_bounds :
  forall draw (tbl : pred_table f64) kd y (curves : dict (curve_fun f64)) ref_method x_grid n_boot pairwise confidence out method curve c dump,
  NoDup (map fst curves) -> NoDup (map fst (pt_methods tbl)) -> (n_boot <= 2 ^ 53)%Z ->
  curve_summary_table draw tbl kd y curves ref_method x_grid n_boot pairwise confidence = Ok out ->
  In ((method, curve), (c, dump)) out ->
  map (fun r => fst (fst (fst r))) dump = match x_grid with None => default_grid | Some g => g end /\
  Forall (fun r => fleb (snd (fst r)) (snd r) = true) dump.
Proof.
  intros draw tbl kd y cd refm g nb pw cf out method curve c dump N1 N2 NB H I.
  destruct (C77_entries _ _ _ _ _ _ _ _ _ _ _ N1 N2 H) as (_ & LAB & ref & _ & K).
  assert (In (method, curve) (map fst out)) as J by (exact (in_map fst _ _ I)). apply LAB in J. destruct J as [J1 J2].
  apply in_map_iff in J1. apply in_map_iff in J2. destruct J1 as ([k1 [cols rows]] & Q & J1). cbn [fst] in Q. subst k1. destruct J2 as ([k2 f] & Q & J2). cbn [fst] in Q. subst k2.
  destruct (K method rows curve f (ex_intro _ cols J1) J2) as (auc & EB & p & d & c1 & B & [_ E1] & _).
  apply E1 in I. injection I as _ ->. apply curve_boot_dump in B. cbv zeta in B. destruct B as (B1 & B2 & B3). split; [exact B2|].
  eapply Forall_impl; [|exact B3]. intros r (b & Lb & Eb). refine (percentile_ordered b cf _ _ _ Eb). split; [|lia].
  intros ->. cbn in Lb. lia.
Qed.
Print Assumptions C77_dump_bounds.

(** In exact arithmetic the table of ROC and recall-precision curves of real
    scores is always produced, with means, bounds and p-values in [0,1]. *)
(** A curve of perf_curves.py that may be used, and the range of its values. *)
Inductive std_curve (pairwise : bool) : curve_fun xr -> (xr -> Prop) -> Prop :=
| std_roc : std_curve pairwise roc_curve in_unit
| std_rp : std_curve pairwise recall_precision_curve in_unit
| std_prg : pairwise = false -> std_curve pairwise prg_curve at_most_one.

Theorem C77_exact :
  forall draw (tbl : pred_table xr) kd y (curves : dict (curve_fun xr)) ref_method (x_grid : option (list R)) n_boot pairwise confidence,
  NoDup (map fst curves) -> NoDup (map fst (pt_methods tbl)) ->
  kd = Kb \/ kd = Ki -> y <> [] -> Forall (fun v => v = 0%Z \/ v = 1%Z) y -> (1 <= n_boot)%Z -> valid_grid x_grid -> 0 < confidence < 1 ->
  length y = pt_len tbl -> length (pt_labels tbl) = 2%nat -> In ref_method (map fst (pt_methods tbl)) -> curves <> [] ->
  (forall curve f, In (curve, f) curves -> exists Q, std_curve pairwise f Q) ->
  (forall method frame, In (method, frame) (pt_methods tbl) -> exists preds,
    frame = ([0; 1]%Z, fin_matrix preds) /\ length preds = length y /\ Forall (fun r => length r = 2%nat) preds) ->
  (forall method curve, multinomial_outcome (Z.of_nat (length y)) n_boot (draw method curve)) ->
  exists out, curve_summary_table draw tbl kd y curves ref_method (option_map (map Fin) x_grid) n_boot pairwise (Fin confidence) = Ok out /\
  forall method curve f Q c dump, In (curve, f) curves -> std_curve pairwise f Q -> In ((method, curve), (c, dump)) out ->
    Q (cell_mean c) /\ (method <> ref_method -> in_unit (cell_pval c)) /\
    map (fun r => fst (fst (fst r))) dump = map Fin (grid_of x_grid) /\
    Forall (fun r => Q (snd (fst (fst r))) /\ Q (snd (fst r)) /\ Q (snd r) /\ xleb (snd (fst r)) (snd r) = true) dump.
Proof.
  intros draw tbl kd y cd refm g nb pw c N1 N2 Kd Ny Lab Nb Vg Hc Ly Ll Hr Ncd Hf Ht Dr.
  assert (forall method rows curve f ref Q, frame_of tbl method rows -> frame_of tbl refm ref -> In (curve, f) cd -> std_curve pw f Q ->
    boot_result Q (curve_boot (draw method curve) kd y rows (length (pt_labels tbl)) (RefPred ref) f (option_map (map Fin) g) nb pw (Fin c)) (grid_of g)) as B.
  { intros method rows curve f ref Q [c1 H1] [c2 H2] H3 HQ. destruct (Ht _ _ H1) as (p1 & Q1 & L1 & F1), (Ht _ _ H2) as (p2 & Q2 & L2 & F2).
    injection Q1 as _ ->. injection Q2 as _ ->. rewrite Ll. change (RefPred (fin_matrix p2)) with (to_ref (MatrixRef p2)).
    assert (curve_boot_input kd y p1 (draw method curve) nb) as CI by (constructor; auto).
    destruct HQ as [| |Hp].
    - apply C54_curve_boot_roc_rp; [now left|exact CI|split; assumption|exact Vg|exact Hc].
    - apply C54_curve_boot_roc_rp; [now right|exact CI|split; assumption|exact Vg|exact Hc].
    - apply C54_curve_boot_prg; [exact CI|split; assumption|exact Vg|exact Hc|congruence]. }
  apply in_map_iff in Hr. destruct Hr as ([k [rc ref]] & Q & Hr). cbn [fst] in Q. subst k.
  assert (forall method f, In (method, f) (pt_methods tbl) -> shaped tbl f) as SH.
  { intros method f H. destruct (Ht _ _ H) as (p & -> & L & F). unfold shaped. rewrite Ll. cbn [fst snd]. split; [reflexivity|].
    unfold fin_matrix. rewrite map_length. split; [congruence|]. apply Forall_forall. intros r Hin. apply in_map_iff in Hin. destruct Hin as (r' & <- & Hin).
    rewrite map_length. rewrite Forall_forall in F. now apply F. }
  assert (exists out, curve_summary_table draw tbl kd y cd refm (option_map (map Fin) g) nb pw (Fin c) = Ok out) as [out E].
  { assert (exists cols, Forall2 (fun m o => curve_method draw tbl kd y cd refm ref (option_map (map Fin) g) nb pw (Fin c) m = Ok o) (pt_methods tbl) cols) as [cols F].
    { assert (forall m, In m (pt_methods tbl) -> exists o, curve_method draw tbl kd y cd refm ref (option_map (map Fin) g) nb pw (Fin c) m = Ok o) as One.
      { intros [method [cs rows]] H.
        assert (forall curve f, In (curve, f) cd -> exists r, curve_boot (draw method curve) kd y rows (length (pt_labels tbl)) (RefPred ref) f (option_map (map Fin) g) nb pw (Fin c) = Ok r) as K.
        { intros curve f Hcf. destruct (Hf _ _ Hcf) as [Q HQ]. destruct (B method rows curve f ref Q (ex_intro _ cs H) (ex_intro _ rc Hr) Hcf HQ) as (auc & EB & p & d & -> & _). eexists; reflexivity. }
        assert (exists o, Forall2 (fun (cf : pystr * curve_fun xr) e => exists auc EB p dump,
          curve_boot (draw method (fst cf)) kd y rows (length (pt_labels tbl)) (RefPred ref) (snd cf) (option_map (map Fin) g) nb pw (Fin c) = Ok ((auc, EB, p), dump) /\
          e = ((method, fst cf), ({| cell_mean := auc; cell_error := if pw && pystr_eqb method refm then nnan else EB;
                              cell_pval := if pystr_eqb method refm then nnan else p |}, dump))) cd o) as [o Fo].
        { clear -K. induction cd as [|[k f] cd IH]; [exists []; constructor|]. destruct IH as [o IH]; [intros; eapply K; right; eassumption|].
          destruct (K k f (or_introl eq_refl)) as [[[[auc EB] p] d] E]. eexists (_ :: o). constructor; [|exact IH].
          exists auc, EB, p, d. split; [exact E|reflexivity]. }
        exists o. apply curve_method_iff. split; [exact (SH _ _ H)|exact Fo]. }
      clear -One. induction (pt_methods tbl) as [|m l IH]; [exists []; constructor|]. destruct IH as [cols IH]; [intros; apply One; now right|].
      destruct (One m (or_introl eq_refl)) as [o E]. exists (o :: cols). now constructor. }
    exists (concat cols). apply curve_table_iff. split; [exact Ly|]. split; [destruct y; [congruence|cbn in Ly; lia]|]. split; [lia|].
    split; [destruct cd; [congruence|cbn; lia]|]. exists (rc, ref). split; [now apply dict_get_in|]. split; [exact (SH _ _ Hr)|]. exists cols. auto. }
  exists out. split; [exact E|]. intros method curve f Q cl dump If HQ I.
  destruct (C77_entries _ _ _ _ _ _ _ _ _ _ _ N1 N2 E) as (_ & LAB & ref' & Hr' & K).
  assert (In (method, curve) (map fst out)) as J by (exact (in_map fst _ _ I)). apply LAB in J. destruct J as [J1 _].
  apply in_map_iff in J1. destruct J1 as ([k1 [cols rows]] & Ek & J1). cbn [fst] in Ek. subst k1. pose proof If as J2.
  destruct (K method rows curve f (ex_intro _ cols J1) J2) as (auc & EB & p & d & c1 & BB & [_ E1] & C1 & C2 & _).
  apply E1 in I. injection I as -> ->.
  destruct (B method rows curve f ref' Q (ex_intro _ cols J1) Hr' J2 HQ) as (auc' & EB' & p' & d' & BB' & U & P & G & FF). rewrite BB in BB'. apply Ok_inj in BB'.
  injection BB' as -> _ -> ->. split; [now rewrite C1|]. split; [|split; [exact G|exact FF]].
  intros Hm. destruct (C2 Hm) as [_ ->]. exists p'. auto.
Qed.
Print Assumptions C77_exact.

Example C77_rejected_example :
  let tbl := {| pt_len := 1; pt_labels := [0; 1]%Z; pt_methods := [(tA, ([0; 1]%Z, [[f0; f0]]))] |} in
  ~ In tB (map fst (pt_methods tbl)) /\
  curve_summary_table (fun _ _ => [[1]]%Z) tbl Ki [1]%Z [(tM, roc_curve)] tB None 1 true (f_lit 95 100) = Err AssertionError.
Proof. cbv zeta. assert (~ In tB [tA]) as H by (intros [H|[]]; discriminate). split; [exact H|]. apply C77_rejected. right. left. exact H. Qed.
Example C77_hyp :
  let y := [1; 0; 1]%Z in let frame p := ([0; 1]%Z, fin_matrix p) in
  let tbl := {| pt_len := 3; pt_labels := [0; 1]%Z; pt_methods := [(tA, frame [[0; 3]; [0; 1]; [0; 2]]); (tB, frame [[0; 1]; [0; 0]; [1; 1]])] |} in
  NoDup (map fst (pt_methods tbl)) /\ In tB (map fst (pt_methods tbl)) /\ valid_grid None /\
  (forall method f, In (method, f) (pt_methods tbl) -> exists preds, f = ([0; 1]%Z, fin_matrix preds) /\ length preds = length y /\ Forall (fun r => length r = 2%nat) preds) /\
  multinomial_outcome 3 2 [[2; 0; 1]; [0; 3; 0]]%Z.
Proof.
  intros y frame tbl. split; [constructor; [intros [H|[]]; discriminate|]; constructor; [intros []|constructor]|]. split; [now right; left|]. split; [exact I|]. split.
  - intros method f [H|[H|[]]]; injection H as <- <-; eexists; (split; [reflexivity|]); (split; [reflexivity|]); repeat constructor.
  - split; [reflexivity|]. repeat (constructor; auto). all: lia.
Qed.
(** In doubles: the mean, error bar and p-value of two methods, in thousandths;
    tB is the reference and the error bars are pairwise. *)
Example C77_example :
  let p l := ([0; 1]%Z, map (fun v => [f0; f_of_Z v]) l) in
  let ml v := Props_Curves.milli v in
  let tbl := {| pt_len := 5; pt_labels := [0; 1]%Z; pt_methods := [(tA, p [3; 1; 2; 2; 1]%Z); (tB, p [1; 1; 2; 2; 3]%Z)] |} in
  match curve_summary_table (fun _ _ => [[2; 1; 0; 1; 1]; [1; 1; 1; 1; 1]; [0; 1; 2; 2; 0]]%Z) tbl Ki [1; 0; 1; 0; 1]%Z [(tM, roc_curve)] tB
    (Some [f0; f_lit 1 2; f_of_Z 1]) 3 true (f_lit 95 100) with
  | Ok out => map (fun e => (fst e, ml (cell_mean (fst (snd e))), ml (cell_error (fst (snd e))), ml (cell_pval (fst (snd e))), length (snd (snd e)))) out
      = [((tA, tM), Some 666, Some 249, Some 1000, 3%nat); ((tB, tM), Some 666, None, None, 3%nat)]%Z
  | Err _ => False
  end.
Proof. vm_compute. reflexivity. Qed.
