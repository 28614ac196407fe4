(** Lemmas on get_pred_log_prob and loss_table of classification.py and on
    get_gauss_pred of regression.py. *)
From Coq Require Import Reals Lra Lia.
From Verif Require ShiftProofs.
From Verif Require Import PyBase ListLemmas F64 Num NumOk Util UtilProofs BootUtil PerfCurves CurveBoot MLPaper
  Checkpoint CheckpointProofs Classification Regression Benchmark.

Section Predict.
  Context {T : Type} {NT : num T} {FT : fn T} (normalize : nat -> list (list T) -> res (list (list T))) {S X : Type}.
  Context (key_eqb : S * (X * list Z * X) -> S * (X * list Z * X) -> bool).

  Lemma c_checks_inv (Xtr : farray X) kd ytr (Xte : farray X) L (m : T) u : c_checks Xtr kd ytr Xte L m = Ok u ->
    (0 < dim Xte 0)%Z /\ nltb m n0 = true /\ ytr <> [] /\ (kd = Kb \/ kd = Ki) /\ Forall (fun v => (0 <= v < Z.of_nat L)%Z) ytr.
  Proof.
    unfold c_checks.
    destruct (Z.ltb_spec 0 (dim Xte 0)); [|discriminate]. destruct (2 <=? length (fa_shape Xtr))%nat; [|discriminate].
    destruct (Z.of_nat (length ytr) =? dim Xtr 0)%Z; [|discriminate].
    destruct (dkind_eqb kd Kb || dkind_eqb kd Ki) eqn:EK; [|discriminate]. cbn [py_assert bind].
    destruct (py_min ytr) as [lo|] eqn:E1; [|discriminate]. destruct (py_max ytr) as [hi|] eqn:E2; [|discriminate]. cbn [bind].
    destruct ((0 <=? lo)%Z && (hi <? Z.of_nat L)%Z) eqn:E3; [|discriminate].
    destruct ((length (fa_shape Xte) =? length (fa_shape Xtr))%nat && (dim Xte 1 =? dim Xtr 1)%Z); [|discriminate].
    destruct (dkind_eqb (fa_kind Xtr) (fa_kind Xte)); [|discriminate]. cbn [py_assert bind].
    destruct (nltb m n0); [|discriminate]. intros _. apply andb_true_iff in E3 as (E3 & E4). apply Z.leb_le in E3. apply Z.ltb_lt in E4.
    split; [assumption|]. split; [reflexivity|]. split; [intros ->; discriminate|]. split; [destruct kd; auto; discriminate|].
    assert (ytr <> []) as NE by (intros ->; discriminate).
    destruct (ShiftProofs.py_min_spec ytr NE) as (lo' & M1 & _ & M2). destruct (ShiftProofs.py_max_spec ytr NE) as (hi' & M3 & _ & M4).
    rewrite E1 in M1. rewrite E2 in M3. apply Ok_inj in M1, M3. subst lo' hi'.
    apply Forall_forall. intros v Hv. specialize (M2 v Hv). specialize (M4 v Hv). lia.
  Qed.

  Lemma get_pred_inv o Xtr kd ytr Xte L methods (m : T) tbl :
    get_pred_log_prob normalize key_eqb o false [] Xtr kd ytr Xte L methods m = Ok tbl ->
    pt_len tbl = Z.to_nat (dim Xte 0) /\ pt_labels tbl = range_Z L /\ nltb m n0 = true /\
    Forall2 (fun ms r => fst r = fst ms /\ fst (snd r) = range_Z L /\
      exists rows, c_train_predict o (snd ms) (fa_data Xtr, ytr, fa_data Xte) = Ok (rows, L) /\ length rows = pt_len tbl /\
        normalize L (map (map (nmax m)) rows) = Ok (snd (snd r))) methods (pt_methods tbl).
  Proof.
    unfold get_pred_log_prob. destruct (c_checks Xtr kd ytr Xte L m) as [u|] eqn:C; [|discriminate]. cbn [bind].
    apply c_checks_inv in C as (_ & NM & _).
    match goal with |- context [run ?k ?t ?f ?mm ?s ?d ?ms ?c] => destruct (snd (run k t f mm s d ms c)) as [|e|t'] eqn:R end; try discriminate.
    intros E. apply Ok_inj in E. subst tbl. cbn [pt_len pt_labels pt_methods]. split; [reflexivity|]. split; [reflexivity|]. split; [exact NM|].
    pose proof (run_done key_eqb (c_train_predict o) _ methods [] _ t' R) as F. clear R.
    induction F as [|ms r methods t' (H1 & v & H2 & H3) F IH]; cbn [map]; constructor; [|exact IH].
    cbn [fst snd]. split; [exact H1|]. split; [reflexivity|]. destruct v as (rows, nc). unfold c_finish in H3. cbn [fst snd] in H3.
    destruct (Nat.eqb_spec (length rows) (Z.to_nat (dim Xte 0))); [|discriminate]. destruct (Nat.eqb_spec nc L); [|discriminate]. subst nc.
    exists rows. auto.
  Qed.

  (** the memory changes nothing *)
  Lemma get_pred_memory (KEY : forall a b, key_eqb a b = true <-> a = b) o st Xtr kd ytr Xte L methods (m : T) :
    reachable (W := list (list T)) key_eqb (c_train_predict o) st ->
    get_pred_log_prob normalize key_eqb o true st Xtr kd ytr Xte L methods m = get_pred_log_prob normalize key_eqb o false [] Xtr kd ytr Xte L methods m.
  Proof.
    intros R. unfold get_pred_log_prob. destruct (c_checks Xtr kd ytr Xte L m); [|reflexivity]. cbn [bind].
    pose proof (run_same key_eqb KEY (c_train_predict o) (c_finish normalize (Z.to_nat (dim Xte 0)) L m) methods st (fa_data Xtr, ytr, fa_data Xte) []
      (reachable_sound key_eqb KEY _ st R)) as E.
    unfold run_outcome in E. now rewrite E.
  Qed.
End Predict.

(** ** Lists *)
Lemma Forall2_in_l {A B} (R : A -> B -> Prop) l m a : Forall2 R l m -> In a l -> exists b, In b m /\ R a b.
Proof.
  induction 1 as [|x y l m H F IH]; intros Ha; [contradiction|]. destruct Ha as [->|Ha]; [exists y; split; [now left|exact H]|].
  destruct (IH Ha) as (b & Hb & E). exists b. split; [now right|exact E].
Qed.
Lemma Forall2_in_r {A B} (R : A -> B -> Prop) l m b : Forall2 R l m -> In b m -> exists a, In a l /\ R a b.
Proof.
  induction 1 as [|x y l m H F IH]; intros Hb; [contradiction|]. destruct Hb as [->|Hb]; [exists x; split; [now left|exact H]|].
  destruct (IH Hb) as (a & Ha & E). exists a. split; [now right|exact E].
Qed.

Lemma NoDup_fst_inj {K V} (l : list (K * V)) k v v' : NoDup (map fst l) -> In (k, v) l -> In (k, v') l -> v = v'.
Proof.
  induction l as [|(a, b) l IH]; intros ND H1 H2; [contradiction|]. cbn [map fst] in ND. inversion ND as [|? ? N ND']; subst.
  destruct H1 as [H1|H1], H2 as [H2|H2].
  - congruence.
  - injection H1 as -> ->. exfalso. apply N. apply (in_map fst) in H2. exact H2.
  - injection H2 as -> ->. exfalso. apply N. apply (in_map fst) in H1. exact H1.
  - now apply IH.
Qed.

(** ** loss_table *)
Lemma listZ_eqb_spec a b : listZ_eqb a b = true <-> a = b.
Proof.
  revert b. induction a as [|x a IH]; intros [|y b]; cbn; split; try discriminate; auto.
  - intros H. apply andb_true_iff in H as (H1 & H2). apply Z.eqb_eq in H1. apply IH in H2. congruence.
  - intros H. injection H as -> ->. rewrite Z.eqb_refl. now apply IH.
Qed.

Section Loss.
  Context {T : Type} {NT : num T} (normalize : nat -> list (list T) -> res (list (list T))).

  (** the predictions a metric gets to see *)
  Definition prepared (tbl : pred_table T) (normalized : bool) (rows out : list (list T)) : Prop :=
    if normalized then out = rows else normalize (length (pt_labels tbl)) rows = Ok out.
  (** a sub-frame that passes the checks *)
  Definition good_frame (tbl : pred_table T) (f : list Z * list (list T)) : Prop :=
    fst f = range_Z (length (pt_labels tbl)) /\ length (snd f) = pt_len tbl /\
    Forall (fun r => length r = length (pt_labels tbl)) (snd f) /\ Forall (Forall (fun a => nisnan a = false)) (snd f).

  Lemma no_nan_rows (rows : list (list T)) : negb (existsb (existsb nisnan) rows) = true <-> Forall (Forall (fun a => nisnan a = false)) rows.
  Proof.
    rewrite negb_true_iff, <- not_true_iff_false, existsb_exists. split.
    - intros H. apply Forall_forall. intros r Hr. apply Forall_forall. intros a Ha. apply not_true_iff_false. intros N. apply H.
      exists r. split; [exact Hr|]. apply existsb_exists. eauto.
    - intros F (r & Hr & H). apply existsb_exists in H as (a & Ha & N). rewrite Forall_forall in F. specialize (F r Hr).
      rewrite Forall_forall in F. specialize (F a Ha). congruence.
  Qed.
  Lemma len_rows n (rows : list (list T)) : forallb (fun r => (length r =? n)%nat) rows = true <-> Forall (fun r => length r = n) rows.
  Proof.
    rewrite forallb_forall, Forall_forall. split; intros H r Hr; specialize (H r Hr); [now apply Nat.eqb_eq|now apply Nat.eqb_eq].
  Qed.

  Lemma method_losses_iff tbl kd y md an name f c :
    method_losses normalize tbl kd y md an (name, f) = Ok c <->
    good_frame tbl f /\ exists P, prepared tbl an (snd f) P /\
      Forall2 (fun (mf : pystr * metric_fun T) e => exists l, snd mf kd y P (length (pt_labels tbl)) = Ok l /\ length l = pt_len tbl /\ e = ((fst mf, name), l)) md c.
  Proof.
    destruct f as (cols, rows). unfold method_losses, good_frame, prepared. cbn [fst snd].
    set (n := length (pt_labels tbl)).
    assert (forall P, mapM (fun mf : pystr * metric_fun T => do loss <- snd mf kd y P n; do v <- column_values (pt_len tbl) loss; Ok (fst mf, name, v)) md = Ok c <->
      Forall2 (fun (mf : pystr * metric_fun T) e => exists l, snd mf kd y P n = Ok l /\ length l = pt_len tbl /\ e = (fst mf, name, l)) md c) as K.
    { intros P. rewrite mapM_Forall2. split; intros F.
      - induction F as [|mf e md c H F IH]; constructor; [|exact IH]. clear IH F. destruct (snd mf kd y P n) as [l|] eqn:El; [|discriminate].
        cbn [bind] in H. unfold column_values in H. destruct (Nat.eqb_spec (length l) (pt_len tbl)); [|discriminate]. apply Ok_inj in H. exists l. split; [first [exact El|reflexivity]|]. split; [assumption|]. symmetry; exact H.
      - induction F as [|mf e md c (l & H1 & H2 & ->) F IH]; constructor; [|exact IH]. rewrite H1. cbn [bind]. unfold column_values.
        now rewrite H2, Nat.eqb_refl. }
    split.
    - destruct (listZ_eqb cols (range_Z n)) eqn:E1; [|discriminate]. apply listZ_eqb_spec in E1.
      destruct ((length rows =? pt_len tbl)%nat && forallb (fun r => (length r =? n)%nat) rows) eqn:E2; [|discriminate].
      apply andb_true_iff in E2 as (E2 & E3). apply Nat.eqb_eq in E2. apply len_rows in E3.
      destruct (negb (existsb (existsb nisnan) rows)) eqn:E4; [|discriminate]. apply no_nan_rows in E4. cbn [py_assert bind].
      intros H. split; [auto|]. destruct an.
      + exists rows. split; [reflexivity|]. now apply K.
      + destruct (normalize n rows) as [P|] eqn:EP; [|discriminate]. exists P. split; [reflexivity|]. now apply K.
    - intros ((E1 & E2 & E3 & E4) & P & HP & F). apply K in F. apply listZ_eqb_spec in E1. apply len_rows in E3. apply no_nan_rows in E4.
      rewrite E1, E2, Nat.eqb_refl, E3, E4. cbn [py_assert bind andb]. destruct an; [subst P; exact F|]. rewrite HP. exact F.
  Qed.

  Lemma loss_table_inv tbl kd y md an lt : loss_table normalize tbl kd y md an = Ok lt ->
    length y = pt_len tbl /\ (1 <= pt_len tbl)%nat /\ (1 <= length (pt_labels tbl))%nat /\ (1 <= length (pt_methods tbl))%nat /\
    lt_metrics lt = map fst md /\ lt_methods lt = map fst (pt_methods tbl) /\ lt_len lt = pt_len tbl /\
    exists cols, lt_cols lt = concat cols /\ Forall2 (fun m c => method_losses normalize tbl kd y md an m = Ok c) (pt_methods tbl) cols.
  Proof.
    unfold loss_table. destruct (Nat.eqb_spec (length y) (pt_len tbl)); [|discriminate].
    destruct (((1 <=? pt_len tbl) && (1 <=? length (pt_labels tbl)) && (1 <=? length (pt_methods tbl)))%nat) eqn:E; [|discriminate].
    apply andb_true_iff in E as (E & E3). apply andb_true_iff in E as (E1 & E2). apply Nat.leb_le in E1, E2, E3. cbn [py_assert bind].
    destruct (mapM _ _) as [cols|] eqn:M; [|discriminate]. cbn [bind]. intros H. apply Ok_inj in H. subst lt. cbn.
    repeat (split; [auto|]). exists cols. split; [reflexivity|]. now apply mapM_Forall2.
  Qed.

  (** one entry per metric and method, with the metric applied to that
      method's predictions *)
  Lemma loss_table_entry tbl kd y md an lt : loss_table normalize tbl kd y md an = Ok lt ->
    forall e, In e (lt_cols lt) <-> exists (mf : pystr * metric_fun T) name f P l, In mf md /\ In (name, f) (pt_methods tbl) /\ prepared tbl an (snd f) P /\
      snd mf kd y P (length (pt_labels tbl)) = Ok l /\ e = ((fst mf, name), l).
  Proof.
    intros H e. apply loss_table_inv in H as (_ & _ & _ & _ & _ & _ & _ & cols & -> & F). rewrite in_concat. split.
    - intros (c & Hc & He). apply (Forall2_in_r _ _ _ _ F) in Hc as ((name, f) & Hm & E). apply method_losses_iff in E as (G & P & HP & F2).
      apply (Forall2_in_r _ _ _ _ F2) in He as (mf & Hmf & l & El & _ & ->). exists mf, name, f, P, l. auto.
    - intros (mf & name & f & P & l & Hmf & Hm & HP & El & ->). destruct (Forall2_in_l _ _ _ _ F Hm) as (c & Hc & E).
      apply method_losses_iff in E as (G & P' & HP' & F2). exists c. split; [exact Hc|].
      destruct (Forall2_in_l _ _ _ _ F2 Hmf) as (e & He & l' & El' & _ & Ee). subst e.
      assert (P' = P) as EP. { unfold prepared in HP, HP'. destruct an; congruence. }
      subst P'. rewrite El in El'. apply Ok_inj in El'. now subst l'.
  Qed.
End Loss.

(** ** get_gauss_pred *)
Section Gauss.
  Context {T : Type} {NT : num T} {S X : Type} (key_eqb : S * (X * list T * X) -> S * (X * list T * X) -> bool).

  Lemma get_gauss_inv o Xtr ytr Xte methods (min_std : T) tbl :
    get_gauss_pred key_eqb o false [] Xtr ytr Xte methods min_std = Ok tbl ->
    gt_len tbl = Z.to_nat (dim Xte 0) /\ (1 <= gt_len tbl)%nat /\ nleb n0 min_std = true /\
    Forall2 (fun ms r => fst r = fst ms /\
      exists mu std, r_train_predict o (snd ms) (fa_data Xtr, ytr, fa_data Xte) = Ok (mu, std) /\ length mu = gt_len tbl /\ length std = gt_len tbl /\
        snd r = (mu, map (nmax min_std) std)) methods (gt_methods tbl).
  Proof.
    unfold get_gauss_pred. destruct (r_checks Xtr ytr Xte min_std) eqn:C; [|discriminate]. cbn [py_assert bind].
    unfold r_checks in C. rewrite !andb_true_iff in C. destruct C as ((((((C1 & _) & _) & _) & _) & _) & C2). apply Z.ltb_lt in C1.
    match goal with |- context [run ?k ?t ?f ?mm ?s ?d ?ms ?c] => destruct (snd (run k t f mm s d ms c)) as [|e|t'] eqn:R end; try discriminate.
    intros E. apply Ok_inj in E. subst tbl. cbn [gt_len gt_methods]. split; [reflexivity|]. split; [lia|]. split; [exact C2|].
    pose proof (run_done key_eqb (r_train_predict o) _ methods [] _ t' R) as F. clear R.
    induction F as [|ms r methods t' (H1 & (mu, std) & H2 & H3) F IH]; constructor; [|exact IH].
    split; [exact H1|]. unfold r_finish in H3. cbn [fst snd] in H3.
    destruct (Nat.eqb_spec (length mu) (Z.to_nat (dim Xte 0))); [|discriminate]. destruct (Nat.eqb_spec (length std) (Z.to_nat (dim Xte 0))); [|discriminate].
    cbn [andb py_assert bind] in H3. apply Ok_inj in H3. exists mu, std. auto.
  Qed.

  Lemma get_gauss_memory (KEY : forall a b, key_eqb a b = true <-> a = b) o st Xtr ytr Xte methods (min_std : T) :
    reachable (W := list T * list T) key_eqb (r_train_predict o) st ->
    get_gauss_pred key_eqb o true st Xtr ytr Xte methods min_std = get_gauss_pred key_eqb o false [] Xtr ytr Xte methods min_std.
  Proof.
    intros R. unfold get_gauss_pred. destruct (r_checks Xtr ytr Xte min_std); [|reflexivity]. cbn [py_assert bind].
    pose proof (run_same key_eqb KEY (r_train_predict o) (r_finish (Z.to_nat (dim Xte 0)) min_std) methods st (fa_data Xtr, ytr, fa_data Xte) []
      (reachable_sound key_eqb KEY _ st R)) as E.
    unfold run_outcome in E. now rewrite E.
  Qed.
End Gauss.
