(** Lemmas for the benchmark functions: which inputs are accepted and what the
    prediction tables hold. *)
From Coq Require Import Reals Lra Lia.
From Verif Require Import PyBase ListLemmas F64 Num Util UtilProofs BootUtil PerfCurves CurveBoot MLPaper MLProofs3 MLProofs4
  Checkpoint CheckpointProofs Classification Regression Benchmark ClassProofs ClassProofs5 LossTableProofs.
Open Scope Z_scope.

(** What the feature arrays and labels must look like. *)
Definition c_inputs {T} {NT : num T} {X} (X_train : farray X) (kd : dkind) (y_train : list Z) (X_test : farray X) (n_labels : nat)
    (min_log_prob : T) (n_test : nat) : Prop :=
  exists n_features more more',
    fa_shape X_train = Z.of_nat (length y_train) :: n_features :: more /\ fa_shape X_test = Z.of_nat n_test :: n_features :: more' /\
    length more' = length more /\ (1 <= n_test)%nat /\ y_train <> [] /\ (kd = Kb \/ kd = Ki) /\
    Forall (fun v => 0 <= v < Z.of_nat n_labels) y_train /\ fa_kind X_test = fa_kind X_train /\ nltb min_log_prob n0 = true.
Definition r_inputs {T} {NT : num T} {X} (X_train : farray X) (y_train : list T) (X_test : farray X) (min_std : T) (n_test : nat) : Prop :=
  exists n_features,
    fa_shape X_train = [Z.of_nat (length y_train); n_features] /\ fa_shape X_test = [Z.of_nat n_test; n_features] /\
    (1 <= n_test)%nat /\ fa_kind X_test = fa_kind X_train /\ nleb n0 min_std = true.

(** What an estimator predicts after being trained. *)
Definition c_predicts {T} {FT : fn T} {S X} (o : classifier T S X) (s : S) (X_train : X) (y_train : list Z) (X_test : X)
    (rows : list (list T)) (ncol : nat) : Prop :=
  exists s', cl_fit o s X_train y_train = Ok s' /\
  (cl_predict_log_proba o s' X_test = Ok (rows, ncol) \/
   exists e probs, cl_predict_log_proba o s' X_test = Err e /\ cl_predict_proba o s' X_test = Ok (probs, ncol) /\ rows = map (map nlog) probs).
Definition r_predicts {T} {NT : num T} {S X} (o : regressor T S X) (s : S) (X_train : X) (y_train : list T) (X_test : X) (mu std : list T) : Prop :=
  exists s', rg_fit o s X_train y_train = Ok s' /\
  (rg_predict_std o s' X_test = Ok (mu, std) \/
   rg_predict_std o s' X_test = Err TypeError /\ rg_predict o s' X_test = Ok mu /\ std = repeat n1 (length mu)).

Lemma dkind_eqb_spec a b : dkind_eqb a b = true <-> a = b.
Proof. destruct a, b; cbn; split; congruence. Qed.
Lemma map_const {A B} (b : B) (l : list A) : map (fun _ => b) l = repeat b (length l).
Proof. induction l; cbn; congruence. Qed.

Section Predicts.
  Context {T : Type} {NT : num T} {FT : fn T} {S X : Type}.
  Lemma c_train_predict_iff (o : classifier T S X) s a y b rows n : c_train_predict o s (a, y, b) = Ok (rows, n) <-> c_predicts o s a y b rows n.
  Proof.
    unfold c_train_predict, c_predicts. destruct (cl_fit o s a y) as [s'|e]; cbn [bind].
    2: { split; [discriminate|]. intros (s' & E & _). discriminate. }
    destruct (cl_predict_log_proba o s' b) as [r|e] eqn:E1.
    - split.
      + intros E. apply Ok_inj in E. subst r. exists s'. auto.
      + intros (s2 & E & [H|(e & p & H & _)]); apply Ok_inj in E; subst s2; congruence.
    - destruct (cl_predict_proba o s' b) as [[p k]|e'] eqn:E2; cbn [bind fst snd].
      + split.
        * intros E. apply Ok_inj in E. injection E as <- <-. exists s'. split; [reflexivity|]. right. exists e, p. auto.
        * intros (s2 & E & [H|(e2 & p2 & H & H2 & ->)]); apply Ok_inj in E; subst s2; [congruence|]. rewrite E2 in H2. apply Ok_inj in H2. now injection H2 as -> ->.
      + split; [discriminate|]. intros (s2 & E & [H|(e2 & p2 & H & H2 & ->)]); apply Ok_inj in E; subst s2; congruence.
  Qed.
  Lemma r_train_predict_iff (o : regressor T S X) s a y b mu std : r_train_predict o s (a, y, b) = Ok (mu, std) <-> r_predicts o s a y b mu std.
  Proof.
    unfold r_train_predict, r_predicts. destruct (rg_fit o s a y) as [s'|e]; cbn [bind].
    2: { split; [discriminate|]. intros (s' & E & _). discriminate. }
    destruct (rg_predict_std o s' b) as [r|e] eqn:E1.
    - split.
      + intros E. apply Ok_inj in E. subst r. exists s'. auto.
      + intros (s2 & E & [H|(H & _)]); apply Ok_inj in E; subst s2; congruence.
    - split.
      + destruct e; try discriminate. destruct (rg_predict o s' b) as [m|] eqn:E2; [|discriminate]. cbn [bind]. intros E. apply Ok_inj in E. injection E as <- <-.
        exists s'. split; [reflexivity|]. right. rewrite map_const. auto.
      + intros (s2 & E & [H|(H & H2 & ->)]); apply Ok_inj in E; subst s2; [congruence|]. rewrite E1 in H. injection H as ->. rewrite H2. cbn [bind].
        now rewrite map_const.
  Qed.

  Lemma c_checks_iff (Xtr : farray X) kd ytr (Xte : farray X) L (m : T) :
    c_checks Xtr kd ytr Xte L m = Ok tt <-> c_inputs Xtr kd ytr Xte L m (Z.to_nat (dim Xte 0)).
  Proof.
    split.
    - intros E. destruct (c_checks_inv (fun _ _ => Err ValueError) _ _ _ _ _ _ _ E) as (H1 & H2 & H3 & H4 & H5). unfold c_checks in E. unfold c_inputs, dim in *.
      destruct (Z.ltb_spec 0 (nth 0 (fa_shape Xte) 0)); [|discriminate].
      destruct (fa_shape Xtr) as [|n [|d more]] eqn:S1; try discriminate. cbn [length Nat.leb] in E.
      destruct (Z.eqb_spec (Z.of_nat (length ytr)) (nth 0 (n :: d :: more) 0)) as [En|]; [|discriminate]. cbn [nth] in En.
      destruct (dkind_eqb kd Kb || dkind_eqb kd Ki); [|discriminate]. cbn [py_assert bind] in E.
      destruct (py_min ytr) as [lo|]; [|discriminate]. destruct (py_max ytr) as [hi|]; [|discriminate]. cbn [bind] in E.
      destruct ((0 <=? lo)%Z && (hi <? Z.of_nat L)%Z); [|discriminate]. cbn [py_assert bind] in E.
      destruct (Nat.eqb_spec (length (fa_shape Xte)) (Datatypes.S (Datatypes.S (length more)))) as [En2|]; [|discriminate].
      destruct (fa_shape Xte) as [|n' [|d' more']] eqn:S2; try (cbn in En2; discriminate). cbn [nth] in *.
      destruct (Z.eqb_spec d' d) as [->|]; [|discriminate]. cbn [andb py_assert bind] in E.
      destruct (dkind_eqb (fa_kind Xtr) (fa_kind Xte)) eqn:Ek; [|discriminate]. apply dkind_eqb_spec in Ek.
      exists d, more, more'. rewrite En. rewrite Z2Nat.id by lia. cbn in En2. repeat split; auto; lia.
    - intros (d & more & more' & S1 & S2 & Lm & N & Ne & K & F & Ek & Hm). unfold c_checks. unfold dim in *. rewrite S1, S2 in *. cbn [nth length Nat.leb] in *.
      replace (0 <? Z.of_nat (Z.to_nat (nth 0 (fa_shape Xte) 0)))%Z with true by (symmetry; apply Z.ltb_lt; lia). rewrite Z.eqb_refl.
      replace (dkind_eqb kd Kb || dkind_eqb kd Ki) with true by (destruct K as [->| ->]; reflexivity). cbn [py_assert bind].
      destruct (ShiftProofs.py_min_spec ytr Ne) as (lo & M1 & I1 & M2). destruct (ShiftProofs.py_max_spec ytr Ne) as (hi & M3 & I3 & M4). rewrite M1, M3. cbn [bind].
      rewrite Forall_forall in F. pose proof (F _ I1). pose proof (F _ I3). replace ((0 <=? lo)%Z && (hi <? Z.of_nat L)%Z) with true
        by (symmetry; apply andb_true_iff; split; [apply Z.leb_le|apply Z.ltb_lt]; lia).
      rewrite Lm, Nat.eqb_refl, Z.eqb_refl, Ek. cbn [py_assert bind andb]. replace (dkind_eqb (fa_kind Xtr) (fa_kind Xtr)) with true by (symmetry; now apply dkind_eqb_spec).
      rewrite Hm. reflexivity.
  Qed.
  Lemma r_checks_iff (Xtr : farray X) ytr (Xte : farray X) (m : T) :
    r_checks Xtr ytr Xte m = true <-> r_inputs Xtr ytr Xte m (Z.to_nat (dim Xte 0)).
  Proof.
    unfold r_checks, r_inputs, dim. rewrite !andb_true_iff, Z.ltb_lt, !Nat.eqb_eq, !Z.eqb_eq, dkind_eqb_spec. split.
    - intros ((((((H1 & H2) & H3) & H4) & H5) & H6) & H7).
      destruct (fa_shape Xtr) as [|n [|d [|]]]; try discriminate. destruct (fa_shape Xte) as [|n' [|d' [|]]]; try discriminate. cbn [nth] in *. subst d'.
      exists d. rewrite H3, Z2Nat.id by lia. repeat split; auto; lia.
    - intros (d & S1 & S2 & N & K & Hm). rewrite S1. rewrite S2 in N |- *. cbn [nth length] in *. rewrite S2 in *. cbn [nth] in *. repeat split; auto; lia.
  Qed.
  Lemma c_inputs_len (Xtr : farray X) kd ytr (Xte : farray X) L (m : T) n : c_inputs Xtr kd ytr Xte L m n -> n = Z.to_nat (dim Xte 0).
  Proof. intros (d & more & more' & _ & S2 & _). unfold dim. rewrite S2. cbn [nth]. now rewrite Nat2Z.id. Qed.
  Lemma r_inputs_len (Xtr : farray X) ytr (Xte : farray X) (m : T) n : r_inputs Xtr ytr Xte m n -> n = Z.to_nat (dim Xte 0).
  Proof. intros (d & _ & S2 & _). unfold dim. rewrite S2. cbn [nth]. now rewrite Nat2Z.id. Qed.

  Context (normalize : nat -> list (list T) -> res (list (list T))).
  Lemma get_pred_iff key_eqb (o : classifier T S X) Xtr kd ytr Xte L methods (m : T) :
    (exists tbl, get_pred_log_prob normalize key_eqb o false [] Xtr kd ytr Xte L methods m = Ok tbl) <->
    exists n, c_inputs Xtr kd ytr Xte L m n /\
    forall name s, In (name, s) methods -> exists rows P, c_predicts o s (fa_data Xtr) ytr (fa_data Xte) rows L /\ length rows = n /\
      normalize L (map (map (nmax m)) rows) = Ok P.
  Proof.
    split.
    - intros (tbl & E). pose proof E as E'. apply get_pred_inv in E' as (Hl & _ & _ & F). unfold get_pred_log_prob in E.
      destruct (c_checks Xtr kd ytr Xte L m) as [[]|] eqn:C; [|discriminate]. apply c_checks_iff in C. exists (Z.to_nat (dim Xte 0)). split; [exact C|].
      intros name s I. destruct (Forall2_in_l _ _ _ _ F I) as (r & _ & _ & _ & rows & H1 & H2 & H3). exists rows, (snd (snd r)). cbn [snd] in H1.
      split; [now apply c_train_predict_iff|]. split; [congruence|exact H3].
    - intros (n & C & H). pose proof (c_inputs_len _ _ _ _ _ _ _ C) as ->. unfold get_pred_log_prob. apply c_checks_iff in C. rewrite C. cbn [bind].
      destruct (run_completes key_eqb (c_train_predict o) (c_finish normalize (Z.to_nat (dim Xte 0)) L m) methods [] (fa_data Xtr, ytr, fa_data Xte)) as (t & R).
      + apply Forall_forall. intros [name s] I. destruct (H name s I) as (rows & P & H1 & H2 & H3). apply c_train_predict_iff in H1. exists (rows, L), P. cbn [snd].
        split; [exact H1|]. unfold c_finish. cbn [fst snd]. rewrite H2, !Nat.eqb_refl. cbn [andb py_assert bind]. exact H3.
      + unfold run_outcome in R. rewrite R. eexists; reflexivity.
  Qed.
  Lemma get_gauss_iff key_eqb (o : regressor T S X) Xtr ytr Xte methods (m : T) :
    (exists tbl, get_gauss_pred key_eqb o false [] Xtr ytr Xte methods m = Ok tbl) <->
    exists n, r_inputs Xtr ytr Xte m n /\
    forall name s, In (name, s) methods -> exists mu std, r_predicts o s (fa_data Xtr) ytr (fa_data Xte) mu std /\ length mu = n /\ length std = n.
  Proof.
    split.
    - intros (tbl & E). pose proof E as E'. apply get_gauss_inv in E' as (Hl & _ & _ & F). unfold get_gauss_pred in E.
      destruct (r_checks Xtr ytr Xte m) eqn:C; [|discriminate]. apply r_checks_iff in C. exists (Z.to_nat (dim Xte 0)). split; [exact C|].
      intros name s I. destruct (Forall2_in_l _ _ _ _ F I) as (r & _ & _ & mu & std & H1 & H2 & H3 & _). exists mu, std. cbn [snd] in H1.
      split; [now apply r_train_predict_iff|]. split; congruence.
    - intros (n & C & H). pose proof (r_inputs_len _ _ _ _ _ C) as ->. unfold get_gauss_pred. apply r_checks_iff in C. rewrite C. cbn [bind py_assert].
      destruct (run_completes key_eqb (r_train_predict o) (r_finish (Z.to_nat (dim Xte 0)) m) methods [] (fa_data Xtr, ytr, fa_data Xte)) as (t & R).
      + apply Forall_forall. intros [name s] I. destruct (H name s I) as (mu & std & H1 & H2 & H3). apply r_train_predict_iff in H1. exists (mu, std), (mu, map (nmax m) std). cbn [snd].
        split; [exact H1|]. unfold r_finish. cbn [fst snd]. rewrite H2, H3, !Nat.eqb_refl. reflexivity.
      + unfold run_outcome in R. rewrite R. eexists; reflexivity.
  Qed.
  (** rejected inputs: no estimator is consulted *)
  Lemma get_pred_reject (Xtr : farray X) kd ytr (Xte : farray X) L (m : T) : (forall n, ~ c_inputs Xtr kd ytr Xte L m n) ->
    exists e, forall key_eqb (o : classifier T S X) memory st methods, get_pred_log_prob normalize key_eqb o memory st Xtr kd ytr Xte L methods m = Err e.
  Proof.
    intros H. destruct (c_checks Xtr kd ytr Xte L m) as [[]|e] eqn:C; [apply c_checks_iff in C; now apply H in C|]. exists e. intros. unfold get_pred_log_prob. now rewrite C.
  Qed.
  Lemma get_gauss_reject (Xtr : farray X) ytr (Xte : farray X) (m : T) : (forall n, ~ r_inputs Xtr ytr Xte m n) ->
    forall key_eqb (o : regressor T S X) memory st methods, get_gauss_pred key_eqb o memory st Xtr ytr Xte methods m = Err AssertionError.
  Proof.
    intros H key_eqb o memory st methods. unfold get_gauss_pred. destruct (r_checks Xtr ytr Xte m) eqn:C; [apply r_checks_iff in C; now apply H in C|reflexivity].
  Qed.
End Predicts.
