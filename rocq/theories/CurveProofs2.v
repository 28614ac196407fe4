(** curve_boot in exact arithmetic. *)
From Coq Require Import Reals Lra Lia List Sorted Bool Permutation.
From Flocq Require Import Core.
From Verif Require Import PyBase F64 Num NumOk Util UtilProofs ListLemmas UtilProofs2 UtilProofs3 BootUtil BootProofs
  BootProofs4 BootProofs5 PerfCurves Spec_Curves PerfProofs3 PerfProofs4 CurveBoot CurveProofs.
Open Scope R_scope.
Open Scope list_scope.

Lemma percentile_xr b c : okl b -> b <> [] -> 0 < c < 1 ->
  exists lb ub, percentile b (Fin c) = Ok (lb, ub) /\ In lb b /\ In ub b /\ nleb lb ub = true.
Proof.
  intros O N C. pose proof (in01_xr_intro c C) as I. assert (1 <= Z.of_nat (length b))%Z as L by (destruct b; cbn; [congruence|lia]).
  destruct (percentile_total b (Fin c) O I (idx_ok_xr _ _ I L)) as (i & j & lb & ub & P & Lij & _ & _ & _ & Ei & Ej).
  exists lb, ub. split; auto. split; [eapply sort_nth_in; eauto|]. split; [eapply sort_nth_in; eauto|].
  eapply (sort_nth_mono (NT := xr_num)); eauto.
Qed.

Lemma error_bar_xr b e c : okl b -> b <> [] -> 0 < c < 1 -> exists EB, error_bar b e (Fin c) = Ok EB /\
  (forall r, e = Fin r -> Forall (fun v => exists q, v = Fin q) b -> exists q, EB = Fin q /\ 0 <= q).
Proof.
  intros O N C. destruct (percentile_xr b c O N C) as (lb & ub & P & I1 & I2 & L). unfold error_bar. rewrite P. cbn [bind fst snd].
  assert (nisnan lb = false /\ nisnan ub = false) as [N1 N2] by now apply leb_notnan_.
  assert (nltb (nfmax (nsub ub e) (nsub e lb)) n0 = false /\ (nisfin e = true -> nisnan (nfmax (nsub ub e) (nsub e lb)) = false)) as [A B].
  { unfold nfmax. destruct lb as [lb| | |], ub as [ub| | |], e as [e| | |]; try discriminate; cbn; try (split; auto; fail).
    - destruct (Rleb (e + - lb) (ub + - e)) eqn:Q; cbn; split; auto; [apply Rleb_spec in Q|apply Rleb_false in Q];
        cbn in L; apply Rleb_spec in L; apply Rltb_false; lra. }
  rewrite A. cbn [negb py_assert bind].
  assert (implb (nisfin e) (negb (nisnan (nfmax (nsub ub e) (nsub e lb)))) = true) as ->.
  { destruct (nisfin e); auto. now rewrite B. }
  cbn [py_assert bind]. eexists. split; [reflexivity|].
  intros r -> F. rewrite Forall_forall in F. destruct (F _ I1) as [a ->]. destruct (F _ I2) as [d ->].
  revert A. unfold nfmax. cbn. destruct (Rleb (r + - a) (d + - r)) eqn:Q; cbn; intros A; eexists; (split; [reflexivity|]); apply Rltb_false in A; lra.
Qed.

Lemma Rleb_total x y : Rleb x y = true \/ Rleb y x = true.
Proof. destruct (Rle_dec x y); [left|right]; apply Rleb_spec; lra. Qed.

Lemma significance_xr b r : okl b -> b <> [] -> ref_ok b r -> exists p, significance b r = Ok (Fin p) /\ 0 <= p <= 1.
Proof.
  intros O N R. rewrite significance_counts by auto. unfold pvalue. rewrite !rate_xr by (destruct b; cbn; [congruence|lia]).
  cbn [nofZ xr_num]. rewrite nmin_xr. change (nmul (Fin (IZR 2)) (Fin ?a)) with (Fin (2 * a)).
  match goal with |- context [Rmin ?a ?b] => set (u := a); set (v := b) end.
  change (nmul (Fin 2) (Fin (Rmin u v))) with (Fin (2 * Rmin u v)). change n1 with (Fin 1). rewrite nmin_xr.
  eexists. split; [reflexivity|].
  assert (forall k, 0 <= INR k / INR (length b)) as P.
  { intros k. apply Rle_mult_inv_pos; [apply pos_INR|]. apply lt_0_INR. destruct b; cbn; [congruence|lia]. }
  assert (0 <= Rmin u v) by (apply Rmin_glb; apply P). split; [apply Rmin_glb; lra|apply Rmin_l].
Qed.

(** ** The inputs curve_boot is documented to accept *)
Record curve_boot_input (kd : dkind) (y : list Z) (preds : list (list R)) (counts : list (list Z)) (n_boot : Z) : Prop := {
  cb_kind : kd = Kb \/ kd = Ki;
  cb_len : length preds = length y;
  cb_ne : y <> [];
  cb_lab : Forall (fun v => v = 0%Z \/ v = 1%Z) y;
  cb_cols : Forall (fun r => length r = 2%nat) preds;
  cb_boot : (1 <= n_boot)%Z;
  cb_counts : multinomial_outcome (Z.of_nat (length y)) n_boot counts }.

Definition fin_matrix (m : list (list R)) : list (list xr) := map (map Fin) m.
Definition label_bits (y : list Z) : list bool := map (fun v => negb (v =? 0)%Z) y.
Definition scores (m : list (list R)) : list R := map (fun r => nth 1 r 0) m.

Lemma col1_fin m : Forall (fun r => length r = 2%nat) m -> col1 (fin_matrix m) = map Fin (scores m).
Proof.
  unfold col1, fin_matrix, scores. rewrite !map_map. intros H. apply map_ext_in. intros r Hr.
  rewrite Forall_forall in H. specialize (H r Hr). destruct r as [|a [|b [|]]]; try discriminate. reflexivity.
Qed.

Lemma no_nan_fin m : existsb (existsb nisnan) (fin_matrix m) = false.
Proof. unfold fin_matrix. induction m as [|r m IH]; cbn [map existsb]; auto. now rewrite existsb_nan_fin, IH. Qed.

(** the reference argument and the values its replicates may take *)
Inductive ref_arg := ScalarRef (r : R) | MatrixRef (m : list (list R)).
Definition to_ref (r : ref_arg) : curve_ref xr :=
  match r with ScalarRef v => RefScalar (Fin v) | MatrixRef m => RefPred (fin_matrix m) end.
Definition valid_ref_arg (r : ref_arg) (n : nat) : Prop :=
  match r with ScalarRef _ => True | MatrixRef m => length m = n /\ Forall (fun r => length r = 2%nat) m end.

Definition boot_w (counts : list (list Z)) : list (list R) := map (map (fun k => Rmax eps (IZR k))) counts.

Lemma boot_weights_fin counts N n_boot : (1 <= N)%Z -> (1 <= n_boot)%Z ->
  boot_weights counts N n_boot (ndiv n1 (nofZ (10 ^ 10))) = Ok (map (map Fin) (boot_w counts)).
Proof.
  intros A B. unfold boot_weights. rewrite (proj2 (Z.leb_le _ _) A), (proj2 (Z.leb_le _ _) B). cbn [py_assert bind]. f_equal.
  unfold boot_w. rewrite map_map. apply map_ext. intros r. rewrite map_map. apply map_ext. intros k.
  change (ndiv n1 (nofZ (10 ^ 10))) with (EPSILON : xr). rewrite EPSILON_fin. cbn [nofZ xr_num]. unfold nmax. cbn [nleb nisnan xr_num xleb xisnan].
  rewrite orb_false_r. destruct (Rleb (IZR k) eps) eqn:Q; f_equal; [apply Rleb_spec in Q|apply Rleb_false in Q]; unfold Rmax; destruct (Rle_dec eps (IZR k)); lra.
Qed.

Lemma boot_w_valid s y n_boot counts : length s = length y -> s <> [] -> (1 <= n_boot)%Z ->
  multinomial_outcome (Z.of_nat (length y)) n_boot counts -> valid_input s y (Some (boot_w counts)).
Proof.
  intros L N B (L1 & F). split; auto. split; auto. unfold boot_w. split.
  - intros Q. apply map_eq_nil in Q. subst counts. cbn in L1. lia.
  - apply Forall_map. eapply Forall_impl; [|exact F]. cbv beta. intros r (L2 & _). split; [rewrite map_length; lia|].
    apply Forall_map, Forall_forall. intros k _. apply Rlt_le_trans with eps; [apply eps_pos|apply Rmax_l].
Qed.

Lemma pairwise_ok (Q : xr -> Prop) (A B : list xr) : (forall a b, Q a -> Q b -> nisnan (nsub a b) = false) ->
  Forall Q A -> Forall Q B -> okl (map2 nsub A B).
Proof.
  intros H FA. revert B. induction FA as [|a A Ha FA IH]; intros B FB; [constructor|].
  destruct FB as [|b B Hb FB]; [constructor|]. constructor; [now apply H|now apply IH].
Qed.

Definition grid_of (g : option (list R)) : list R :=
  match g with Some g => g | None => map (fun i => if (i =? 99)%nat then 1 else IZR (Z.of_nat i) * (1 / IZR 99)) (seq 0 DEFAULT_NGRID) end.
Definition valid_grid (g : option (list R)) : Prop :=
  match g with None => True | Some g => g <> [] /\ StronglySorted Rle g /\ unit_grid g end.

Lemma default_grid_fin : (default_grid : list xr) = map Fin (grid_of None).
Proof.
  unfold default_grid, grid_of. rewrite map_map. apply map_ext. intros i. destruct (i =? 99)%nat; [reflexivity|].
  change (ndiv n1 (nofZ 99)) with (xdiv (Fin 1) (Fin (IZR 99))). rewrite xdiv_fin by lra. reflexivity.
Qed.

Lemma grid_ok g : valid_grid g -> unit_grid (grid_of g) /\ grid_of g <> [].
Proof.
  destruct g as [g|]; [intros (A & _ & B); split; auto|intros _]. split; [|discriminate].
  intros x Hx. apply in_map_iff in Hx as (i & <- & Hi). apply in_seq in Hi. unfold DEFAULT_NGRID in Hi.
  destruct (i =? 99)%nat; [lra|]. assert (0 <= IZR (Z.of_nat i) <= 99) by (split; apply IZR_le; lia). lra.
Qed.

(** ** curve_boot succeeds *)
Section Total.
  Context (Q : xr -> Prop) (f : curve_fun xr).
  Hypothesis (Hf : sound_curve Q f) (NQ : forall v, Q v -> nisnan v = false).

  Lemma Q_okl l : Forall Q l -> okl l.
  Proof. intros H. eapply Forall_impl; [|exact H]. exact NQ. Qed.

  Lemma sig_ok b r : Forall Q b -> b <> [] -> nisnan r = false -> exists p, significance b (Scalar r) = Ok (Fin p) /\ 0 <= p <= 1.
  Proof.
    intros F N Nr. apply significance_xr; auto using Q_okl. split; cbn [ref_values]; [|now rewrite repeat_length].
    apply Forall_forall. intros x Hx. apply repeat_spec in Hx. now subst.
  Qed.

  Theorem curve_boot_total kd y preds counts n_boot ref g pairwise c :
    curve_boot_input kd y preds counts n_boot -> valid_ref_arg ref (length y) -> valid_grid g -> 0 < c < 1 ->
    (pairwise = true -> forall a b, Q a -> match ref with ScalarRef r => b = Fin r | MatrixRef _ => Q b end -> nisnan (nsub a b) = false) ->
    exists auc EB p rows, curve_boot counts kd y (fin_matrix preds) 2 (to_ref ref) f (option_map (map Fin) g) n_boot pairwise (Fin c) =
      Ok ((auc, EB, Fin p), rows) /\ Q auc /\ 0 <= p <= 1 /\
      map (fun r => fst (fst (fst r))) rows = map Fin (grid_of g) /\
      Forall (fun r => Q (snd (fst (fst r))) /\ Q (snd (fst r)) /\ Q (snd r) /\ nleb (snd (fst r)) (snd r) = true) rows.
  Proof.
    intros [Kd Len Ne Lab Cols Nb Cnt] Vr Vg Hc Pw. destruct (grid_ok g Vg) as [Ug Ng].
    assert (option_map (map Fin) g = None \/ option_map (map Fin) g = Some (map Fin (grid_of g))) as Eg by (destruct g; [right|left]; reflexivity).
    assert (1 <= length y)%nat as Ly by (destruct y; cbn; [congruence|lia]).
    set (yb := label_bits y). assert (length yb = length y) as Lyb by apply map_length.
    set (s := scores preds). assert (length s = length yb) as Ls by (unfold s, scores; rewrite map_length; lia).
    assert (s <> []) as Ns by (intros E; rewrite E in Ls; cbn in Ls; lia).
    unfold curve_boot, shape_and_validate.
    assert (length (fin_matrix preds) = length y) as Lp by (unfold fin_matrix; now rewrite map_length). rewrite Lp.
    assert ((1 <=? Z.of_nat (length y))%Z = true) as -> by (apply Z.leb_le; lia). cbn [py_assert bind].
    change (1 <=? Z.of_nat 2)%Z with true. cbn [py_assert bind]. rewrite Z.eqb_refl.
    assert (dkind_eqb kd Kb || dkind_eqb kd Ki = true) as -> by (destruct Kd as [->| ->]; reflexivity). cbn [andb py_assert bind].
    assert (forallb (fun v => (0 <=? v)%Z) y = true /\ forallb (fun v => (v <? Z.of_nat 2)%Z) y = true) as [-> ->].
    { rewrite Forall_forall in Lab. split; apply forallb_forall; intros v Hv; destruct (Lab v Hv) as [->| ->]; reflexivity. }
    cbn [andb py_assert bind]. change (Z.of_nat 2 =? 2)%Z with true. cbn [py_assert bind].
    assert (match to_ref ref with
            | RefScalar _ => true
            | RefPred m => (length m =? length y)%nat && forallb (fun r => (length r =? 2)%nat) m
            end = true) as ->.
    { destruct ref as [r|m]; cbn [to_ref]; auto. destruct Vr as [V1 V2]. unfold fin_matrix. rewrite map_length, V1, Nat.eqb_refl. cbn [andb].
      apply forallb_forall. intros r Hr. apply in_map_iff in Hr as (r0 & <- & Hr0). rewrite map_length. rewrite Forall_forall in V2.
      now apply Nat.eqb_eq, V2. }
    cbn [py_assert bind].
    assert (match to_ref ref with RefScalar r => nisnan r | RefPred m => existsb (existsb nisnan) m end = false) as ->.
    { destruct ref as [r|m]; cbn [to_ref]; [reflexivity|apply no_nan_fin]. }
    cbn [negb py_assert bind]. rewrite (proj2 (Z.leb_le _ _) Nb). cbn [py_assert bind]. rewrite no_nan_fin. cbn [negb py_assert bind].
    replace (match option_map (map Fin) g with None => default_grid | Some g0 => g0 end) with (map Fin (grid_of g))
      by (destruct g; [reflexivity|symmetry; apply default_grid_fin]).
    assert (map Fin (grid_of g) <> []) as Ng' by (intros E; apply map_eq_nil in E; contradiction).
    fold (label_bits y). fold yb. rewrite (col1_fin preds Cols). fold s.
    (* the curve itself *)
    destruct (Hf s yb None) as (rows0 & k0 & th0 & ar0 & E0 & K0 & L0 & N0 & A0 & LA0 & Q0 & I0); [now repeat split|].
    cbn [option_map] in E0. rewrite E0. cbn [bind]. destruct (I0 _ Ug) as (Nc0 & out0 & O0 & Lo0 & Fo0).
    rewrite (check_nice rows0 k0 th0 _ Nc0 Ng'). cbn [bind]. rewrite A0. cbn [bind fst snd].
    cbn [weight_rows length] in L0. destruct ar0 as [|auc [|]]; cbn in LA0; [lia| |lia]. cbn [unpack1 bind]. inversion Q0 as [|? ? Qa _]; subst.
    rewrite O0. cbn [bind]. destruct out0 as [|yg [|]]; cbn in Lo0; [lia| |lia]. cbn [unpack1 bind].
    inversion Fo0 as [|? ? [Lyg Qyg] _]; subst.
    (* the replicates *)
    rewrite boot_weights_fin by lia. cbn [bind]. fold (boot_w counts).
    assert (forall s', length s' = length yb -> valid_input s' yb (Some (boot_w counts))) as Vw.
    { intros s' L'. apply (boot_w_valid s' yb n_boot); auto; [|now rewrite Lyb]. intros ->. cbn in L'. lia. }
    assert (length (boot_w counts) = Z.to_nat n_boot) as Lw by (unfold boot_w; rewrite map_length; destruct Cnt as [C1 _]; lia).
    destruct (Hf s yb (Some (boot_w counts)) (Vw s Ls)) as (rowsb & kb & thb & arb & Eb & Kb' & Lb & Nbr & Ab & LAb & Qb & Ib).
    cbn [option_map] in Eb. rewrite Eb. cbn [bind]. destruct (Ib _ Ug) as (Ncb & outb & Ob & Lob & Fob).
    rewrite (check_nice rowsb kb thb _ Ncb Ng'). cbn [bind]. rewrite Ab. cbn [bind fst snd weight_rows] in *.
    assert ((Z.of_nat (length arb) =? n_boot)%Z = true) as -> by (apply Z.eqb_eq; lia). cbn [py_assert bind].
    rewrite Ob. cbn [bind].
    assert (arb <> []) as Narb by (intros ->; cbn in *; lia).
    (* the grid *)
    assert (exists bounds, mapM (fun b => percentile b (Fin c)) (columns (length (map Fin (grid_of g))) outb) = Ok bounds /\
      length bounds = length (grid_of g) /\ Forall (fun b => Q (fst b) /\ Q (snd b) /\ nleb (fst b) (snd b) = true) bounds) as (bounds & Em & Lbo & Fbo).
    { assert (forall b, In b (columns (length (map Fin (grid_of g))) outb) -> Forall Q b /\ b <> []) as Hb.
      { intros b Hb. apply in_map_iff in Hb as (j & <- & Hj). apply in_seq in Hj. rewrite map_length in Hj. split.
        - apply Forall_forall. intros v Hv. apply in_map_iff in Hv as (o & <- & Ho). rewrite Forall_forall in Fob. destruct (Fob o Ho) as [Lo Fo].
          rewrite Forall_forall in Fo. apply Fo, nth_In. lia.
        - intros E. apply map_eq_nil in E. subst outb. cbn in Lob. lia. }
      destruct (mapM_total (fun b => percentile b (Fin c)) (columns (length (map Fin (grid_of g))) outb)) as (bo & Eo & Fo).
      - intros b Hb'. destruct (Hb b Hb') as [Fb Nb']. destruct (percentile_xr b c (Q_okl _ Fb) Nb' Hc) as (lb & ub & P & _). eauto.
      - exists bo. split; auto. split.
        + apply Forall2_len in Fo. unfold columns in Fo. rewrite !map_length, seq_length in Fo. lia.
        + assert (Forall2 (fun b p => percentile b (Fin c) = Ok p /\ Forall Q b /\ b <> []) (columns (length (map Fin (grid_of g))) outb) bo) as Fo'.
          { eapply Forall2_and_in; [exact Fo|]. cbv beta. intros b p Hb' E. split; auto. }
          clear -Fo' Hc NQ. induction Fo' as [|b p l m (E & Fb & Nb) F IH]; constructor; auto.
          destruct (percentile_xr b c (Q_okl _ Fb) Nb Hc) as (lb & ub & P & I1 & I2 & L). rewrite P in E. apply Ok_inj in E. subst p. cbn [fst snd].
          rewrite Forall_forall in Fb. auto. }
    (* the reference *)
    assert (exists rv rb, (match to_ref ref with
              | RefScalar v => Ok (v, Scalar v)
              | RefPred m =>
                  do rr <- f yb (col1 m) (Some (map (map Fin) (boot_w counts)));
                  do cr <- check_curve rr None;
                  do ref_boot <- curve_area cr;
                  assert! (Z.of_nat (length ref_boot) =? n_boot)%Z;
                  do r0 <- f yb (col1 m) None;
                  do c0 <- check_curve r0 None;
                  do refs <- curve_area c0;
                  do v <- unpack1 refs;
                  Ok (v, Paired ref_boot)
              end) = Ok (rv, rb) /\ nisnan rv = false /\ ref_ok arb rb /\
        (pairwise = true -> okl (map2 nsub arb (ref_values arb rb)) /\ length (map2 nsub arb (ref_values arb rb)) = length arb)) as (rv & rb & Er & Nrv & Rok & Pok).
    { destruct ref as [r|m]; cbn [to_ref].
      - exists (Fin r), (Scalar (Fin r)). split; [reflexivity|]. split; [reflexivity|].
        assert (ref_ok arb (Scalar (Fin r))) as RO.
        { split; cbn [ref_values]; [|now rewrite repeat_length]. apply Forall_forall. intros x Hx. apply repeat_spec in Hx. now subst. }
        split; auto. intros P. cbn [ref_values]. split.
        + clear -Qb Pw P. induction Qb as [|a l Ha F IH]; [constructor|]. cbn [length repeat map2]. constructor; [now apply Pw|exact IH].
        + rewrite map2_length, repeat_length. lia.
      - destruct Vr as [V1 V2]. rewrite (col1_fin m V2).
        assert (length (scores m) = length yb) as Lsm by (unfold scores; rewrite map_length; lia).
        destruct (Hf (scores m) yb (Some (boot_w counts)) (Vw _ Lsm)) as (r1 & k1 & t1 & a1 & E1 & K1 & L1 & N1 & A1 & LA1 & Q1 & I1).
        cbn [option_map weight_rows] in *. rewrite E1. cbn [bind]. destruct (I1 _ Ug) as (Nc1 & _).
        rewrite (check_nice_none r1 k1 t1 (Forall_impl _ (nice_nil _) Nc1)). cbn [bind]. rewrite A1. cbn [bind].
        assert ((Z.of_nat (length a1) =? n_boot)%Z = true) as -> by (apply Z.eqb_eq; lia). cbn [py_assert bind].
        destruct (Hf (scores m) yb None) as (r2 & k2 & t2 & a2 & E2 & K2 & L2 & N2 & A2 & LA2 & Q2 & I2).
        { repeat split; auto. intros E. rewrite E in Lsm. cbn in Lsm. lia. }
        cbn [option_map weight_rows length] in *. rewrite E2. cbn [bind]. destruct (I2 _ Ug) as (Nc2 & _).
        rewrite (check_nice_none r2 k2 t2 (Forall_impl _ (nice_nil _) Nc2)). cbn [bind]. rewrite A2. cbn [bind].
        destruct a2 as [|v [|]]; cbn in LA2; [lia| |lia]. cbn [unpack1 bind]. exists v, (Paired a1). split; [reflexivity|].
        inversion Q2; subst. split; [now apply NQ|]. assert (length a1 = length arb) as La by lia.
        split; [split; [now apply Q_okl|exact La]|]. intros P. cbn [ref_values]. split; [|rewrite map2_length; lia].
        apply (pairwise_ok Q); auto. }
    rewrite Er. cbn [bind].
    assert (exists EB, (if pairwise then error_bar (map2 nsub arb (ref_values arb rb)) (nsub auc rv) (Fin c) else error_bar arb auc (Fin c)) = Ok EB) as [EB ->].
    { destruct pairwise.
      - destruct (Pok eq_refl) as [O L]. destruct (error_bar_xr (map2 nsub arb (ref_values arb rb)) (nsub auc rv) c O) as (EB & E & _); eauto.
        intros Z. rewrite Z in L. cbn in L. destruct arb; [congruence|discriminate].
      - destruct (error_bar_xr arb auc c (Q_okl _ Qb) Narb Hc) as (EB & E & _). eauto. }
    cbn [bind].
    destruct (significance_xr arb rb (Q_okl _ Qb) Narb Rok) as (p & Ep & Bp). rewrite Ep. cbn [bind]. rewrite Em. cbn [bind].
    exists auc, EB, p. eexists. split; [reflexivity|]. split; [exact Qa|]. split; [exact Bp|].
    assert (length yg = length (grid_of g)) as Lyg' by exact Lyg. clear -Lyg' Lbo Fbo Qyg. revert yg bounds Lyg' Lbo Fbo Qyg.
    induction (grid_of g) as [|x l IH]; intros [|v yg] [|b bo] L1 L2 Fb Fy; try discriminate; [split; [reflexivity|constructor]|].
    inversion Fb as [|? ? (B1 & B2 & B3) Fb']; inversion Fy; subst. destruct (IH yg bo) as [I1 I2]; auto.
    cbn [map combine map2 fst snd]. split; [now f_equal|]. constructor; cbn [fst snd]; auto.
  Qed.
End Total.
