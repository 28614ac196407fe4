(** curve_boot in doubles. *)
From Coq Require Import Reals ZArith Lra Lia List Sorted Bool Permutation.
From Flocq Require Import Core BinarySingleNaN.
From Verif Require Import PyBase F64 F64Lemmas Num NumOk Util UtilProofs ListLemmas UtilProofs2 UtilProofs3 BootUtil BootProofs2 BootProofs4 BootProofs5
  PerfCurves PerfProofs PerfProofs2 PerfProofs7 PerfProofs8 PerfProofs9 PerfProofs10 SumProofs CompareProofs SwapProofs MeanProofs DoublesProofs
  CurveBoot CurveProofs CurveProofs2 CurveProofs3 CurveProofs4 CurveProofs5 CurveProofs6 Props_Boot.
Open Scope R_scope.
Open Scope list_scope.

(** ** The inputs *)
Definition pred_rows (m : list (list f64)) : Prop :=
  Forall (fun r => length r = 2%nat /\ notnan r /\ fisfin (nth 1 r f0) = true) m.
(** so few samples that the small weight of the samples not drawn does not
    matter, or a negative sample is drawn each time *)
Definition negatives_drawn (y : list Z) (counts : list (list Z)) : Prop :=
  Forall (fun ks => exists i, nth_error y i = Some 0%Z /\ exists k, nth_error ks i = Some k /\ (1 <= k)%Z) counts.

Record boot_input (kd : dkind) (y : list Z) (preds : list (list f64)) (counts : list (list Z)) (n_boot : Z) : Prop := {
  bi_kind : kd = Kb \/ kd = Ki;
  bi_len : length preds = length y;
  bi_ne : y <> [];
  bi_lab : Forall (fun v => v = 0%Z \/ v = 1%Z) y;
  bi_rows : pred_rows preds;
  bi_boot : (1 <= n_boot <= 2 ^ 53)%Z;
  bi_counts : multinomial_outcome (Z.of_nat (length y)) n_boot counts;
  bi_size : (Z.of_nat (length y) <= 100000)%Z;
  bi_neg : (Z.of_nat (length y) <= 5000)%Z \/ Forall (fun v => v = 1%Z) y \/ negatives_drawn y counts }.

Definition good_ref (ref : curve_ref f64) (n : nat) : Prop :=
  match ref with RefScalar r => fisnan r = false | RefPred m => length m = n /\ pred_rows m end.
Definition the_grid (g : option (list f64)) : list f64 := match g with None => default_grid | Some g => g end.
Definition good_grid (g : option (list f64)) : Prop := match g with None => True | Some g => g <> [] /\ grid64 g end.

Lemma the_grid_ok g : good_grid g -> grid64 (the_grid g) /\ the_grid g <> [].
Proof.
  destruct g as [g|]; [intros [A B]; now split|intros _]. split; [|discriminate].
  assert (forallb (fun x : f64 => fleb f0 x && fleb x (f_of_Z 1)) default_grid = true) as H by (vm_compute; reflexivity).
  intros x Hx. rewrite forallb_forall in H. specialize (H x Hx). now apply andb_true_iff in H.
Qed.

Lemma input_draws kd y preds counts n_boot : boot_input kd y preds counts n_boot -> Forall (draws (label_bits y)) counts.
Proof.
  intros [_ _ _ Lab _ _ [_ Cnt] _ Neg]. apply Forall_forall. intros ks Hk. rewrite Forall_forall in Cnt. destruct (Cnt ks Hk) as (L & P & S).
  assert (length (label_bits y) = length y) as Ll by apply map_length.
  constructor; rewrite ?Ll; [lia|exact P|exact S|].
  destruct Neg as [N|[A|D]]; [now left| |].
  - right. left. unfold label_bits. rewrite forallb_forall. intros b Hb. apply in_map_iff in Hb as (v & <- & Hv). rewrite Forall_forall in A. now rewrite (A v Hv).
  - right. right. unfold negatives_drawn in D. rewrite Forall_forall in D. destruct (D ks Hk) as (i & Hi & k & Ek & K). apply existsb_exists. exists (false, k). split.
    + apply (nth_error_In _ i). rewrite nth_combine. unfold label_bits. rewrite nth_error_map, Hi, Ek. reflexivity.
    + cbn [fst snd negb andb]. now apply Z.leb_le.
Qed.

Lemma rows_notnan m : pred_rows m -> existsb (existsb nisnan) m = false.
Proof. induction 1 as [|r m (_ & N & _) _ IH]; [reflexivity|]. cbn [existsb]. rewrite IH, orb_false_r. now apply no_nan_exists. Qed.

Lemma rows_fin m : pred_rows m -> Forall (fun x => fisfin x = true) (col1 m).
Proof. intros H. unfold col1. apply Forall_map. eapply Forall_impl; [|exact H]. intros r (_ & _ & F). exact F. Qed.

Section Total.
  Context (QA QG : f64 -> Prop) (f : curve_fun f64).
  Hypothesis (Hf : curve_kind QA QG f) (NA : forall v, QA v -> fisnan v = false) (NG : forall v, QG v -> fisnan v = false).

  Lemma QA_notnan l : Forall QA l -> notnan l.
  Proof. intros H. eapply Forall_impl; [|exact H]. exact NA. Qed.
  Lemma QG_notnan l : Forall QG l -> notnan l.
  Proof. intros H. eapply Forall_impl; [|exact H]. exact NG. Qed.

  Definition of_ref (ref : curve_ref f64) (b : f64) : Prop := match ref with RefScalar r => b = r | RefPred _ => QA b end.

  Theorem curve_boot_total64 kd y preds counts n_boot ref g pairwise c :
    boot_input kd y preds counts n_boot -> good_ref ref (length y) -> good_grid g -> confidence c ->
    (pairwise = true -> forall a b, QA a -> of_ref ref b -> fisnan (fsub a b) = false) ->
    exists auc EB p rows est, curve_boot counts kd y preds 2 ref f g n_boot pairwise c = Ok ((auc, EB, p), rows) /\
      QA auc /\ fleb f0 p = true /\ fleb p (f_of_Z 1) = true /\
      fltb EB f0 = false /\ (if pairwise then exists b, of_ref ref b /\ est = fsub auc b else est = auc) /\ (fisfin est = true -> fleb f0 EB = true) /\
      map (fun r => fst (fst (fst r))) rows = the_grid g /\
      Forall (fun r => QG (snd (fst (fst r))) /\ QG (snd (fst r)) /\ QG (snd r) /\ fleb (snd (fst r)) (snd r) = true) rows.
  Proof.
    intros BI Vr Vg Hc Pw. destruct (the_grid_ok g Vg) as [Ug Ng]. pose proof (input_draws _ _ _ _ _ BI) as D. destruct BI as [Kd Len Ne Lab Rows [Nb Nb2] [Cl Cnt] Size _].
    assert (1 <= length y)%nat as Ly by (destruct y; cbn; [congruence|lia]).
    set (yb := label_bits y) in *. assert (length yb = length y) as Lyb by apply map_length.
    assert (forall m : list (list f64), length m = length y -> length (col1 m) = length yb /\ col1 m <> []) as Lc.
    { intros m Lm. assert (length (col1 m) = length yb) as Q by (unfold col1; rewrite map_length; lia). split; [exact Q|]. intros E. rewrite E in Q. cbn in Q. lia. }
    assert (counts <> []) as Nc by (intros ->; cbn in Cl; lia).
    assert (Z.of_nat (length yb) <= 100000)%Z as Sy by lia.
    unfold curve_boot, shape_and_validate. rewrite Len.
    assert ((1 <=? Z.of_nat (length y))%Z = true) as -> by (apply Z.leb_le; lia). cbn [py_assert bind].
    change (1 <=? Z.of_nat 2)%Z with true. cbn [py_assert bind]. rewrite Z.eqb_refl.
    assert (dkind_eqb kd Kb || dkind_eqb kd Ki = true) as -> by (destruct Kd as [->| ->]; reflexivity). cbn [andb py_assert bind].
    assert (forallb (fun v => (0 <=? v)%Z) y = true /\ forallb (fun v => (v <? Z.of_nat 2)%Z) y = true) as [-> ->].
    { rewrite Forall_forall in Lab. split; apply forallb_forall; intros v Hv; destruct (Lab v Hv) as [->| ->]; reflexivity. }
    cbn [andb py_assert bind]. change (Z.of_nat 2 =? 2)%Z with true. cbn [py_assert bind].
    assert (match ref with
            | RefScalar _ => true
            | RefPred m => (length m =? length y)%nat && forallb (fun r => (length r =? 2)%nat) m
            end = true) as ->.
    { destruct ref as [r|m]; auto. destruct Vr as [V1 V2]. rewrite V1, Nat.eqb_refl. cbn [andb].
      apply forallb_forall. intros r Hr. unfold pred_rows in V2. rewrite Forall_forall in V2. destruct (V2 r Hr) as (-> & _). reflexivity. }
    cbn [py_assert bind].
    assert (match ref with RefScalar r => nisnan r | RefPred m => existsb (existsb nisnan) m end = false) as ->.
    { destruct ref as [r|m]; [exact Vr|apply rows_notnan, Vr]. }
    cbn [negb py_assert bind]. rewrite (proj2 (Z.leb_le _ _) Nb). cbn [py_assert bind]. rewrite (rows_notnan _ Rows). cbn [negb py_assert bind].
    change (match g with None => default_grid | Some g0 => g0 end) with (the_grid g). fold (label_bits y). fold yb.
    destruct (Lc preds Len) as [Ls Ns]. destruct (Hf yb (col1 preds) (rows_fin _ Rows) Ls Ns Sy) as [W0 WB]. specialize (WB counts Nc D).
    (* the curve itself *)
    destruct W0 as (rows0 & k0 & th0 & ar0 & E0 & _ & A0 & Q0 & LA0 & I0). rewrite E0. cbn [bind]. destruct (I0 _ Ng Ug) as (C0 & out0 & O0 & Lo0 & Fo0).
    rewrite C0. cbn [bind]. rewrite A0. cbn [bind fst snd].
    destruct ar0 as [|auc [|]]; cbn in LA0; [lia| |lia]. cbn [unpack1 bind]. inversion Q0 as [|? ? Qa _]; subst.
    rewrite O0. cbn [bind]. destruct out0 as [|yg [|]]; cbn in Lo0; [lia| |lia]. cbn [unpack1 bind].
    inversion Fo0 as [|? ? [Lyg Qyg] _]; subst.
    (* the replicates *)
    assert (boot_weights counts (Z.of_nat (length y)) (Z.of_nat (length counts)) (ndiv n1 (nofZ (10 ^ 10))) = Ok (map (map W) counts)) as ->.
    { unfold boot_weights. rewrite (proj2 (Z.leb_le _ _) Nb). assert ((1 <=? Z.of_nat (length y))%Z = true) as -> by (apply Z.leb_le; lia). reflexivity. }
    cbn [bind]. destruct WB as (rowsb & kb & thb & arb & Eb & _ & Ab & Qb & LAb & Ib). rewrite Eb. cbn [bind]. destruct (Ib _ Ng Ug) as (Cb & outb & Ob & Lob & Fob).
    rewrite Cb. cbn [bind]. rewrite Ab. cbn [bind fst snd].
    assert ((Z.of_nat (length arb) =? Z.of_nat (length counts))%Z = true) as -> by (apply Z.eqb_eq; lia). cbn [py_assert bind].
    rewrite Ob. cbn [bind].
    assert (sized arb) as Narb by (split; [intros ->; cbn in *; lia|lia]).
    (* the grid *)
    assert (exists bounds, mapM (fun b => percentile b c) (columns (length (the_grid g)) outb) = Ok bounds /\
      length bounds = length (the_grid g) /\ Forall (fun b => QG (fst b) /\ QG (snd b) /\ fleb (fst b) (snd b) = true) bounds) as (bounds & Em & Lbo & Fbo).
    { assert (forall b, In b (columns (length (the_grid g)) outb) -> Forall QG b /\ sized b) as Hb.
      { intros b Hb. apply in_map_iff in Hb as (j & <- & Hj). apply in_seq in Hj. split.
        - apply Forall_forall. intros v Hv. apply in_map_iff in Hv as (o & <- & Ho). rewrite Forall_forall in Fob. destruct (Fob o Ho) as [Lo Fo].
          rewrite Forall_forall in Fo. apply Fo, nth_In. lia.
        - split; [|rewrite map_length; lia]. intros E. apply map_eq_nil in E. subst outb. cbn in Lob. lia. }
      destruct (mapM_total (fun b => percentile b c) (columns (length (the_grid g)) outb)) as (bo & Eo & Fo).
      - intros b Hb'. destruct (Hb b Hb') as [Fb Nb']. destruct (C37_percentile b c (QG_notnan _ Fb) Nb' Hc) as (lb & ub & P & _). eauto.
      - exists bo. split; auto. split.
        + apply Forall2_len in Fo. unfold columns in Fo. rewrite !map_length, seq_length in Fo. lia.
        + assert (Forall2 (fun b p => percentile b c = Ok p /\ Forall QG b /\ sized b) (columns (length (the_grid g)) outb) bo) as Fo'.
          { eapply Forall2_and_in; [exact Fo|]. cbv beta. intros b p Hb' E. split; auto. }
          clear -Fo' Hc NG. induction Fo' as [|b p l m (E & Fb & Nb) F IH]; constructor; auto.
          destruct (C37_percentile b c (QG_notnan _ Fb) Nb Hc) as (lb & ub & P & I1 & I2 & L). rewrite P in E. apply Ok_inj in E. subst p. cbn [fst snd].
          rewrite Forall_forall in Fb. auto. }
    (* the reference *)
    assert (exists rv rb, (match ref with
              | RefScalar v => Ok (v, Scalar v)
              | RefPred m =>
                  do rr <- f yb (col1 m) (Some (map (map W) counts));
                  do cr <- check_curve rr None;
                  do ref_boot <- curve_area cr;
                  assert! (Z.of_nat (length ref_boot) =? Z.of_nat (length counts))%Z;
                  do r0 <- f yb (col1 m) None;
                  do c0 <- check_curve r0 None;
                  do refs <- curve_area c0;
                  do v <- unpack1 refs;
                  Ok (v, Paired ref_boot)
              end) = Ok (rv, rb) /\ of_ref ref rv /\ valid_ref arb rb /\
        (pairwise = true -> notnan (map2 nsub arb (ref_values arb rb)) /\ length (map2 nsub arb (ref_values arb rb)) = length arb)) as (rv & rb & Er & Nrv & Rok & Pok).
    { destruct ref as [r|m].
      - exists r, (Scalar r). split; [reflexivity|]. split; [reflexivity|]. split; [exact Vr|]. intros P. cbn [ref_values]. split.
        + clear -Qb Pw P. induction Qb as [|a l Ha F IH]; [constructor|]. cbn [length repeat map2]. constructor; [now apply Pw|exact IH].
        + rewrite map2_length, repeat_length. lia.
      - destruct Vr as [V1 V2]. destruct (Lc m V1) as [Lsm Nsm]. destruct (Hf yb (col1 m) (rows_fin _ V2) Lsm Nsm Sy) as [W1 W2]. specialize (W2 counts Nc D).
        destruct W2 as (r1 & k1 & t1 & a1 & E1 & K1 & A1 & Q1 & LA1 & _). rewrite E1. cbn [bind].
        rewrite K1. cbn [bind]. rewrite A1. cbn [bind].
        assert ((Z.of_nat (length a1) =? Z.of_nat (length counts))%Z = true) as -> by (apply Z.eqb_eq; lia). cbn [py_assert bind].
        destruct W1 as (r2 & k2 & t2 & a2 & E2 & K2 & A2 & Q2 & LA2 & _). rewrite E2. cbn [bind]. rewrite K2. cbn [bind]. rewrite A2. cbn [bind].
        destruct a2 as [|v [|]]; cbn in LA2; [lia| |lia]. cbn [unpack1 bind]. exists v, (Paired a1). split; [reflexivity|].
        inversion Q2; subst. split; [assumption|]. assert (length a1 = length arb) as La by lia.
        split; [split; [now apply QA_notnan|exact La]|]. intros P. cbn [ref_values]. split; [|rewrite map2_length; lia].
        clear -Qb Q1 Pw P. revert a1 Q1. induction Qb as [|a l Ha F IH]; intros a1 Q1; [constructor|]. destruct Q1 as [|b a1 Hb Q1]; [constructor|].
        cbn [map2]. constructor; [now apply Pw|now apply IH]. }
    rewrite Er. cbn [bind].
    assert (exists EB est, (if pairwise then error_bar (map2 nsub arb (ref_values arb rb)) (nsub auc rv) c else error_bar arb auc c) = Ok EB /\
      fltb EB f0 = false /\ (if pairwise then exists b, of_ref ref b /\ est = fsub auc b else est = auc) /\ (fisfin est = true -> fleb f0 EB = true)) as (EB & est & -> & EB1 & EB2 & EB3).
    { destruct pairwise.
      - destruct (Pok eq_refl) as [O L]. destruct (C39_error_bar_total (map2 nsub arb (ref_values arb rb)) (nsub auc rv) c O) as (EB & E & P1 & P2); [|exact Hc|].
        { destruct Narb as [N1 N2]. split; [|lia]. intros Z. rewrite Z in L. cbn in L. destruct arb; [congruence|discriminate]. }
        exists EB, (fsub auc rv). split; [exact E|]. split; [exact P1|]. split; [exists rv; now split|exact P2].
      - destruct (C39_error_bar_total arb auc c (QA_notnan _ Qb) Narb Hc) as (EB & E & P1 & P2). exists EB, auc. auto. }
    cbn [bind].
    destruct (C40_p_value arb rb (QA_notnan _ Qb) Narb Rok) as (p & Ep & Bp1 & Bp2). rewrite Ep. cbn [bind]. rewrite Em. cbn [bind].
    exists auc, EB, p. eexists. exists est. split; [reflexivity|]. split; [exact Qa|]. split; [exact Bp1|]. split; [exact Bp2|]. split; [exact EB1|]. split; [exact EB2|]. split; [exact EB3|].
    clear -Lyg Lbo Fbo Qyg. revert yg bounds Lyg Lbo Fbo Qyg.
    induction (the_grid g) as [|x l IH]; intros [|v yg] [|b bo] L1 L2 Fb Fy; try discriminate; [split; [reflexivity|constructor]|].
    inversion Fb as [|? ? (B1 & B2 & B3) Fb']; inversion Fy; subst. destruct (IH yg bo) as [I1 I2]; auto.
    cbn [map combine map2 fst snd]. split; [now f_equal|]. constructor; cbn [fst snd]; auto.
  Qed.
End Total.
