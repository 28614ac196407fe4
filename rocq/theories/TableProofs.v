(** decimalize and format_table as a whole. *)
From Coq Require Import Reals Lra ZifyBool ZifyNat ZifyN Permutation Sorted.
From Flocq Require Import Core BinarySingleNaN.
From Verif Require Import PyBase F64 Dec Sciprint Spec_Sciprint DecProofs DecRound FormatProofs EstimateProofs DecimalizeProofs ShiftProofs.
Open Scope Z_scope.

Arguments Z.pow : simpl never.

(** ** decimalize, cell by cell *)

Lemma Forall2_len {A B} (P : A -> B -> Prop) l l' : Forall2 P l l' -> length l = length l'.
Proof. induction 1; cbn; congruence. Qed.

Lemma decimalize_cells ed pd dd lim t d : decimalize ed pd dd lim t = Ok d ->
  1 <= pd /\ length d = length t /\
  forall i j metric method mf ef pf, cell_at t i j metric method (mf, ef, pf) ->
  exists mu EB p, cell_at d i j metric method (mu, EB, p)
    /\ eb_stage ed (limit_dec (dict_get lim metric)) ef = Ok EB
    /\ mu_stage dd EB mf = Ok mu /\ pv_stage pd pf = Ok p.
Proof.
  unfold decimalize. destruct (Z.leb_spec 1 pd) as [Hpd|]; [|discriminate]. cbn [py_assert bind].
  intros H. apply mapM_Forall2 in H. split; [exact Hpd|].
  split; [symmetry; eapply Forall2_len; exact H|].
  intros i j metric method mf ef pf (rows & Hi & Hj).
  destruct (Forall2_nth_error _ _ _ _ _ H Hi) as ([metric' rows'] & Hi' & Hr).
  cbn beta iota in Hr. rewrite limit_expo_dec in Hr.
  destruct (mapM _ rows) as [rs|] eqn:E; [|discriminate]. cbn [bind] in Hr. inversion Hr; subst.
  apply mapM_Forall2 in E.
  destruct (Forall2_nth_error _ _ _ _ _ E Hj) as ([m' [[mu EB] p]] & Hj' & Hc).
  cbn beta iota in Hc. rewrite decimalize_cell_stages in Hc.
  destruct (eb_stage ed _ ef) as [EB0|] eqn:E1; [|discriminate]. cbn [bind] in Hc.
  destruct (mu_stage dd EB0 mf) as [mu0|] eqn:E2; [|discriminate]. cbn [bind] in Hc.
  destruct (pv_stage pd pf) as [p0|] eqn:E3; [|discriminate]. cbn [bind] in Hc. inversion Hc; subst.
  exists mu, EB, p. split; [|auto]. exists rows'. auto.
Qed.

Lemma f64_cases (x : f64) : fisfin x = true \/ x = fnan \/ x = finf \/ x = fninf.
Proof. destruct x as [s|[|]| |s m e H]; auto. Qed.

(** Every error entry that gets through. *)
Lemma eb_stage_cases ed k ef EB : 1 <= ed -> eb_stage ed (limit_dec k) ef = Ok EB ->
  (fisfin ef = true /\ (0 <= B2R64 ef)%R /\
     exists c e, err_rounded ed (B2R64 ef) c e /\
       EB = match k with
            | None => DFin false c e
            | Some k => if Rle_bool (dR false c e) (p10 k) then DFin false c e else DInf false
            end) \/
  (ef = finf /\ EB = DInf false) \/ (ef = fnan /\ EB = DNaN).
Proof.
  intros Hed H. destruct (f64_cases ef) as [Hf|[->|[->| ->]]].
  - left. split; [exact Hf|]. destruct (Rle_lt_dec 0 (B2R64 ef)) as [H0|H0].
    + split; [exact H0|]. destruct (eb_stage_finite ed k ef Hf H0 Hed) as (c & e & Hr & He).
      exists c, e. split; [exact Hr|]. congruence.
    + rewrite eb_stage_negative in H by assumption. discriminate.
  - right. right. destruct (eb_stage_special ed k Hed) as (H1 & _ & _). split; [reflexivity|congruence].
  - right. left. destruct (eb_stage_special ed k Hed) as (_ & H1 & _). split; [reflexivity|congruence].
  - destruct (eb_stage_special ed k Hed) as (_ & _ & H1). congruence.
Qed.

(** Summary of a decimalized cell with a finite mean. *)
Definition est_cell (mf ef : f64) (mu EB : dec) : Prop :=
  exists s c e, mu = DFin s c e /\ Z.of_N c < 10 ^ 28 /\ rounds_half_up (B2R64 mf) (dR s c e) (p10 e) /\
    err_ok EB e /\
    (forall sb cb eb, EB = DFin sb cb eb ->
       sb = false /\ fisfin ef = true /\ rounds_up (B2R64 ef) (dR sb cb eb) (p10 eb) /\
       (cb = 0%N -> B2R64 ef = 0%R) /\ (cb <> 0%N -> eb = e)) /\
    EB <> DInf true.

Lemma stages_est_cell ed dd k mf ef mu EB : 1 <= ed -> 1 <= dd <= 28 -> fisfin mf = true ->
  eb_stage ed (limit_dec k) ef = Ok EB -> mu_stage dd EB mf = Ok mu -> est_cell mf ef mu EB.
Proof.
  intros Hed Hdd Hf HE HM.
  assert (Hpow : 10 ^ dd <= 10 ^ 28) by (apply Z.pow_le_mono_r; lia).
  assert (Hdef : d_is_finite EB = false \/ d_is_zero EB = true ->
    exists s c e, mu = DFin s c e /\ Z.of_N c < 10 ^ 28 /\ rounds_half_up (B2R64 mf) (dR s c e) (p10 e)).
  { intros Hn. destruct (mu_stage_default dd EB mf Hn Hf) as (s & c & e & Hm & Hc & Hr & _); [lia|].
    exists s, c, e. split; [congruence|]. split; [lia|exact Hr]. }
  assert (Hfin : forall c e, err_rounded ed (B2R64 ef) c e -> fisfin ef = true -> EB = DFin false c e -> est_cell mf ef mu EB).
  { intros c e (Hc & Hr & Hx & Hz) Hef ->. destruct (N.eq_dec c 0) as [->|Hc0].
    - destruct Hdef as (s & cm & em & Hm & Hcm & Hrm); [right; reflexivity|].
      exists s, cm, em. split; [exact Hm|]. split; [exact Hcm|]. split; [exact Hrm|].
      split; [left; reflexivity|]. split; [|discriminate]. intros sb cb eb E. inversion E; subst.
      split; [reflexivity|]. split; [exact Hef|]. split; [exact Hr|]. split; [exact Hz|]. congruence.
    - destruct (Rlt_dec (Rabs (B2R64 mf)) ((p10 28 - / 2) * p10 e)) as [Hlt|Hge].
      + destruct (mu_stage_quantized dd false c e mf Hc0 Hf Hlt) as (s & q & Hm & Hrm & Hq).
        exists s, q, e. split; [congruence|]. split; [exact Hq|]. split; [exact Hrm|].
        split; [right; auto|]. split; [|discriminate]. intros sb cb eb E. inversion E; subst.
        split; [reflexivity|]. split; [exact Hef|]. split; [exact Hr|]. split; [exact Hz|]. reflexivity.
      + rewrite (mu_stage_overflow dd false c e mf Hc0 Hf Hge) in HM. discriminate. }
  assert (Hnf : EB = DInf false \/ EB = DNaN -> est_cell mf ef mu EB).
  { intros HEB. destruct Hdef as (s & c & e & Hm & Hc & Hr); [left; destruct HEB; subst; reflexivity|].
    exists s, c, e. split; [exact Hm|]. split; [exact Hc|]. split; [exact Hr|].
    split; [destruct HEB; subst; exact I|]. split; [intros ? ? ? E; destruct HEB; subst; discriminate|].
    destruct HEB; subst; discriminate. }
  destruct (eb_stage_cases _ _ _ _ Hed HE) as [(Hef & _ & c & e & Hr & HEB)|[[_ HEB]|[_ HEB]]]; [|auto|auto].
  destruct k as [k|]; [|eauto]. destruct (Rle_bool (dR false c e) (p10 k)); eauto.
Qed.

Definition pv_cell (pd : Z) (pf : f64) (p : dec) : Prop :=
  (pf = fnan /\ p = DNaN) \/
  (fisfin pf = true /\ exists s q, p = DFin s q (- pd) /\ rounds_up (B2R64 pf) (dR s q (- pd)) (p10 (- pd))
     /\ (0 <= dR s q (- pd) <= 1)%R /\ (q <> 0%N -> s = false)).

Lemma pv_stage_cases pd pf p : pv_stage pd pf = Ok p -> pv_cell pd pf p.
Proof.
  unfold pv_stage. destruct (f64_cases pf) as [Hf|[->|[->| ->]]]; [|intros H; left; split; [reflexivity|inversion H; reflexivity]|discriminate|discriminate].
  destruct (d_of_float_finite pf Hf) as (s & c & e & -> & Hv & He). rewrite d_quantize_fin.
  pose proof (quant_ceiling s c e (- pd)) as Hr. rewrite Hv in Hr.
  destruct (Z.of_N (quant_coef ROUND_CEILING s c e (- pd)) <? 10 ^ 28); [|discriminate].
  cbn [bind d_is_nan]. set (q := quant_coef ROUND_CEILING s c e (- pd)) in *. intros H.
  right. split; [exact Hf|]. exists s, q.
  destruct (d_le D_ZERO (DFin s q (- pd))) as [[|]|] eqn:E1; try discriminate. cbn [bind] in H.
  destruct (d_le (DFin s q (- pd)) (DFin false 1 0)) as [[|]|] eqn:E2; try discriminate. cbn [bind py_assert] in H.
  inversion H; subst. apply d_le_true in E1; [|reflexivity|reflexivity]. apply d_le_true in E2; [|reflexivity|reflexivity].
  cbn [ext_lt D_ZERO] in E1, E2. rewrite dR_1, p10_0 in E2.
  assert (Hz : dR false 0 0 = 0%R) by (rewrite dR_sval; cbn; lra). rewrite Hz in E1.
  split; [reflexivity|]. split; [exact Hr|]. split; [lra|]. intros Hq. eapply dR_nonneg_sign; [|exact Hq]. apply Rnot_lt_le. exact E1.
Qed.

(** ** When decimalize succeeds *)

Definition clean_cell (v : f64 * f64 * f64) : Prop :=
  let '(mf, ef, pf) := v in
  fisfin mf = true /\ (ef = fnan \/ ef = finf \/ (fisfin ef = true /\ (0 <= B2R64 ef)%R)) /\
  (pf = fnan \/ (fisfin pf = true /\ (0 <= B2R64 pf <= 1)%R)).

(** The mean does not fit in 28 digits at the last place of its error bar. *)
Definition too_wide (ed : Z) (k : option Z) (v : f64 * f64 * f64) : Prop :=
  let '(mf, ef, _) := v in
  exists sb c e, create_decimal ef ed ROUND_CEILING = Ok (DFin sb c e) /\ c <> 0%N /\
    (forall kk, k = Some kk -> (dR sb c e <= p10 kk)%R) /\ ((p10 28 - / 2) * p10 e <= Rabs (B2R64 mf))%R.

Lemma eb_stage_ok ed k ef : 1 <= ed ->
  ef = fnan \/ ef = finf \/ (fisfin ef = true /\ (0 <= B2R64 ef)%R) ->
  exists EB, eb_stage ed (limit_dec k) ef = Ok EB.
Proof.
  intros Hed [->|[->|[Hf H0]]].
  - destruct (eb_stage_special ed k Hed) as (H & _). eauto.
  - destruct (eb_stage_special ed k Hed) as (_ & H & _). eauto.
  - destruct (eb_stage_finite ed k ef Hf H0 Hed) as (c & e & _ & H). eauto.
Qed.

(** A finite entry is the rounded error itself. *)
Lemma eb_stage_create ed k ef sb c e : eb_stage ed (limit_dec k) ef = Ok (DFin sb c e) ->
  create_decimal ef ed ROUND_CEILING = Ok (DFin sb c e) /\ (forall kk, k = Some kk -> (dR sb c e <= p10 kk)%R).
Proof.
  unfold eb_stage. destruct (create_decimal ef ed ROUND_CEILING) as [EB|]; [|discriminate]. cbn [bind].
  destruct (if d_is_nan EB then Ok true else d_le D_ZERO EB) as [[|]|]; try discriminate. cbn [bind py_assert].
  destruct EB as [s' c' e'|b|]; cbn [d_is_nan].
  - destruct (d_le (DFin s' c' e') (limit_dec k)) as [[|]|] eqn:E; try discriminate. cbn [bind].
    intros H; inversion H; subst. split; [reflexivity|]. intros kk ->. cbn [limit_dec] in E.
    apply d_le_true in E; [|reflexivity|reflexivity]. cbn [ext_lt] in E. rewrite dR_1 in E. lra.
  - destruct (d_le (DInf b) (limit_dec k)) as [[|]|]; discriminate.
  - discriminate.
Qed.

Lemma eb_stage_of_create ed k ef sb c e EB : create_decimal ef ed ROUND_CEILING = Ok (DFin sb c e) ->
  (forall kk, k = Some kk -> (dR sb c e <= p10 kk)%R) -> eb_stage ed (limit_dec k) ef = Ok EB -> EB = DFin sb c e.
Proof.
  intros Hc Hk. unfold eb_stage. rewrite Hc. cbn [bind d_is_nan].
  destruct (d_le D_ZERO (DFin sb c e)) as [[|]|]; try discriminate. cbn [bind py_assert].
  assert (Hle : d_le (DFin sb c e) (limit_dec k) = Ok true).
  { apply d_le_true; [reflexivity|destruct k; reflexivity|]. destruct k as [kk|]; cbn [limit_dec ext_lt].
    - rewrite dR_1. specialize (Hk kk eq_refl). lra.
    - discriminate. }
  rewrite Hle. cbn [bind]. congruence.
Qed.

Lemma cell_ok_iff ed pd dd k v : 1 <= ed -> 1 <= pd <= 27 -> 1 <= dd -> clean_cell v ->
  (too_wide ed k v -> decimalize_cell ed pd dd (limit_dec k) v = Err InvalidOperation) /\
  (~ too_wide ed k v -> exists r, decimalize_cell ed pd dd (limit_dec k) v = Ok r).
Proof.
  destruct v as [[mf ef] pf]. intros Hed Hpd Hdd (Hmf & Hef & Hpf).
  rewrite decimalize_cell_stages. destruct (eb_stage_ok ed k ef Hed Hef) as [EB HEB]. rewrite HEB. cbn [bind].
  split.
  - intros (sb & c & e & Hc & Hc0 & Hk & Hw). pose proof (eb_stage_of_create _ _ _ _ _ _ _ Hc Hk HEB) as ->.
    rewrite (mu_stage_overflow dd sb c e mf Hc0 Hmf) by lra. reflexivity.
  - intros Hn.
    assert (Hm : exists mu, mu_stage dd EB mf = Ok mu).
    { destruct (d_is_finite EB && negb (d_is_zero EB))%bool eqn:E.
      - destruct EB as [sb c e| |]; try discriminate. cbn in E. destruct (N.eqb_spec c 0) as [|Hc0]; [discriminate|].
        destruct (Rlt_dec (Rabs (B2R64 mf)) ((p10 28 - / 2) * p10 e)) as [Hlt|Hge].
        + destruct (mu_stage_quantized dd sb c e mf Hc0 Hmf Hlt) as (s & q & H & _). eauto.
        + exfalso. apply Hn. exists sb, c, e. destruct (eb_stage_create _ _ _ _ _ _ HEB) as [H1 H2].
          split; [exact H1|]. split; [exact Hc0|]. split; [exact H2|]. lra.
      - destruct (mu_stage_default dd EB mf) as (s & c & e & H & _); [|exact Hmf|exact Hdd|eauto].
        apply andb_false_iff in E. destruct E as [E|E]; [left; exact E|right; destruct (d_is_zero EB); [reflexivity|discriminate]]. }
    destruct Hm as [mu Hm]. rewrite Hm. cbn [bind].
    assert (Hp : exists p, pv_stage pd pf = Ok p).
    { destruct Hpf as [->|[Hf H01]]; [rewrite pv_stage_nan; eauto|].
      destruct (pv_stage_finite pd pf Hpd Hf H01) as (s & q & H & _). eauto. }
    destruct Hp as [p Hp]. rewrite Hp. cbn [bind]. eauto.
Qed.

Lemma in_cell_at {V} (t : list (pystr * list (pystr * V))) metric rows method v :
  In (metric, rows) t -> In (method, v) rows -> exists i j, cell_at t i j metric method v.
Proof.
  intros H1 H2. apply In_nth_error in H1, H2. destruct H1 as [i Hi], H2 as [j Hj].
  exists i, j, rows. auto.
Qed.

Lemma decimalize_ok ed pd dd lim t : 1 <= ed -> 1 <= pd <= 27 -> 1 <= dd ->
  (forall i j metric method v, cell_at t i j metric method v ->
     clean_cell v /\ ~ too_wide ed (dict_get lim metric) v) ->
  exists d, decimalize ed pd dd lim t = Ok d.
Proof.
  intros Hed Hpd Hdd H. unfold decimalize. destruct (Z.leb_spec 1 pd); [|lia]. cbn [py_assert bind].
  apply mapM_ok. intros [metric rows] Hin. rewrite limit_expo_dec.
  destruct (mapM_ok (fun '(method, cell) =>
      do c <- decimalize_cell ed pd dd (limit_dec (dict_get lim metric)) cell; Ok (method, c)) rows) as [rs Hrs].
  - intros [method v] Hr. destruct (in_cell_at t metric rows method v Hin Hr) as (i & j & Hc).
    destruct (H _ _ _ _ _ Hc) as [Hcl Hw].
    destruct (cell_ok_iff ed pd dd (dict_get lim metric) v Hed Hpd Hdd Hcl) as [_ H2].
    destruct (H2 Hw) as [r Hr']. rewrite Hr'. cbn [bind]. eauto.
  - rewrite Hrs. cbn [bind]. eauto.
Qed.

Lemma decimalize_too_wide ed pd dd lim t i j metric method v : 1 <= ed -> 1 <= pd <= 27 -> 1 <= dd ->
  cell_at t i j metric method v -> clean_cell v -> too_wide ed (dict_get lim metric) v ->
  forall d, decimalize ed pd dd lim t <> Ok d.
Proof.
  intros Hed Hpd Hdd Hc Hcl Hw d Hd. destruct v as [[mf ef] pf].
  destruct (decimalize_cells _ _ _ _ _ _ Hd) as (_ & _ & Hcells).
  destruct (Hcells _ _ _ _ _ _ _ Hc) as (mu & EB & p & _ & H1 & H2 & H3).
  destruct (cell_ok_iff ed pd dd (dict_get lim metric) (mf, ef, pf) Hed Hpd Hdd Hcl) as [Hx _].
  specialize (Hx Hw). rewrite decimalize_cell_stages, H1 in Hx. cbn [bind] in Hx. rewrite H2 in Hx. cbn [bind] in Hx.
  rewrite H3 in Hx. discriminate.
Qed.

(** ** C17: rounding to a common grid is monotone *)

Lemma rounds_half_up_mono x y s1 c1 s2 c2 e :
  rounds_half_up x (dR s1 c1 e) (p10 e) -> rounds_half_up y (dR s2 c2 e) (p10 e) ->
  (x <= y)%R -> (dR s1 c1 e <= dR s2 c2 e)%R.
Proof.
  rewrite !dR_sval. pose proof (p10_pos e) as Hu. set (u := p10 e) in *.
  set (a := sval s1 c1). set (b := sval s2 c2). intros [H1 T1] [H2 T2] Hxy.
  apply Rnot_lt_le. intros Hlt.
  assert (Hab : b < a).
  { apply lt_IZR. apply Rmult_lt_reg_r with u; assumption. }
  assert (Hab' : (IZR b + 1 <= IZR a)%R) by (rewrite <- plus_IZR; apply IZR_le; lia).
  assert (Hd : (IZR b * u + u <= IZR a * u)%R) by nra.
  apply Rabs_le_inv in H1. apply Rabs_le_inv in H2.
  assert (Hx : x = y) by lra. subst y.
  assert (Ha : (IZR a * u - x = u / 2)%R) by lra.
  assert (Hb : (IZR b * u - x = - (u / 2))%R) by lra.
  rewrite Ha, Rabs_pos_eq in T1 by lra. rewrite Hb, Rabs_Ropp, Rabs_pos_eq in T2 by lra.
  specialize (T1 eq_refl). specialize (T2 eq_refl).
  assert (Ea : (IZR a * u = x + u / 2)%R) by lra. assert (Eb : (IZR b * u = x - u / 2)%R) by lra.
  rewrite Ea in T1. rewrite Eb in T2.
  unfold Rabs in T1, T2. destruct (Rcase_abs x), (Rcase_abs (x + u / 2)), (Rcase_abs (x - u / 2)); try lra.
  - assert (b = a - 1).
    { apply eq_IZR. rewrite minus_IZR. apply Rmult_eq_reg_r with u; lra. }
    assert (Hz : (x = (IZR (a + b) * u) / 2)%R) by (rewrite plus_IZR; lra).
    assert (a + b = 0); [|lia].
    assert (IZR (a + b) * u = 2 * x)%R by lra.
    assert (Hs1 : (-1 < IZR (a + b))%R) by nra. assert (Hs2 : (IZR (a + b) < 1)%R) by nra.
    apply lt_IZR in Hs1. apply lt_IZR in Hs2. lia.
  - assert (b = a - 1).
    { apply eq_IZR. rewrite minus_IZR. apply Rmult_eq_reg_r with u; lra. }
    assert (IZR (a + b) * u = 2 * x)%R by (rewrite plus_IZR; lra).
    assert (Hs1 : (-1 < IZR (a + b))%R) by nra. assert (Hs2 : (IZR (a + b) < 1)%R) by nra.
    apply lt_IZR in Hs1. apply lt_IZR in Hs2. lia.
Qed.
