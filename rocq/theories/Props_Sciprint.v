(** Property theorems C01-C18 about number formatting (sciprint.py).
    Vocabulary: Spec_Sciprint.v.  Model: Sciprint.v, Dec.v, F64.v. *)
From Coq Require Import Reals Lra ZifyBool ZifyNat ZifyN.
From Verif Require Import PyBase F64 Dec Sciprint Spec_Sciprint DecProofs DecRound FormatProofs
  EstimateProofs DecimalizeProofs ShiftProofs TableProofs FormatTableProofs HeaderProofs ArgsortInst.
Open Scope Z_scope.

(** ** C01 *)
Theorem C01_print_estimate_roundtrip :
  forall s c e EB shift mn mx nf,
  Z.of_N c < 10 ^ 28 -> e + shift <= 0 -> err_ok EB e ->
  clip_ok mn mx -> ~ ext_lt mx (DFin s c e) -> ~ ext_lt (DFin s c e) mn ->
  exists out k, print_estimate (DFin s c e) EB shift mn mx nf = Ok out
    /\ k = Z.to_nat (- (e + shift))
    /\ read_estimate out = Some ((s, c, k), match EB with DFin _ cb _ => Some cb | _ => None end)
    /\ dR s c (- Z.of_nat k) = (dR s c e * p10 shift)%R
    /\ (forall sb cb eb, EB = DFin sb cb eb ->
          dR false cb (- Z.of_nat k) = (dR sb cb eb * p10 shift)%R).
Proof. exact print_estimate_roundtrip. Qed.
Print Assumptions C01_print_estimate_roundtrip.

Example C01_case :
  print_estimate (DFin true 1234567 (-5)) (DFin false 89 (-5)) 2 D_NINF D_INF [] = Ok (str "-1,234.567(89)")
  /\ read_estimate (str "-1,234.567(89)") = Some ((true, 1234567%N, 3%nat), Some 89%N)
  /\ err_ok (DFin false 89 (-5)) (-5) /\ clip_ok D_NINF D_INF
  /\ ~ ext_lt D_INF (DFin true 1234567 (-5)) /\ ~ ext_lt (DFin true 1234567 (-5)) D_NINF.
Proof.
  split; [vm_compute; reflexivity|]. split; [vm_compute; reflexivity|].
  split; [right; auto|]. split; [apply clip_default|]. split; cbn; discriminate.
Qed.

(** ** C02 *)
Theorem C02_print_estimate_rejects_unprintable :
  forall s c e EB shift mn mx nf,
  Z.of_N c < 10 ^ 28 -> err_ok EB e ->
  clip_ok mn mx -> ~ ext_lt mx (DFin s c e) -> ~ ext_lt (DFin s c e) mn ->
  (print_estimate (DFin s c e) EB shift mn mx nf = Err ValueError <-> 0 < e + shift)
  /\ (e + shift <= 0 -> exists out, print_estimate (DFin s c e) EB shift mn mx nf = Ok out
                        /\ ~ In "E"%char out).
Proof. exact print_estimate_error_iff. Qed.
Print Assumptions C02_print_estimate_rejects_unprintable.

(** Without the bound on the digits the result is a string without 'E' or
    ValueError. *)
Theorem C02_print_estimate_outcome :
  forall s c e EB shift mn mx nf,
  err_ok EB e -> clip_ok mn mx -> ~ ext_lt mx (DFin s c e) -> ~ ext_lt (DFin s c e) mn ->
  print_estimate (DFin s c e) EB shift mn mx nf = Err ValueError \/
  exists out, print_estimate (DFin s c e) EB shift mn mx nf = Ok out /\ mem_char "E" out = false.
Proof. exact print_estimate_outcome. Qed.
Print Assumptions C02_print_estimate_outcome.

Example C02_case :
  print_estimate (DFin false 12 1) (DInf false) 0 D_NINF D_INF [] = Err ValueError
  /\ print_estimate (DFin false 12 1) (DInf false) (-1) D_NINF D_INF [] = Ok (str "12").
Proof. split; vm_compute; reflexivity. Qed.

(** ** C03 *)
Theorem C03_above_limit :
  forall mu EB shift mn s c e nf,
  clip_ok mn (DFin s c e) -> Z.of_N c < 10 ^ 28 -> ext_lt (DFin s c e) mu ->
  exists txt c' k, print_estimate mu EB shift mn (DFin s c e) nf = Ok (">"%char :: txt)
    /\ read_number txt = Some (s, c', k) /\ dR s c' (- Z.of_nat k) = (dR s c e * p10 shift)%R.
Proof. exact print_estimate_above. Qed.
Print Assumptions C03_above_limit.

Theorem C03_below_limit :
  forall mu EB shift s c e mx nf,
  clip_ok (DFin s c e) mx -> Z.of_N c < 10 ^ 28 -> ext_lt mu (DFin s c e) ->
  exists txt c' k, print_estimate mu EB shift (DFin s c e) mx nf = Ok ("<"%char :: txt)
    /\ read_number txt = Some (s, c', k) /\ dR s c' (- Z.of_nat k) = (dR s c e * p10 shift)%R.
Proof. exact print_estimate_below. Qed.
Print Assumptions C03_below_limit.

Theorem C03_no_marker :
  forall s c e EB shift mn mx nf out,
  clip_ok mn mx -> ~ ext_lt mx (DFin s c e) -> ~ ext_lt (DFin s c e) mn ->
  print_estimate (DFin s c e) EB shift mn mx nf = Ok out ->
  exists a t, out = a :: t /\ a <> ">"%char /\ a <> "<"%char.
Proof. exact print_estimate_unmarked. Qed.
Print Assumptions C03_no_marker.

Example C03_case :
  print_estimate (DInf false) (DInf false) 3 (DFin true 1 2) (DFin false 1 1) [] = Ok (str ">10,000")
  /\ print_estimate (DFin true 12345 0) (DFin false 7 0) (-3) (DFin true 1 2) (DFin false 1 1) [] = Ok (str "<-0.1")
  /\ clip_ok (DFin true 1 2) (DFin false 1 1) /\ ext_lt (DFin false 1 1) (DInf false).
Proof.
  split; [vm_compute; reflexivity|]. split; [vm_compute; reflexivity|]. split; [exact (limits_clip_ok (Some 2) (Some 1))|reflexivity].
Qed.

(** ** C04 *)
Theorem C04_create_decimal_ceiling :
  forall x dgs, fisfin x = true -> 1 <= dgs ->
  exists s c e, create_decimal x dgs ROUND_CEILING = Ok (DFin s c e)
    /\ Z.of_N c < 10 ^ dgs
    /\ rounds_up (B2R64 x) (dR s c e) (p10 e)
    /\ (dR s c e = B2R64 x \/ 10 ^ (dgs - 1) <= Z.of_N c)
    /\ (c = 0%N -> s = false /\ B2R64 x = 0%R).
Proof. exact create_decimal_ceiling. Qed.
Print Assumptions C04_create_decimal_ceiling.

Theorem C04_create_decimal_half_up :
  forall x dgs, fisfin x = true -> 1 <= dgs ->
  exists s c e, create_decimal x dgs ROUND_HALF_UP = Ok (DFin s c e)
    /\ Z.of_N c < 10 ^ dgs
    /\ rounds_half_up (B2R64 x) (dR s c e) (p10 e)
    /\ (dR s c e = B2R64 x \/ 10 ^ (dgs - 1) <= Z.of_N c)
    /\ (c = 0%N -> s = false /\ B2R64 x = 0%R).
Proof. exact create_decimal_half_up. Qed.
Print Assumptions C04_create_decimal_half_up.

Theorem C04_create_decimal_special :
  forall dgs m, 1 <= dgs ->
  create_decimal fnan dgs m = Ok DNaN /\ create_decimal finf dgs m = Ok (DInf false)
  /\ create_decimal fninf dgs m = Ok (DInf true).
Proof.
  intros dgs m H. unfold create_decimal. destruct (Z.leb_spec 1 dgs); [|lia]. repeat split.
Qed.
Print Assumptions C04_create_decimal_special.

Example C04_case :
  create_decimal (f_lit 1 10) 2 ROUND_CEILING = Ok (DFin false 11 (-2))
  /\ create_decimal (f_lit 1 10) 2 ROUND_HALF_UP = Ok (DFin false 10 (-2))
  /\ create_decimal (f_lit 9996 1000) 3 ROUND_HALF_UP = Ok (DFin false 100 (-1))
  /\ fisfin (f_lit 1 10) = true.
Proof. repeat split; vm_compute; reflexivity. Qed.

(** ** C05 *)
Theorem C05_error_never_understated :
  forall ed pd dd lim t d, 1 <= ed -> decimalize ed pd dd lim t = Ok d ->
  forall i j metric method mf ef pf, cell_at t i j metric method (mf, ef, pf) ->
  exists mu EB p, cell_at d i j metric method (mu, EB, p) /\
  ((fisfin ef = true /\ (0 <= B2R64 ef)%R /\
     exists c e, Z.of_N c < 10 ^ ed /\ rounds_up (B2R64 ef) (dR false c e) (p10 e) /\
       (dR false c e = B2R64 ef \/ 10 ^ (ed - 1) <= Z.of_N c) /\
       ((EB = DFin false c e /\ forall k, dict_get lim metric = Some k -> (dR false c e <= p10 k)%R) \/
        (EB = DInf false /\ exists k, dict_get lim metric = Some k /\ (p10 k < dR false c e)%R))) \/
   (ef = finf /\ EB = DInf false) \/ (ef = fnan /\ EB = DNaN)).
Proof.
  intros ed pd dd lim t d Hed Hd i j metric method mf ef pf Hc.
  destruct (decimalize_cells _ _ _ _ _ _ Hd) as (_ & _ & H).
  destruct (H _ _ _ _ _ _ _ Hc) as (mu & EB & p & Hcell & H1 & _ & _).
  exists mu, EB, p. split; [exact Hcell|].
  destruct (eb_stage_cases _ _ _ _ Hed H1) as [(Hf & H0 & c & e & (Ha & Hb & Hcc & _) & HEB)|H2]; [left|right; exact H2].
  split; [exact Hf|]. split; [exact H0|]. exists c, e. split; [exact Ha|]. split; [exact Hb|]. split; [exact Hcc|].
  destruct (dict_get lim metric) as [k|]; [|left; split; [exact HEB|discriminate]].
  destruct (Flocq.Core.Raux.Rle_bool_spec (dR false c e) (p10 k)) as [Hle|Hlt].
  - left. split; [exact HEB|]. intros k' E. inversion E; subst. exact Hle.
  - right. split; [exact HEB|]. exists k. auto.
Qed.
Print Assumptions C05_error_never_understated.

(** A small table used in the examples: NLL of two methods. *)
Definition ex_table : ptable f64 :=
  [(str "NLL", [(str "iid", (f_lit 123456 1000, f_lit 1234 1000, f_lit 1 1));
                (str "GPC", (f_lit 5 100, f_lit 3 1000, f_lit 1 100000))])].

Example C05_case :
  decimalize 2 4 5 [] ex_table =
  Ok [(str "NLL", [(str "iid", (DFin false 1235 (-1), DFin false 13 (-1), DFin false 10000 (-4)));
                   (str "GPC", (DFin false 500 (-4), DFin false 31 (-4), DFin false 1 (-4)))])]
  /\ cell_at ex_table 0 1 (str "NLL") (str "GPC") (f_lit 5 100, f_lit 3 1000, f_lit 1 100000).
Proof. split; [vm_compute; reflexivity|]. eexists. split; reflexivity. Qed.

(** ** C06 *)
Theorem C06_mean_rounded_to_error_digit :
  forall ed pd dd lim t d, 1 <= ed -> 1 <= dd <= 28 -> decimalize ed pd dd lim t = Ok d ->
  forall i j metric method mf ef pf, cell_at t i j metric method (mf, ef, pf) -> fisfin mf = true ->
  exists mu EB p s c e, cell_at d i j metric method (mu, EB, p) /\ mu = DFin s c e /\
    rounds_half_up (B2R64 mf) (dR s c e) (p10 e) /\
    (forall sb cb eb, EB = DFin sb cb eb -> cb <> 0%N -> eb = e).
Proof.
  intros ed pd dd lim t d Hed Hdd Hd i j metric method mf ef pf Hc Hf.
  destruct (decimalize_cells _ _ _ _ _ _ Hd) as (_ & _ & H).
  destruct (H _ _ _ _ _ _ _ Hc) as (mu & EB & p & Hcell & H1 & H2 & _).
  destruct (stages_est_cell ed dd (dict_get lim metric) mf ef mu EB) as (s & c & e & Hm & _ & Hr & _ & HE & _); auto.
  exists mu, EB, p, s, c, e. split; [exact Hcell|]. split; [exact Hm|]. split; [exact Hr|].
  intros sb cb eb E Hn. destruct (HE sb cb eb E) as (_ & _ & _ & _ & Hx). auto.
Qed.
Print Assumptions C06_mean_rounded_to_error_digit.

(** decimalize of a clean table (finite means, errors >= 0 or inf or NaN,
    p-values in [0,1] or NaN) succeeds exactly when every mean fits in 28
    digits at the last place of its error bar. *)
Theorem C06_decimalize_succeeds_iff :
  forall ed pd dd lim t, 1 <= ed -> 1 <= pd <= 27 -> 1 <= dd ->
  (forall i j metric method v, cell_at t i j metric method v -> clean_cell v) ->
  ((exists d, decimalize ed pd dd lim t = Ok d) <->
   (forall i j metric method v, cell_at t i j metric method v -> ~ too_wide ed (dict_get lim metric) v)).
Proof.
  intros ed pd dd lim t Hed Hpd Hdd Hcl. split.
  - intros [d Hd] i j metric method v Hc Hw.
    exact (decimalize_too_wide ed pd dd lim t i j metric method v Hed Hpd Hdd Hc (Hcl _ _ _ _ _ Hc) Hw d Hd).
  - intros H. apply decimalize_ok; auto. intros i j metric method v Hc. split; [eapply Hcl; exact Hc|eapply H; exact Hc].
Qed.
Print Assumptions C06_decimalize_succeeds_iff.

Example C06_case :
  decimalize 2 4 5 [] [(str "m", [(str "a", (f_of_me 1 80, f_of_me 1 (-20), fnan))])] = Err InvalidOperation
  /\ decimalize 2 4 5 [] [(str "m", [(str "a", (f_lit 25 10, f_of_Z 1, fnan))])]
     = Ok [(str "m", [(str "a", (DFin false 3 0, DFin false 1 0, DNaN))])].
Proof. split; vm_compute; reflexivity. Qed.

(** ** C07 *)
Theorem C07_pvalue_conservative :
  forall ed pd dd lim t d, decimalize ed pd dd lim t = Ok d ->
  forall i j metric method mf ef pf, cell_at t i j metric method (mf, ef, pf) ->
  exists mu EB p, cell_at d i j metric method (mu, EB, p) /\
  ((pf = fnan /\ p = DNaN) \/
   (fisfin pf = true /\ exists s q, p = DFin s q (- pd) /\
      rounds_up (B2R64 pf) (dR s q (- pd)) (p10 (- pd)) /\ (0 <= dR s q (- pd) <= 1)%R)).
Proof.
  intros ed pd dd lim t d Hd i j metric method mf ef pf Hc.
  destruct (decimalize_cells _ _ _ _ _ _ Hd) as (_ & _ & H).
  destruct (H _ _ _ _ _ _ _ Hc) as (mu & EB & p & Hcell & _ & _ & H3).
  exists mu, EB, p. split; [exact Hcell|].
  destruct (pv_stage_cases _ _ _ H3) as [Hx|(Hf & s & q & Hp & Hr & H01 & _)]; [left; exact Hx|right].
  split; [exact Hf|]. exists s, q. auto.
Qed.
Print Assumptions C07_pvalue_conservative.

(** Every p-value in [0,1] is accepted. *)
Theorem C07_pvalue_accepted :
  forall ed pd dd lim metric method mf ef pf, 1 <= ed -> 1 <= pd <= 27 -> 1 <= dd ->
  clean_cell (mf, ef, pf) -> ~ too_wide ed (dict_get lim metric) (mf, ef, pf) ->
  exists d, decimalize ed pd dd lim [(metric, [(method, (mf, ef, pf))])] = Ok d.
Proof.
  intros ed pd dd lim metric method mf ef pf Hed Hpd Hdd Hcl Hw. apply decimalize_ok; auto.
  intros i j metric' method' v (rows & Hi & Hj).
  destruct i as [|[|i]]; cbn in Hi; inversion Hi; subst. destruct j as [|[|j]]; cbn in Hj; inversion Hj; subst. auto.
Qed.
Print Assumptions C07_pvalue_accepted.

Example C07_case :
  decimalize 2 4 5 [] [(str "m", [(str "a", (f_of_Z 1, fnan, f_lit 12341 100000000))])]
  = Ok [(str "m", [(str "a", (DFin false 1 0, DNaN, DFin false 2 (-4)))])].
Proof. vm_compute; reflexivity. Qed.

(** ** C08 *)
Theorem C08_less_than_truthful :
  forall ed pd dd lim t d, decimalize ed pd dd lim t = Ok d ->
  forall i j metric method mf ef pf nf, cell_at t i j metric method (mf, ef, pf) ->
  exists mu EB p txt, cell_at d i j metric method (mu, EB, p) /\ print_pval p nf = Ok txt /\
  ((pf = fnan /\ txt = dict_get_def nf (str "nan") (str "nan")) \/
   (exists num, txt = "<"%char :: num /\ read_number num = Some (false, 1%N, Z.to_nat pd) /\
      fisfin pf = true /\ (B2R64 pf < p10 (- pd))%R) \/
   (exists q, read_number txt = Some (false, q, Z.to_nat pd) /\ p = DFin false q (- pd) /\
      fisfin pf = true /\ (p10 (- pd) < B2R64 pf <= dR false q (- pd))%R)).
Proof.
  intros ed pd dd lim t d Hd i j metric method mf ef pf nf Hc.
  destruct (decimalize_cells _ _ _ _ _ _ Hd) as (Hpd & _ & H).
  destruct (H _ _ _ _ _ _ _ Hc) as (mu & EB & p & Hcell & _ & _ & H3).
  pose proof (pv_stage_cases _ _ _ H3) as Hpc.
  destruct (print_pval_ok pd p nf (pv_cell_ok _ _ _ Hpc)) as [txt Ht].
  exists mu, EB, p, txt. split; [exact Hcell|]. split; [exact Ht|].
  destruct Hpc as [[-> ->]|(Hf & s & q & -> & Hr & H01 & Hs)].
  - left. split; [reflexivity|]. inversion Ht. reflexivity.
  - right.
    destruct (print_pval_truthful pd pf (DFin s q (- pd)) nf txt Hpd) as [Hn He|num He Hn _ Hlt|q' Hn _ Hr' Hgt _];
      [right; split; [exact Hf|]; exists s, q; auto|exact Ht|..].
    + rewrite Hn in Hf. discriminate Hf.
    + left. exists num. auto.
    + right. exists q'. rewrite print_pval_fin in Ht by assumption.
      destruct (Z.leb_spec (Z.of_N q) 1) as [Hq|Hq].
      * exfalso. apply Ok_inj in Ht. subst txt.
        destruct (Hr) as [Hr0 _]. apply IZR_le in Hq.
        assert (dR s q (- pd) <= p10 (- pd))%R.
        { unfold dR. pose proof (p10_pos (- pd)). destruct s; [|nra].
          assert (0 <= Z.of_N q) by lia. apply IZR_le in H1. rewrite opp_IZR. nra. }
        lra.
      * assert (s = false) as -> by (apply Hs; intros ->; lia).
        apply Ok_inj in Ht. rewrite <- Ht in Hn. rewrite read_number_format in Hn.
        destruct (Z.leb_spec 0 (- pd)); [lia|]. rewrite Z.opp_involutive in Hn. inversion Hn; subst q'.
        split; [rewrite <- Ht, read_number_format; destruct (Z.leb_spec 0 (- pd)); [lia|]; rewrite Z.opp_involutive; reflexivity|].
        split; [reflexivity|]. split; [exact Hf|]. destruct Hr'. lra.
Qed.
Print Assumptions C08_less_than_truthful.

Example C08_case :
  print_pval (DFin false 1 (-4)) [] = Ok (str "<0.0001") /\
  print_pval (DFin false 2 (-4)) [] = Ok (str "0.0002").
Proof. split; vm_compute; reflexivity. Qed.

(** ** C09 *)
Theorem C09_get_shift_range :
  forall xs md, xs <> [] -> 1 <= md -> forallb d_is_finite xs = true ->
  exists mn mx small, get_shift_range xs md = Ok (mn, mx, small) /\
  (md | mn) /\ (md | mx) /\ mn <= mx /\
  (forall s, (md | s) -> ((forall x, In x xs -> known_to_dot x s) <-> s <= mx)) /\
  (small = false -> forall s, (md | s) -> ((exists x, In x xs /\ reaches_units x s) <-> mn <= s)) /\
  (small = true -> mn = mx /\
     forall s, (md | s) -> ~ ((forall x, In x xs -> known_to_dot x s) /\ exists x, In x xs /\ reaches_units x s)).
Proof. exact get_shift_range_spec. Qed.
Print Assumptions C09_get_shift_range.

Example C09_case :
  get_shift_range [DFin false 12345 (-7); DFin true 3 (-2)] 3 = Ok (0, 0, true) /\
  get_shift_range [DFin false 12345 (-7); DFin true 3 (-2)] 1 = Ok (2, 2, false) /\
  get_shift_range [DFin false 12345 (-7); DFin true 300 (-2)] 1 = Ok (0, 2, false).
Proof. repeat split; vm_compute; reflexivity. Qed.

(** ** C10: false as documented when the list contains a zero. *)
Theorem C10_all_small_refuted :
  exists xs md mn mx, xs <> [] /\ 1 <= md /\ forallb d_is_finite xs = true /\
    get_shift_range xs md = Ok (mn, mx, false) /\ mn <= mx /\
    (forall s c e, In (DFin s c e) xs -> (Rabs (dR s c e) * p10 mx < 1)%R).
Proof.
  exists [DFin false 0 0; DFin false 5 (-3)], 1, 0, 0.
  split; [discriminate|]. split; [lia|]. split; [reflexivity|]. split; [vm_compute; reflexivity|]. split; [lia|].
  intros s c e H. rewrite p10_0, Rmult_1_r, dR_abs.
  destruct H as [H|[H|[]]]; inversion H; subst; clear H.
  - cbn [Z.of_N]. rewrite Rmult_0_l. lra.
  - assert (Hp : (p10 (-3) * p10 3 = 1)%R) by (rewrite <- p10_plus; reflexivity).
    pose proof (p10_pos (-3)). rewrite <- (IZR_pow10 3) in Hp by lia. change (10 ^ 3) with 1000 in Hp. cbn [Z.of_N]. lra.
Qed.
Print Assumptions C10_all_small_refuted.

(** It holds for lists without zeros. *)
Theorem C10_all_small_nonzero :
  forall xs md mn mx, 1 <= md -> (forall x, In x xs -> exists s c e, x = DFin s c e /\ c <> 0%N) ->
  get_shift_range xs md = Ok (mn, mx, false) ->
  forall sh, (md | sh) -> mn <= sh <= mx ->
  exists s c e, In (DFin s c e) xs /\ (1 <= Rabs (dR s c e) * p10 sh)%R.
Proof.
  intros xs md mn mx Hmd Hnz Hg sh Hd Hb.
  assert (Hne : xs <> []) by (intros ->; discriminate).
  destruct (get_shift_range_spec xs md Hne Hmd) as (mn' & mx' & small & Hg' & _ & _ & _ & _ & Hu & _).
  - apply forallb_forall. intros x Hx. destruct (Hnz x Hx) as (s & c & e & -> & _). reflexivity.
  - rewrite Hg in Hg'. inversion Hg'; subst. destruct (Hu eq_refl sh Hd) as [_ H].
    destruct H as (x & Hx & Hr); [lia|]. destruct (Hnz x Hx) as (s & c & e & -> & Hc).
    exists s, c, e. split; [exact Hx|]. cbn [reaches_units] in Hr. destruct (N.eqb_spec c 0); [contradiction|exact Hr].
Qed.
Print Assumptions C10_all_small_nonzero.

Example C10_case :
  get_shift_range [DFin false 12345 (-7); DFin true 300 (-2)] 1 = Ok (0, 2, false) /\ (1 | 1) /\ 0 <= 1 <= 2.
Proof. split; [vm_compute; reflexivity|]. split; [apply Z.divide_1_l|lia]. Qed.

(** ** C11 *)
Theorem C11_find_shift_optimal :
  forall argsort means errs md, argsort_ok argsort ->
  length means = length errs -> means <> [] -> pairs_ok (combine means errs) -> 1 <= md ->
  exists mn mx small b w,
    get_shift_range means md = Ok (mn, mx, small) /\
    find_shift argsort means errs md = Ok b /\
    (md | b) /\ mn <= b <= mx /\ col_width (combine means errs) b w /\
    (forall s, (md | s) -> mn <= s <= mx ->
       exists w', col_width (combine means errs) s w' /\ (w < w' \/ (w = w' /\ Z.abs b <= Z.abs s))).
Proof. exact find_shift_spec. Qed.
Print Assumptions C11_find_shift_optimal.

Example C11_case :
  argsort_ok argsort_ins /\
  find_shift argsort_ins [DFin false 12345 (-7); DFin true 300 (-7)] [DFin false 12 (-7); DFin false 31 (-7)] 1 = Ok 4 /\
  pairs_ok (combine [DFin false 12345 (-7); DFin true 300 (-7)] [DFin false 12 (-7); DFin false 31 (-7)]).
Proof.
  split; [exact argsort_ins_ok|]. split; [vm_compute; reflexivity|].
  constructor; [exists false, 12345%N, (-7); cbn; split; [reflexivity|split; [reflexivity|right; auto]]|].
  constructor; [exists true, 300%N, (-7); cbn; split; [reflexivity|split; [reflexivity|right; auto]]|]. constructor.
Qed.

(** ** C12 *)
Theorem C12_padding_aligns :
  forall l pad, l <> [] -> Forall (fun s => point_pos s <> O) l ->
  exists out, pad_num_str l pad = Ok out /\ length out = length l /\
    (exists w, forall i s, nth_error l i = Some s -> exists n, nth_error out i = Some (s ++ repeat pad n) /\
        (length s + n - point_pos s = w)%nat) /\
    (exists i s, nth_error l i = Some s /\ nth_error out i = Some s).
Proof.
  intros l pad Hne Hp. destruct (pad_num_str_ok l pad Hne Hp) as (w & (s0 & Hs0 & Hw0) & Hle & Hok).
  eexists. split; [exact Hok|]. split; [apply map_length|]. split.
  - exists (Z.to_nat w). intros i s Hi. exists (Z.to_nat (w - right_len s)). split.
    + exact (map_nth_error _ _ _ Hi).
    + pose proof (Hle s (nth_error_In _ _ Hi)) as H. pose proof (point_pos_le s). unfold right_len in *. lia.
  - apply In_nth_error in Hs0. destruct Hs0 as [i Hi]. exists i, s0. split; [exact Hi|].
    pose proof (map_nth_error (fun s => s ++ repeat pad (Z.to_nat (w - right_len s))) _ _ Hi) as H.
    cbv beta in H. rewrite Hw0, Z.sub_diag in H. cbn [Z.to_nat repeat] in H. rewrite app_nil_r in H. exact H.
Qed.
Print Assumptions C12_padding_aligns.

(** The inputs it rejects: an empty list, or a text with nothing before the
    point. *)
Theorem C12_padding_errors :
  forall l pad, pad_num_str l pad = Err ValueError /\ l = [] \/
  (exists out, pad_num_str l pad = Ok out) /\ l <> [] /\ Forall (fun s => point_pos s <> O) l \/
  pad_num_str l pad = Err AssertionError /\ exists s, In s l /\ point_pos s = O.
Proof. exact pad_num_str_err. Qed.
Print Assumptions C12_padding_errors.

Example C12_case :
  pad_num_str [str "1.25(3)"; str "10"; str "7(2)"] " " = Ok [str "1.25(3)"; str "10      "; str "7(2)   "].
Proof. vm_compute; reflexivity. Qed.

(** ** C13 *)
Theorem C13_header_undoes_shift :
  forall tex metric unit use_prefix sh,
  header_says tex (replace_char "_" " " metric) unit use_prefix sh
              (adjust_header sh unit use_prefix tex metric EST_COL).
Proof. exact adjust_header_says. Qed.
Print Assumptions C13_header_undoes_shift.

Theorem C13_header_determines_shift :
  forall tex metric unit use_prefix sh1 sh2,
  adjust_header sh1 unit use_prefix tex metric EST_COL = adjust_header sh2 unit use_prefix tex metric EST_COL ->
  sh1 = sh2.
Proof. exact adjust_header_inj. Qed.
Print Assumptions C13_header_determines_shift.

(** Micro is the one prefix that LaTeX output spells differently. *)
Theorem C13_micro_sign :
  forall (tex : bool) metric unit,
  let text := replace_char "_" " " metric ++ str " (" ++ (if tex then str "$\mu$" else str "u") ++ unit ++ str ")" in
  adjust_header 6 (Some unit) true tex metric EST_COL = if tex then str "{" ++ text ++ str "}" else text.
Proof. intros [] metric unit; reflexivity. Qed.
Print Assumptions C13_micro_sign.

Example C13_case :
  adjust_header 3 (Some (str "s")) true false (str "run_time") EST_COL = str "run time (ms)" /\
  adjust_header (-2) (Some (str "s")) true false (str "run_time") EST_COL = str "run time x 1e-2 (s)" /\
  adjust_header 3 None true false (str "run_time") EST_COL = str "run time x 1e3".
Proof. repeat split; vm_compute; reflexivity. Qed.

(** ** C14: false: whatever the metric and shift, no LaTeX command appears, but
    a TAB character does. *)
Theorem C14_tex_times_refuted :
  forall metric sh, sh <> 0 -> ~ In "\"%char metric ->
  let h := adjust_header sh None false true metric EST_COL in
  ~ In "\"%char h /\ In "009"%char h.
Proof. exact adjust_header_tex_no_command. Qed.
Print Assumptions C14_tex_times_refuted.

Example C14_case :
  adjust_header 3 None false true (str "NLL") EST_COL = str "{NLL $" ++ ["009"%char] ++ str "imes 10^{3}$}".
Proof. vm_compute; reflexivity. Qed.

(** ** C15 *)
Theorem C15_format_never_fails :
  forall argsort md pad cmax cmin nf ed pd dd lim t, argsort_ok argsort -> 1 <= md ->
  1 <= ed -> 1 <= pd <= 27 -> 1 <= dd <= 28 -> nonempty_table t ->
  (forall i j metric method v, cell_at t i j metric method v ->
     clean_cell v /\ ~ too_wide ed (dict_get lim metric) v) ->
  exists d out, decimalize ed pd dd lim t = Ok d /\
    format_table argsort (Some md) pad cmax cmin nf d = Ok out.
Proof.
  intros argsort md pad cmax cmin nf ed pd dd lim t Hs Hmd Hed Hpd Hdd Hne Hc.
  destruct (decimalize_ok ed pd dd lim t) as [d Hd]; [assumption|assumption|lia|exact Hc|].
  destruct (format_decimalized argsort md pad cmax cmin nf ed pd dd lim t d) as [out Ho]; auto.
  - intros i j metric method mf ef pf Hcell. destruct (Hc _ _ _ _ _ Hcell) as [(Hf & _) _]. exact Hf.
  - exists d, out. auto.
Qed.
Print Assumptions C15_format_never_fails.

(** p-values of one metric to different numbers of digits are refused. *)
Theorem C15_pvalue_precision :
  forall argsort sm pad cmax cmin nf t metric rows m1 mu1 e1 s1 c1 x1 m2 mu2 e2 s2 c2 x2,
  In (metric, rows) t -> In (m1, (mu1, e1, DFin s1 c1 x1)) rows -> In (m2, (mu2, e2, DFin s2 c2 x2)) rows -> x1 <> x2 ->
  forall out, format_table argsort sm pad cmax cmin nf t <> Ok out.
Proof.
  intros argsort sm pad cmax cmin nf t metric rows m1 mu1 e1 s1 c1 x1 m2 mu2 e2 s2 c2 x2 It I1 I2 N out E. unfold format_table in E.
  destruct (forallb _ t); cbn [py_assert bind] in E; [|discriminate]. destruct (negb _); cbn [py_assert bind] in E; [|discriminate].
  clear - It I1 I2 N E. revert out E. induction t as [|[m r] t IH]; [destruct It|]. intros out E. cbn [mapM] in E.
  destruct (format_metric argsort sm pad cmax cmin nf m r) as [b|] eqn:F; cbn [bind] in E; [|discriminate].
  destruct (mapM _ t) as [bs|] eqn:G; cbn [bind] in E; [|discriminate]. destruct It as [Q|It]; [|exact (IH It _ eq_refl)].
  injection Q as -> ->. unfold format_metric in F. set (ps := map _ rows) in F at 1. assert (In x1 (finite_expos ps) /\ In x2 (finite_expos ps)) as [J1 J2].
  { split; apply in_flat_map; [exists (DFin s1 c1 x1)|exists (DFin s2 c2 x2)]; (split; [|now left]); apply in_map_iff; [exists (m1, (mu1, e1, DFin s1 c1 x1))|exists (m2, (mu2, e2, DFin s2 c2 x2))]; now split. }
  destruct (all_same (finite_expos ps)) eqn:A; cbn [py_assert bind] in F; [|discriminate]. apply N. unfold all_same in A. destruct (finite_expos ps) as [|a l]; [destruct J1|].
  rewrite forallb_forall in A. apply A in J1, J2. lia.
Qed.
Print Assumptions C15_pvalue_precision.

Definition fmt_out (r : res (ptable dec)) (md : option Z) : res (list (string * Z * list (string * (string * string)))) :=
  do d <- r;
  do o <- format_table argsort_ins md true [] [] [] d;
  Ok (map (fun '(m, sh, rows) => (show m, sh, map (fun '(me, (a, b)) => (show me, (show a, show b))) rows)) o).

Example C15_case :
  fmt_out (decimalize 2 4 5 [] ex_table) (Some 3) =
  Ok [("NLL", 0, [("iid", ("123.5(13)   ", "1.0000")); ("GPC", ("0.0500(31)", "<0.0001"))])]%string
  /\ nonempty_table ex_table.
Proof.
  split; [vm_compute; reflexivity|]. split; [discriminate|]. intros m [<-|[]]. discriminate.
Qed.
Example C15_precision_case :
  format_table argsort_ins (Some 3) true [] [] [] [(str "NLL", [(str "a", (DFin false 5 0, DFin false 1 0, DFin false 5 (-1))); (str "b", (DFin false 5 0, DFin false 1 0, DFin false 5 (-2)))])] = Err AssertionError.
Proof. vm_compute; reflexivity. Qed.

(** ** C16 *)
Theorem C16_end_to_end_truthful :
  forall argsort md pad cmax cmin nf ed pd dd lim t d out, argsort_ok argsort -> 1 <= md ->
  1 <= ed -> 1 <= dd <= 28 -> nonempty_table t -> finite_means t ->
  decimalize ed pd dd lim t = Ok d ->
  format_table argsort (Some md) pad cmax cmin nf d = Ok out ->
  length out = length t /\
  forall i j metric method mf ef pf, cell_at t i j metric method (mf, ef, pf) ->
  exists sh rows txt n ptxt,
    nth_error out i = Some (metric, sh, rows) /\ (md | sh) /\
    nth_error rows j = Some (method, (txt ++ repeat " "%char n, ptxt)) /\
    truthful mf ef sh (dict_get cmin metric) (dict_get cmax metric) txt /\
    truthful_p pd pf (dict_get_def nf NAN_STR NAN_STR) ptxt.
Proof. exact format_truthful. Qed.
Print Assumptions C16_end_to_end_truthful.

Example C16_case :
  decimalize 2 4 5 [] ex_table <> Err AssertionError /\ finite_means ex_table.
Proof.
  split; [vm_compute; discriminate|].
  intros i j metric method mf ef pf (rows & Hi & Hj).
  destruct i as [|[|i]]; unfold ex_table in Hi; cbn [nth_error] in Hi; try discriminate.
  injection Hi as _ <-.
  destruct j as [|[|[|j]]]; cbn [nth_error] in Hj; try discriminate; injection Hj as _ <- _ _; vm_compute; reflexivity.
Qed.

(** ** C17 *)
Theorem C17_no_rank_reversal :
  forall ed pd dd lim t d, 1 <= ed -> 1 <= dd <= 28 -> decimalize ed pd dd lim t = Ok d ->
  forall i1 j1 m1 h1 mf1 ef1 pf1 i2 j2 m2 h2 mf2 ef2 pf2 mu1 mu2 s1 c1 s2 c2 e p1 p2,
  cell_at t i1 j1 m1 h1 (mf1, ef1, pf1) -> cell_at t i2 j2 m2 h2 (mf2, ef2, pf2) ->
  fisfin mf1 = true -> fisfin mf2 = true ->
  cell_at d i1 j1 m1 h1 (mu1, DFin s1 c1 e, p1) -> cell_at d i2 j2 m2 h2 (mu2, DFin s2 c2 e, p2) ->
  c1 <> 0%N -> c2 <> 0%N ->
  (B2R64 mf1 <= B2R64 mf2)%R ->
  exists sg1 q1 sg2 q2, mu1 = DFin sg1 q1 e /\ mu2 = DFin sg2 q2 e /\ (dR sg1 q1 e <= dR sg2 q2 e)%R.
Proof.
  intros ed pd dd lim t d Hed Hdd Hd i1 j1 m1 h1 mf1 ef1 pf1 i2 j2 m2 h2 mf2 ef2 pf2 mu1 mu2 s1 c1 s2 c2 e p1 p2
    Ht1 Ht2 Hf1 Hf2 Hd1 Hd2 Hc1 Hc2 Hle.
  destruct (decimalize_cells _ _ _ _ _ _ Hd) as (_ & _ & H).
  assert (Hone : forall i j m h mf ef pf mu s c p, cell_at t i j m h (mf, ef, pf) -> fisfin mf = true ->
     cell_at d i j m h (mu, DFin s c e, p) -> c <> 0%N ->
     exists sg q, mu = DFin sg q e /\ rounds_half_up (B2R64 mf) (dR sg q e) (p10 e)).
  { intros i j m h mf ef pf mu s c p Hc Hf (rows & Hi & Hj) Hn.
    destruct (H _ _ _ _ _ _ _ Hc) as (mu' & EB' & p' & (rows' & Hi' & Hj') & H1 & H2 & _).
    rewrite Hi in Hi'. inversion Hi'; subst rows'. rewrite Hj in Hj'. inversion Hj'; subst mu' EB' p'.
    destruct (stages_est_cell ed dd (dict_get lim m) mf ef mu (DFin s c e)) as (sg & q & e' & Hm & _ & Hr & _ & HE & _); auto.
    destruct (HE s c e eq_refl) as (_ & _ & _ & _ & Hx). rewrite (Hx Hn). exists sg, q. rewrite <- (Hx Hn). 
    rewrite (Hx Hn). auto. }
  destruct (Hone _ _ _ _ _ _ _ _ _ _ _ Ht1 Hf1 Hd1 Hc1) as (sg1 & q1 & E1 & R1).
  destruct (Hone _ _ _ _ _ _ _ _ _ _ _ Ht2 Hf2 Hd2 Hc2) as (sg2 & q2 & E2 & R2).
  exists sg1, q1, sg2, q2. split; [exact E1|]. split; [exact E2|]. eapply rounds_half_up_mono; eauto.
Qed.
Print Assumptions C17_no_rank_reversal.

Example C17_case :
  decimalize 1 4 5 [] [(str "m", [(str "a", (f_lit 125 100, f_lit 21 100, fnan)); (str "b", (f_lit 126 100, f_lit 25 100, fnan))])]
  = Ok [(str "m", [(str "a", (DFin false 13 (-1), DFin false 3 (-1), DNaN)); (str "b", (DFin false 13 (-1), DFin false 3 (-1), DNaN))])].
Proof. vm_compute; reflexivity. Qed.

(** ** C18 *)
Theorem C18_no_shift_mode :
  forall argsort pad cmax cmin nf pd d, table_ok pd d ->
  let bad metric (rows : list row) := exists r, In r rows /\
        ~ (ext_lt (limit_dec (dict_get cmax metric)) (rmean r) \/ ext_lt (rmean r) (min_dec (dict_get cmin metric))) /\
        ~ known_to_dot (rmean r) 0 in
  ((exists metric rows, In (metric, rows) d /\ bad metric rows) ->
     format_table argsort None pad cmax cmin nf d = Err ValueError) /\
  ((forall metric rows, In (metric, rows) d -> ~ bad metric rows) ->
     exists out, format_table argsort None pad cmax cmin nf d = Ok out /\
       Forall2 (fun m o => fst (fst o) = fst m /\ snd (fst o) = 0 /\
      Forall2 (row_printed 0 (min_dec (dict_get cmin (fst m))) (limit_dec (dict_get cmax (fst m))) nf pad)
              (snd m) (snd o)) d out).
Proof. exact format_table_none. Qed.
Print Assumptions C18_no_shift_mode.

Example C18_case :
  fmt_out (Ok [(str "m", [(str "a", (DFin false 12 1, DFin false 3 1, DNaN))])]) None = Err ValueError /\
  fmt_out (Ok [(str "m", [(str "a", (DFin false 12 (-1), DFin false 3 (-1), DNaN))])]) None
    = Ok [("m", 0, [("a", ("1.2(3)", "nan"))])]%string.
Proof. split; vm_compute; reflexivity. Qed.
