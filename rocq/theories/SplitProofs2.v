(** Ordered and linear splits, split_df. *)
From Coq Require Import Reals Lra Permutation Sorted.
From Verif Require Import PyBase F64 F64Lemmas DataSplitter SplitProofs.
Open Scope Z_scope.
Open Scope list_scope.

(** ** Ordered split *)

Lemma fdiv_nn k n : 0 <= k <= n -> 1 <= n <= 2 ^ 53 ->
  B2R (fdiv (f_of_Z k) (f_of_Z n)) = rnd64 (IZR k / IZR n) /\ fisfin (fdiv (f_of_Z k) (f_of_Z n)) = true.
Proof.
  intros Hk Hn. destruct (f_of_Z_correct k) as [Vk Fk]; [lia|]. destruct (f_of_Z_correct n) as [Vn Fn]; [lia|].
  assert (1 <= IZR n)%R as Pn by (apply IZR_le; lia).
  assert (0 <= IZR k <= IZR n)%R as Pk by (split; apply IZR_le; lia).
  assert (0 <= IZR k / IZR n <= 1)%R as B.
  { split; [unfold Rdiv; apply Rmult_le_pos; [lra|apply Rlt_le, Rinv_0_lt_compat; lra]|]. apply Rmult_le_reg_r with (IZR n); [lra|].
    unfold Rdiv. rewrite Rmult_assoc, Rinv_l by lra. lra. }
  destruct (fdiv_correct (f_of_Z k) (f_of_Z n) Fk) as [D1 D2].
  - rewrite Vn. lra.
  - rewrite Vk, Vn. rewrite Rabs_pos_eq.
    + apply Rle_lt_trans with 1%R; [apply rnd64_le; [apply format64_1|lra]|].
      pose proof bpow_emax_big. lra.
    + apply rnd64_ge; [apply format64_0|lra].
  - rewrite Vk, Vn in D1. now split.
Qed.

(** Index of the pivotal case among [n] distinct values. *)
Definition piv_idx (frac : f64) (n : Z) : Z := Z.min (Zfloor (rnd64 (B2R frac * IZR n))) (n - 1).

Lemma piv_idx_range frac n : fisfin frac = true -> (0 <= B2R frac <= 1)%R -> 1 <= n <= 2 ^ 53 ->
  0 <= piv_idx frac n <= n - 1.
Proof.
  intros F B Hn. unfold piv_idx.
  destruct (frac_mul frac n F B) as (_ & _ & _ & _ & R); [lia|].
  pose proof (Zfloor_range _ _ R). lia.
Qed.

(** The first rounding assertion of ordered_split_series never fails. *)
Lemma piv_enough frac n : fisfin frac = true -> (0 <= B2R frac <= 1)%R -> 1 <= n <= 2 ^ 53 ->
  fleb frac (fdiv (f_of_Z (piv_idx frac n + 1)) (f_of_Z n)) = true.
Proof.
  intros F B Hn. pose proof (piv_idx_range frac n F B Hn) as PR.
  destruct (fdiv_nn (piv_idx frac n + 1) n) as [V FV]; [lia|lia|].
  apply fleb_fin; auto. rewrite V.
  assert (1 <= IZR n)%R as Pn by (apply IZR_le; lia).
  apply rnd64_ge; [apply B2R_format|].
  apply Rmult_le_reg_r with (IZR n); [lra|]. unfold Rdiv. rewrite Rmult_assoc, Rinv_l by lra.
  rewrite Rmult_1_r.
  unfold piv_idx in *. destruct (Z.min_spec (Zfloor (rnd64 (B2R frac * IZR n))) (n - 1)) as [[L E]|[L E]]; rewrite E in *.
  - assert (~ (IZR (Zfloor (rnd64 (B2R frac * IZR n)) + 1) < B2R frac * IZR n))%R as C.
    { intros C. set (k := Zfloor (rnd64 (B2R frac * IZR n))) in *.
      assert (IZR (k + 1) <= rnd64 (B2R frac * IZR n))%R as C2.
      { apply rnd64_ge; [apply format64_IZR; lia|lra]. }
      apply Zfloor_lub in C2. fold k in C2. lia. }
    lra.
  - replace (n - 1 + 1) with n by lia. nra.
Qed.

Section Values.
  Context {A : Type} (eqb leb : A -> A -> bool).
  Hypothesis eqb_ok : forall a b, eqb a b = true <-> a = b.
  Hypothesis leb_total : forall a b, leb a b = true \/ leb b a = true.
  Hypothesis leb_antisym : forall a b, leb a b = true -> leb b a = true -> a = b.
  Hypothesis leb_trans : forall a b c, leb a b = true -> leb b c = true -> leb a c = true.

  Definition cases (V : list A) (srt uniq : bool) : list A :=
    if srt && uniq then V else if uniq then np_sort leb V else np_unique eqb leb V.

  Lemma cases_same V srt uniq :
    (srt = true -> StronglySorted (le_ leb) V) -> (uniq = true -> NoDup V) ->
    cases V srt uniq = np_unique eqb leb V.
  Proof.
    intros HS HU. destruct (np_unique_spec eqb leb eqb_ok leb_total leb_antisym leb_trans V) as [U1 U2].
    unfold cases. destruct uniq; [|now destruct srt].
    specialize (HU eq_refl). destruct srt; cbn [andb].
    - apply (strict_ext leb leb_antisym); auto.
      + apply sorted_NoDup_strict; auto.
      + intros v. now rewrite U2.
    - apply (strict_ext leb leb_antisym); auto.
      + apply sorted_NoDup_strict; auto using np_sort_sorted.
        apply (Permutation_NoDup (Permutation_sym (np_sort_perm leb V))). exact HU.
      + intros v. rewrite U2. split; apply Permutation_in; [|symmetry]; apply np_sort_perm.
  Qed.

  Lemma ordered_split_spec (S : list (option A)) frac srt uniq :
    existsb isnull S = false -> S <> [] -> zlen S < 2 ^ 53 -> frac_ok frac = true ->
    (srt = true -> StronglySorted (le_ leb) (values S)) -> (uniq = true -> NoDup (values S)) ->
    let D := np_unique eqb leb (values S) in
    let n := zlen D in
    let idx := piv_idx frac n in
    1 <= n < 2 ^ 53 /\ 
    exists pivot, nth_error D (Z.to_nat idx) = Some pivot /\
      ordered_split_series eqb leb S frac srt uniq =
      if (idx =? 0) || fltb (fdiv (f_of_Z idx) (f_of_Z n)) frac
      then Ok (map (fun v => leb v pivot) (values S)) else Err AssertionError.
  Proof.
    intros HN HE HL HF HS HU D n idx.
    destruct (np_unique_spec eqb leb eqb_ok leb_total leb_antisym leb_trans (values S)) as [U1 U2].
    fold D in U1, U2. pose proof (values_length S HN) as VL.
    assert (1 <= n < 2 ^ 53) as Hn.
    { split.
      - unfold n, zlen. destruct S as [|[a|] S]; try contradiction; try discriminate.
        assert (In a D) as I by (apply U2; left; reflexivity). destruct D; [destruct I|]. cbn. lia.
      - assert (zlen D <= zlen S); [|lia]. unfold zlen. rewrite <- VL. apply inj_le.
        apply NoDup_incl_length; [apply (strict_NoDup leb), U1|]. intros v. apply U2. }
    split; auto. pose proof HF as HF'. apply frac_ok_spec in HF' as [F B].
    pose proof (piv_idx_range frac n F B ltac:(lia)) as PR. fold idx in PR.
    destruct (nth_error D (Z.to_nat idx)) as [pivot|] eqn:EP.
    2: { apply nth_error_None in EP. unfold n, zlen in PR. lia. }
    exists pivot. split; auto.
    unfold ordered_split_series. rewrite HN, HF. cbn [negb py_assert bind].
    fold (cases (values S) srt uniq). rewrite cases_same by auto. fold D. fold n.
    destruct (frac_mul frac n F B ltac:(lia)) as (M & _ & _ & _ & R).
    rewrite trunc_floor by (rewrite M; apply R). rewrite M. fold (piv_idx frac n). fold idx.
    replace (0 <=? idx) with true by (symmetry; apply Z.leb_le; lia). cbn [py_assert bind].
    rewrite EP. unfold mean_le. fold n.
    rewrite (count_le_nth eqb leb eqb_ok leb_total leb_antisym leb_trans D _ _ U1 EP). rewrite Z2Nat.id by lia.
    pose proof (piv_enough frac n F B ltac:(lia)) as PE. fold idx in PE. rewrite PE. cbn [py_assert bind].
    destruct (idx =? 0) eqn:E0; [reflexivity|]. apply Z.eqb_neq in E0. cbn [orb].
    destruct (nth_error D (Z.to_nat (idx - 1))) as [q|] eqn:EQ.
    2: { apply nth_error_None in EQ. unfold n, zlen in PR. lia. }
    rewrite (count_le_nth eqb leb eqb_ok leb_total leb_antisym leb_trans D _ _ U1 EQ). rewrite Z2Nat.id by lia.
    replace (idx - 1 + 1) with idx by lia.
    destruct (fltb (fdiv (f_of_Z idx) (f_of_Z n)) frac); reflexivity.
  Qed.
End Values.

(** ** Linear split *)

Lemma fmin_spec a b : fisnan a = false -> fisnan b = false ->
  fisnan (fmin a b) = false /\ (fkey (fmin a b) = Rmin (fkey a) (fkey b)) /\ (fmin a b = a \/ fmin a b = b).
Proof.
  intros Na Nb. unfold fmin. rewrite Na, orb_false_r. destruct (fleb a b) eqn:E.
  - apply fleb_key in E; auto. rewrite Rmin_left by auto. auto.
  - apply fleb_false_lt in E; auto. rewrite Rmin_right by lra. auto.
Qed.
Lemma fmax_spec a b : fisnan a = false -> fisnan b = false ->
  fisnan (fmax a b) = false /\ (fkey (fmax a b) = Rmax (fkey a) (fkey b)) /\ (fmax a b = a \/ fmax a b = b).
Proof.
  intros Na Nb. unfold fmax. rewrite Na, orb_false_r. destruct (fleb b a) eqn:E.
  - apply fleb_key in E; auto. rewrite Rmax_left by auto. auto.
  - apply fleb_false_lt in E; auto. rewrite Rmax_right by lra. auto.
Qed.

Lemma fold_fmin l : forall a, fisnan a = false -> (forall v, In v l -> fisnan v = false) ->
  let m := fold_left fmin l a in
  fisnan m = false /\ In m (a :: l) /\ (forall v, In v (a :: l) -> (fkey m <= fkey v)%R).
Proof.
  induction l as [|b l IH]; intros a Na Hl; cbn zeta; cbn [fold_left].
  - split; auto. split; [now left|]. intros v [->|[]]. apply Rle_refl.
  - destruct (fmin_spec a b) as (N & K & E); auto; [apply Hl; now left|].
    destruct (IH (fmin a b)) as (N' & I & M); auto; [intros; apply Hl; now right|].
    split; auto. split.
    + destruct I as [I|I]; [|now right; right]. rewrite <- I.
      destruct E as [->| ->]; [now left|now right; left].
    + pose proof (M _ (or_introl eq_refl)) as M0. rewrite K in M0.
      intros v [->|[->|Iv]]; [| |apply M; now right].
      * eapply Rle_trans; [exact M0|apply Rmin_l].
      * eapply Rle_trans; [exact M0|apply Rmin_r].
Qed.
Lemma fold_fmax l : forall a, fisnan a = false -> (forall v, In v l -> fisnan v = false) ->
  let m := fold_left fmax l a in
  fisnan m = false /\ In m (a :: l) /\ (forall v, In v (a :: l) -> (fkey v <= fkey m)%R).
Proof.
  induction l as [|b l IH]; intros a Na Hl; cbn zeta; cbn [fold_left].
  - split; auto. split; [now left|]. intros v [->|[]]. apply Rle_refl.
  - destruct (fmax_spec a b) as (N & K & E); auto; [apply Hl; now left|].
    destruct (IH (fmax a b)) as (N' & I & M); auto; [intros; apply Hl; now right|].
    split; auto. split.
    + destruct I as [I|I]; [|now right; right]. rewrite <- I.
      destruct E as [->| ->]; [now left|now right; left].
    + pose proof (M _ (or_introl eq_refl)) as M0. rewrite K in M0.
      intros v [->|[->|Iv]]; [| |apply M; now right].
      * eapply Rle_trans; [|exact M0]. apply Rmax_l.
      * eapply Rle_trans; [|exact M0]. apply Rmax_r.
Qed.

(** The weights [frac] and [1 - frac] keep products finite. *)
Lemma unit_mul_fin w x : fisfin w = true -> (0 <= B2R w <= 1)%R -> fisfin x = true ->
  fisfin (fmul w x) = true /\ B2R (fmul w x) = rnd64 (B2R w * B2R x).
Proof.
  intros Fw Bw Fx. destruct (fmul_correct w x Fw Fx) as [V F]; auto.
  pose proof (abs_lt_emax x) as Hx. pose proof (B2R_format x) as Gx.
  assert (Rabs (B2R w * B2R x) <= Rabs (B2R x))%R as Hm.
  { rewrite Rabs_mult, (Rabs_pos_eq (B2R w)) by lra. pose proof (Rabs_pos (B2R x)). nra. }
  assert (format64 (Rabs (B2R x))) as GA by (apply generic_format_abs; exact Gx).
  apply Rle_lt_trans with (Rabs (B2R x)).
  - pose proof (Rabs_pos (B2R x)). apply Rabs_le. split.
    + apply rnd64_ge; [apply generic_format_opp, GA|]. apply Rabs_le_inv in Hm. lra.
    + apply rnd64_le; [exact GA|]. apply Rabs_le_inv in Hm. lra.
  - apply abs_B2R_lt_emax.
Qed.

Lemma one_minus_fin frac : fisfin frac = true -> (0 <= B2R frac <= 1)%R ->
  fisfin (fsub f1 frac) = true /\ B2R (fsub f1 frac) = rnd64 (1 - B2R frac) /\ (0 <= B2R (fsub f1 frac) <= 1)%R.
Proof.
  intros F B. destruct f1_val as [V1 F1].
  assert (0 <= rnd64 (1 - B2R frac) <= 1)%R as R.
  { split; [apply rnd64_ge; [apply format64_0|lra]|apply rnd64_le; [apply format64_1|lra]]. }
  destruct (fsub_correct f1 frac F1 F) as [V FF].
  - rewrite V1, Rabs_pos_eq by lra. pose proof bpow_emax_big. lra.
  - rewrite V1 in V. rewrite V. auto.
Qed.

Lemma linear_pivot_range start end_ frac :
  fisfin start = true -> fisfin end_ = true -> (B2R start <= B2R end_)%R ->
  fisfin frac = true -> (0 <= B2R frac <= 1)%R ->
  let p := linear_pivot start end_ frac in
  fisfin p = true /\ (B2R start <= B2R p <= B2R end_)%R.
Proof.
  intros Fs Fe L F B p.
  destruct (one_minus_fin frac F B) as (F1 & V1 & B1).
  destruct (unit_mul_fin (fsub f1 frac) start F1 B1 Fs) as [P1 _].
  destruct (unit_mul_fin frac end_ F B Fe) as [P2 _].
  pose proof (fadd_fin_notnan _ _ P1 P2) as NP.
  unfold p, linear_pivot.
  destruct (fmin_spec (fadd (fmul (fsub f1 frac) start) (fmul frac end_)) end_ NP (fisfin_notnan _ Fe)) as (N1 & K1 & E1).
  destruct (fmax_spec start _ (fisfin_notnan _ Fs) N1) as (N2 & K2 & E2).
  rewrite K1 in K2. rewrite !(fkey_fin start), !(fkey_fin end_) in K2 by auto.
  set (q := fadd _ _) in *.
  assert (B2R start <= fkey (fmax start (fmin q end_)) <= B2R end_)%R as R.
  { rewrite K2. split; [apply Rmax_l|]. apply Rmax_lub; auto. apply Rmin_r. }
  assert (fisfin (fmax start (fmin q end_)) = true) as FF.
  { destruct (fmax start (fmin q end_)) as [|[]| |]; try reflexivity; try discriminate;
      pose proof (abs_lt_emax start); pose proof (abs_lt_emax end_); cbn [fkey] in R; lra. }
  split; auto. rewrite fkey_fin in R by auto. exact R.
Qed.

(** Doubles that compare equal: the same double, or two zeros. *)
Definition feqv (x y : f64) : Prop := x = y \/ (exists s s', x = B754_zero s /\ y = B754_zero s').

Lemma feqv_of_B2R x y : fisfin x = true -> fisfin y = true -> B2R x = B2R y -> feqv x y.
Proof.
  intros Fx Fy E. destruct (Req_dec (B2R x) 0) as [Z|NZ].
  - right. destruct x as [s|?| |s m e H]; try discriminate.
    2: { exfalso. revert Z. apply B2R_neq_0 || (simpl; intros Z; apply eq_0_F2R in Z; destruct s; discriminate). }
    destruct y as [s'|?| |s' m e H]; try discriminate; [eauto|].
    exfalso. simpl in E. symmetry in E. apply eq_0_F2R in E. destruct s'; discriminate.
  - left. apply B2R_inj; auto.
    + destruct x; try discriminate; [contradiction NZ; reflexivity|reflexivity].
    + rewrite E in NZ. destruct y; try discriminate; [contradiction NZ; reflexivity|reflexivity].
Qed.

Lemma feqv_fin x y : feqv x y -> fisfin x = fisfin y.
Proof. intros [->|(s & s' & -> & ->)]; reflexivity. Qed.
Lemma feqv_nan x y : feqv x y -> fisnan x = fisnan y.
Proof. intros [->|(s & s' & -> & ->)]; reflexivity. Qed.
Lemma feqv_key x y : feqv x y -> fkey x = fkey y.
Proof. intros [->|(s & s' & -> & ->)]; reflexivity. Qed.
Lemma fleb_feqv x y x' y' : feqv x x' -> feqv y y' -> fleb x y = fleb x' y'.
Proof.
  intros [->|(s & s' & -> & ->)] [->|(t & t' & -> & ->)]; try reflexivity.
Qed.
Lemma fmul_feqv w x x' : feqv x x' -> feqv (fmul w x) (fmul w x').
Proof.
  intros [->|(s & s' & -> & ->)]; [now left|].
  destruct w; cbn; try (left; reflexivity); right; eauto.
Qed.
Lemma fadd_feqv x y x' y' : feqv x x' -> feqv y y' -> feqv (fadd x y) (fadd x' y').
Proof.
  intros [->|(s & s' & -> & ->)] [->|(t & t' & -> & ->)]; [now left| | |].
  - destruct x' as [u| | |]; cbn; try (left; reflexivity).
    right. destruct u, t, t'; cbn; eauto.
  - destruct y' as [u| | |]; cbn; try (left; reflexivity).
    right. destruct u, s, s'; cbn; eauto.
  - right. destruct s, s', t, t'; cbn; eauto.
Qed.
Lemma fmin_feqv x y x' y' : feqv x x' -> feqv y y' -> feqv (fmin x y) (fmin x' y').
Proof.
  intros H1 H2. unfold fmin. rewrite (fleb_feqv x y x' y' H1 H2), (feqv_nan _ _ H1).
  destruct (orb _ _); auto.
Qed.
Lemma fmax_feqv x y x' y' : feqv x x' -> feqv y y' -> feqv (fmax x y) (fmax x' y').
Proof.
  intros H1 H2. unfold fmax. rewrite (fleb_feqv y x y' x' H2 H1), (feqv_nan _ _ H1).
  destruct (orb _ _); auto.
Qed.

Lemma linear_pivot_feqv s e s' e' frac : feqv s s' -> feqv e e' ->
  feqv (linear_pivot s e frac) (linear_pivot s' e' frac).
Proof.
  intros Hs He. unfold linear_pivot. apply fmax_feqv; auto. apply fmin_feqv; auto.
  apply fadd_feqv; now apply fmul_feqv.
Qed.

(** The extremes used by the split. *)
Definition extremes (S : list f64) (srt : bool) : res (f64 * f64) :=
  if srt then match S with [] => Err IndexError | a :: _ => Ok (a, last S a) end
  else do s <- np_min S; do e <- np_max S; Ok (s, e).

Lemma existsb_fisnan S : existsb fisnan S = false <-> (forall v, In v S -> fisnan v = false).
Proof.
  split.
  - intros H v I. destruct (fisnan v) eqn:E; auto.
    assert (existsb fisnan S = true); [|congruence]. apply existsb_exists. eauto.
  - intros H. destruct (existsb fisnan S) eqn:E; auto. apply existsb_exists in E as (v & I & E).
    rewrite H in E by auto. discriminate.
Qed.

Lemma last_In {T} (l : list T) d : l <> [] -> In (last l d) l.
Proof.
  induction l as [|a l IH]; intros H; [contradiction|]. destruct l as [|b l]; [now left|].
  right. apply IH. discriminate.
Qed.

Lemma sorted_last l : forall d, StronglySorted (fun a b => fleb a b = true) l ->
  (forall v, In v l -> fisnan v = false) ->
  forall v, In v l -> fleb v (last l d) = true.
Proof.
  induction l as [|a l IH]; intros d S N v I; [destruct I|].
  inversion S as [|? ? S1 S2]; subst. rewrite Forall_forall in S2.
  destruct l as [|b l].
  - destruct I as [->|[]]. cbn. apply fleb_refl, N. now left.
  - change (last (a :: b :: l) d) with (last (b :: l) d).
    destruct I as [->|I].
    + apply S2. apply last_In. discriminate.
    + apply IH; auto. intros; apply N; now right.
Qed.

Lemma extremes_spec S srt : S <> [] -> (forall v, In v S -> fisnan v = false) ->
  (srt = true -> StronglySorted (fun a b => fleb a b = true) S) ->
  exists s e, extremes S srt = Ok (s, e) /\ In s S /\ In e S /\
    (forall v, In v S -> (fkey s <= fkey v <= fkey e)%R).
Proof.
  intros HE HN HS. destruct S as [|a S]; [contradiction|].
  destruct srt.
  - exists a, (last (a :: S) a). split; [reflexivity|].
    assert (In (last (a :: S) a) (a :: S)) as IL by (apply last_In; discriminate).
    split; [now left|]. split; [exact IL|]. intros v I.
    specialize (HS eq_refl). split.
    + inversion HS as [|? ? S1 S2]; subst. rewrite Forall_forall in S2.
      destruct I as [->|I]; [apply Rle_refl|]. apply fleb_key; auto; [apply HN; now left|apply HN; now right].
    + apply fleb_key; auto. apply sorted_last; auto.
  - unfold extremes, np_min, np_max. cbn [bind].
    destruct (fold_fmin S a) as (N1 & I1 & M1); [apply HN; now left|intros; apply HN; now right|].
    destruct (fold_fmax S a) as (N2 & I2 & M2); [apply HN; now left|intros; apply HN; now right|].
    exists (fold_left fmin S a), (fold_left fmax S a). split; [reflexivity|]. split; [auto|]. split; [auto|].
    intros v I. split; auto.
Qed.

Lemma linear_split_spec S frac srt uniq :
  S <> [] -> (forall v, In v S -> fisfin v = true) -> frac_ok frac = true ->
  (srt = true -> StronglySorted (fun a b => fleb a b = true) S) ->
  exists s e, extremes S srt = Ok (s, e) /\ In s S /\ In e S /\
    (forall v, In v S -> (B2R s <= B2R v <= B2R e)%R) /\
    linear_split_series S frac srt uniq = Ok (map (fun v => fleb v (linear_pivot s e frac)) S).
Proof.
  intros HE HF Hf HS.
  assert (forall v, In v S -> fisnan v = false) as HN by (intros; apply fisfin_notnan; auto).
  destruct (extremes_spec S srt HE HN HS) as (s & e & E & Is & Ie & M).
  exists s, e. split; [auto|]. split; [auto|]. split; [auto|].
  assert (forall v, In v S -> (B2R s <= B2R v <= B2R e)%R) as M'.
  { intros v I. rewrite <- !fkey_fin by auto. auto. }
  split; auto.
  unfold linear_split_series. rewrite (proj2 (existsb_fisnan S)) by auto. rewrite Hf.
  cbn [negb py_assert bind]. fold (extremes S srt). rewrite E. cbn [bind].
  rewrite (HF s Is), (HF e Ie). cbn [andb py_assert bind].
  apply frac_ok_spec in Hf as [F B].
  destruct (linear_pivot_range s e frac) as [FP [R1 R2]]; auto; [apply (M' e Ie)|].
  rewrite (proj2 (fleb_fin s _ (HF s Is) FP) R1), (proj2 (fleb_fin _ e FP (HF e Ie)) R2).
  reflexivity.
Qed.
