(** Proofs about print_estimate and print_pval. *)
From Coq Require Import Reals Lra ZifyBool ZifyNat ZifyN.
From Verif Require Import PyBase F64 Dec Sciprint Spec_Sciprint DecProofs DecRound FormatProofs.
Open Scope Z_scope.

Arguments Z.pow : simpl never.

(** ** Comparisons *)

Lemma d_lt_true x y : d_lt x y = Ok true <-> ext_lt x y.
Proof.
  destruct x as [s c e|a|], y as [s' c' e'|b|]; unfold d_lt; try rewrite d_cmp_R;
    cbn [d_cmp ext_lt]; try (split; [discriminate|tauto]).
  - destruct (Rcompare_spec (dR s c e) (dR s' c' e')); split; intros H'; try lra; try discriminate; auto.
  - destruct b; split; intros H; try discriminate; auto.
  - destruct a; split; intros H; try discriminate; auto.
  - destruct a, b; split; intros H; try discriminate; auto; destruct H; discriminate.
Qed.

Lemma d_lt_false x y : d_is_nan x = false -> d_is_nan y = false ->
  (d_lt x y = Ok false <-> ~ ext_lt x y).
Proof.
  intros Hx Hy. rewrite <- d_lt_true. unfold d_lt.
  destruct (d_cmp x y) as [[| |]|] eqn:E; split; intros H; try congruence; auto.
  all: destruct x, y; try discriminate; rewrite ?d_cmp_R in E; cbn in E; discriminate.
Qed.

Lemma d_le_true x y : d_is_nan x = false -> d_is_nan y = false ->
  (d_le x y = Ok true <-> ~ ext_lt y x).
Proof.
  intros Hx Hy. destruct x as [s c e|a|], y as [s' c' e'|b|]; try discriminate;
    unfold d_le; try rewrite d_cmp_R; cbn [d_cmp ext_lt].
  - destruct (Rcompare_spec (dR s c e) (dR s' c' e')); split; intros H'; try lra; try discriminate; auto.
  - destruct b; split; intros H; try discriminate; auto. exfalso; auto.
  - destruct a; split; intros H; try discriminate; auto. exfalso; auto.
  - destruct a, b; split; intros H; try discriminate; auto; try (intros [? ?]; discriminate).
    exfalso; auto.
Qed.

Lemma d_le_false x y : d_is_nan x = false -> d_is_nan y = false ->
  (d_le x y = Ok false <-> ext_lt y x).
Proof.
  intros Hx Hy. rewrite <- d_lt_true.
  destruct x as [s c e|a|], y as [s' c' e'|b|]; try discriminate;
    unfold d_le, d_lt; rewrite ?d_cmp_R; cbn [d_cmp].
  - rewrite (Rcompare_sym (dR s' c' e') (dR s c e)).
    destruct (Rcompare_spec (dR s c e) (dR s' c' e')); cbn [CompOpp]; split; congruence.
  - destruct b; split; congruence.
  - destruct a; split; congruence.
  - destruct a, b; split; congruence.
Qed.

Lemma d_le_zero_fin s c e : d_le D_ZERO (DFin s c e) = Ok (negb s || N.eqb c 0)%bool.
Proof.
  assert (Hz : dR false 0 0 = 0%R) by apply d_plus_dR_zero.
  destruct (negb s || N.eqb c 0)%bool eqn:E.
  - apply d_le_true; auto. unfold D_ZERO, ext_lt. rewrite Hz. rewrite dR_sval.
    pose proof (p10_pos e). assert (0 <= sval s c) by (unfold sval; destruct s; lia).
    apply IZR_le in H0. nra.
  - apply d_le_false; auto. unfold D_ZERO, ext_lt. rewrite Hz, dR_sval.
    pose proof (p10_pos e). assert (sval s c < 0) by (unfold sval; destruct s; lia).
    apply IZR_lt in H0. nra.
Qed.

(** ** The asserts on the clip limits *)

Lemma clip_ok_asserts mn mx : clip_ok mn mx ->
  (d_eq mn D_NINF || d_is_finite mn)%bool = true /\
  (d_eq mx D_INF || d_is_finite mx)%bool = true /\ d_lt mn mx = Ok true /\
  d_is_nan mn = false /\ d_is_nan mx = false.
Proof.
  intros (Hmn & Hmx & Hlt).
  destruct Hmn as [->|(s & c & e & ->)], Hmx as [->|(s' & c' & e' & ->)];
    repeat split; try apply d_lt_true; auto; cbn [d_is_finite]; rewrite ?orb_true_r; auto.
Qed.

Lemma clip_default : clip_ok D_NINF D_INF.
Proof. repeat split; auto. Qed.

(** What print_estimate does for a finite, unclipped mean. *)
Definition pe_core (s : bool) (c : N) (e : Z) (EB : dec) (shift : Z) : res pystr :=
  let ms := d_scaleb (DFin s c e) shift in
  if negb (decimal_to_dot ms) then Err ValueError
  else match EB with
       | DFin sb cb eb =>
           if negb ((N.eqb cb 0 || (e =? eb)) && (negb sb || N.eqb cb 0))%bool then Err AssertionError
           else Ok (d_format ms ++ str "(" ++ dchars (digits cb) ++ str ")")
       | _ => Ok (d_format ms)
       end.

Lemma scaleb_fin s c e k : exists c' e', d_scaleb (DFin s c e) k = DFin s c' e'.
Proof.
  cbn [d_scaleb]. destruct (d_fix_spec default_prec ROUND_HALF_EVEN s c (e + k)) as (q & e' & -> & _);
    [unfold default_prec; lia|eauto].
Qed.

Lemma scaleb_small s c e k : Z.of_N c < 10 ^ 28 -> d_scaleb (DFin s c e) k = DFin s c (e + k).
Proof.
  intros H. cbn [d_scaleb]. unfold d_fix, default_prec.
  apply ndig_le_iff in H; [|lia]. destruct (Z.leb_spec (ndig c) 28); [reflexivity|lia].
Qed.

Lemma mem_char_app x a b : mem_char x (a ++ b) = (mem_char x a || mem_char x b)%bool.
Proof. unfold mem_char. apply existsb_app. Qed.

Lemma dchars_num l : Forall digit_ok l -> Forall num_char (dchars l).
Proof. intros H. eapply Forall_impl; [|apply dchars_digit, H]. unfold num_char. auto. Qed.

Lemma print_estimate_fin mn mx s c e EB shift nf :
  clip_ok mn mx -> ~ ext_lt mx (DFin s c e) -> ~ ext_lt (DFin s c e) mn ->
  print_estimate (DFin s c e) EB shift mn mx nf = pe_core s c e EB shift.
Proof.
  intros Hc Ha Hb. destruct (clip_ok_asserts mn mx Hc) as (H1 & H2 & H3 & Hn1 & Hn2).
  unfold print_estimate. rewrite H1, H2. cbn [py_assert bind]. rewrite H3. cbn [py_assert bind].
  cbn [d_is_nan negb].
  apply d_lt_false in Ha; [|assumption|reflexivity]. rewrite Ha. cbn [bind].
  apply d_lt_false in Hb; [|reflexivity|assumption]. rewrite Hb. cbn [bind].
  unfold pe_core. cbn zeta. destruct (scaleb_fin s c e shift) as (c' & e' & Hs). rewrite Hs.
  destruct (negb (decimal_to_dot (DFin s c' e'))); [reflexivity|].
  assert (HnE : mem_char "E" (d_format (DFin s c' e')) = false).
  { apply num_char_no; [apply d_format_chars|reflexivity|discriminate|discriminate|discriminate]. }
  destruct EB as [sb cb eb|b|]; cbn [d_is_finite bind].
  - cbn [d_is_zero]. rewrite d_le_zero_fin. cbn [digit_str as_tuple_chk bind].
    destruct (N.eqb_spec cb 0) as [E|E]; cbn [bind py_assert orb andb].
    + rewrite orb_true_r. cbn [bind py_assert negb].
      unfold GEN_FMT. fold (dchars (digits cb)).
      rewrite !mem_char_app, HnE.
      rewrite (num_char_no "E" (dchars (digits cb))); [|apply dchars_num, digits_ok|reflexivity|discriminate|discriminate|discriminate].
      cbn. reflexivity.
    + destruct (e =? eb); cbn [bind py_assert andb negb]; [|reflexivity].
      rewrite orb_false_r. destruct sb; cbn [negb bind py_assert]; [reflexivity|].
      unfold GEN_FMT. fold (dchars (digits cb)).
      rewrite !mem_char_app, HnE.
      rewrite (num_char_no "E" (dchars (digits cb))); [|apply dchars_num, digits_ok|reflexivity|discriminate|discriminate|discriminate].
      cbn. reflexivity.
  - unfold GEN_FMT. rewrite HnE. reflexivity.
  - unfold GEN_FMT. rewrite HnE. reflexivity.
Qed.

(** Value of the number read back. *)
Lemma dR_pow10 s c e : 0 <= e -> dR s (c * pow10 e) 0 = dR s c e.
Proof.
  intros H. rewrite (dR_scale s c 0 e) by exact H. rewrite dR_sval. f_equal. f_equal.
  unfold sval. rewrite N2Z.inj_mul, Zpow_N by exact H. replace (e - 0) with e by lia. destruct s; lia.
Qed.

Lemma dR_shift s c e k : dR s c (e + k) = (dR s c e * p10 k)%R.
Proof. rewrite !dR_sval, p10_plus. ring. Qed.

Definition err_digits_of (EB : dec) : option N :=
  match EB with DFin _ c _ => Some c | _ => None end.

Lemma read_estimate_core s c e EB :
  read_estimate (match EB with
                 | DFin _ cb _ => d_format (DFin s c e) ++ str "(" ++ dchars (digits cb) ++ str ")"
                 | _ => d_format (DFin s c e)
                 end)
  = option_map (fun r => (r, err_digits_of EB)) (read_number (d_format (DFin s c e))).
Proof.
  assert (Hp : mem_char "(" (d_format (DFin s c e)) = false).
  { apply num_char_no; [apply d_format_chars|reflexivity|discriminate|discriminate|discriminate]. }
  unfold read_estimate.
  destruct EB as [sb cb eb|b|].
  - change (str "(" ++ dchars (digits cb) ++ str ")") with ("(" :: (dchars (digits cb) ++ [")"]))%char.
    rewrite split_paren_some by exact Hp. rewrite strip_close_app, read_number_digits.
    destruct (read_number (d_format (DFin s c e))); reflexivity.
  - rewrite split_paren_none by exact Hp. destruct (read_number _); reflexivity.
  - rewrite split_paren_none by exact Hp. destruct (read_number _); reflexivity.
Qed.

(** C01 *)
Lemma print_estimate_roundtrip s c e EB shift mn mx nf :
  Z.of_N c < 10 ^ 28 -> e + shift <= 0 -> err_ok EB e ->
  clip_ok mn mx -> ~ ext_lt mx (DFin s c e) -> ~ ext_lt (DFin s c e) mn ->
  exists out k, print_estimate (DFin s c e) EB shift mn mx nf = Ok out
    /\ k = Z.to_nat (- (e + shift))
    /\ read_estimate out = Some ((s, c, k), err_digits_of EB)
    /\ dR s c (- Z.of_nat k) = (dR s c e * p10 shift)%R
    /\ (forall sb cb eb, EB = DFin sb cb eb ->
          dR false cb (- Z.of_nat k) = (dR sb cb eb * p10 shift)%R).
Proof.
  intros Hc He Herr Hclip Ha Hb. rewrite print_estimate_fin by assumption.
  unfold pe_core. rewrite scaleb_small by exact Hc. cbn zeta. cbn [decimal_to_dot].
  destruct (Z.leb_spec (e + shift) 0) as [_|]; [|lia]. cbn [negb].
  pose proof (read_estimate_core s c (e + shift) EB) as Hr.
  assert (Hn : read_number (d_format (DFin s c (e + shift))) = Some (s, c, Z.to_nat (- (e + shift)))).
  { rewrite read_number_format. destruct (Z.leb_spec 0 (e + shift)) as [H0|H0]; [|reflexivity].
    replace (e + shift) with 0 by lia. unfold pow10. cbn [Z.to_N Z.opp Z.to_nat].
    rewrite N.pow_0_r, N.mul_1_r. reflexivity. }
  rewrite Hn in Hr. cbn [option_map] in Hr.
  assert (Hk : - Z.of_nat (Z.to_nat (- (e + shift))) = e + shift) by lia.
  destruct EB as [sb cb eb|b|].
  - assert (Hg : negb ((N.eqb cb 0 || (e =? eb)) && (negb sb || N.eqb cb 0))%bool = false).
    { cbn [err_ok] in Herr. destruct Herr as [->|[-> ->]]; cbn.
      - rewrite orb_true_r. reflexivity.
      - rewrite Z.eqb_refl, orb_true_r. reflexivity. }
    rewrite Hg. eexists _, _. split; [reflexivity|]. split; [reflexivity|]. split; [exact Hr|].
    rewrite Hk. split; [apply dR_shift|]. intros sb' cb' eb' E. inversion E; subst.
    cbn [err_ok] in Herr. destruct Herr as [->|[-> ->]].
    + rewrite !d_plus_dR_zero. lra.
    + apply dR_shift.
  - eexists _, _. split; [reflexivity|]. split; [reflexivity|]. split; [exact Hr|].
    rewrite Hk. split; [apply dR_shift|]. discriminate.
  - eexists _, _. split; [reflexivity|]. split; [reflexivity|]. split; [exact Hr|].
    rewrite Hk. split; [apply dR_shift|]. discriminate.
Qed.

(** C02 *)
Lemma print_estimate_error_iff s c e EB shift mn mx nf :
  Z.of_N c < 10 ^ 28 -> err_ok EB e ->
  clip_ok mn mx -> ~ ext_lt mx (DFin s c e) -> ~ ext_lt (DFin s c e) mn ->
  (print_estimate (DFin s c e) EB shift mn mx nf = Err ValueError <-> 0 < e + shift)
  /\ (e + shift <= 0 -> exists out, print_estimate (DFin s c e) EB shift mn mx nf = Ok out
                        /\ ~ In "E"%char out).
Proof.
  intros Hc Herr Hclip Ha Hb. rewrite print_estimate_fin by assumption.
  unfold pe_core. rewrite scaleb_small by exact Hc. cbn zeta. cbn [decimal_to_dot].
  assert (Hg : match EB with DFin sb cb eb => negb ((N.eqb cb 0 || (e =? eb)) && (negb sb || N.eqb cb 0))%bool = false | _ => True end).
  { destruct EB as [sb cb eb|b|]; auto. cbn [err_ok] in Herr. destruct Herr as [->|[-> ->]]; cbn.
    - rewrite orb_true_r. reflexivity.
    - rewrite Z.eqb_refl, orb_true_r. reflexivity. }
  destruct (Z.leb_spec (e + shift) 0) as [H|H]; cbn [negb].
  - assert (HnE : mem_char "E" (d_format (DFin s c (e + shift))) = false).
    { apply num_char_no; [apply d_format_chars|reflexivity|discriminate|discriminate|discriminate]. }
    assert (Hin : forall l, mem_char "E" l = false -> ~ In "E"%char l).
    { intros l Hl Hi. unfold mem_char in Hl. assert (existsb (Ascii.eqb "E") l = true); [|congruence].
      apply existsb_exists. exists "E"%char. split; [exact Hi|reflexivity]. }
    split.
    + split; [|lia]. intros Habs. destruct EB; [rewrite Hg in Habs|..]; discriminate.
    + intros _. destruct EB as [sb cb eb|b|].
      * rewrite Hg. eexists. split; [reflexivity|]. apply Hin. rewrite !mem_char_app, HnE.
        rewrite (num_char_no "E" (dchars (digits cb))); [|apply dchars_num, digits_ok|reflexivity|discriminate|discriminate|discriminate].
        reflexivity.
      * eexists. split; [reflexivity|]. apply Hin, HnE.
      * eexists. split; [reflexivity|]. apply Hin, HnE.
  - split; [|lia]. split; [lia|reflexivity].
Qed.

(** Any number of digits: the outcome is a text without 'E' or ValueError. *)
Lemma print_estimate_outcome s c e EB shift mn mx nf :
  err_ok EB e -> clip_ok mn mx -> ~ ext_lt mx (DFin s c e) -> ~ ext_lt (DFin s c e) mn ->
  print_estimate (DFin s c e) EB shift mn mx nf = Err ValueError \/
  exists out, print_estimate (DFin s c e) EB shift mn mx nf = Ok out /\ mem_char "E" out = false.
Proof.
  intros Herr Hclip Ha Hb. rewrite print_estimate_fin by assumption. unfold pe_core. cbn zeta.
  destruct (scaleb_fin s c e shift) as (c' & e' & Hs). rewrite Hs.
  destruct (negb (decimal_to_dot (DFin s c' e'))); [left; reflexivity|right].
  assert (HnE : mem_char "E" (d_format (DFin s c' e')) = false).
  { apply num_char_no; [apply d_format_chars|reflexivity|discriminate|discriminate|discriminate]. }
  destruct EB as [sb cb eb|b|]; [|eauto|eauto].
  assert (Hg : negb ((N.eqb cb 0 || (e =? eb)) && (negb sb || N.eqb cb 0))%bool = false).
  { cbn [err_ok] in Herr. destruct Herr as [->|[-> ->]]; cbn.
    - rewrite orb_true_r. reflexivity.
    - rewrite Z.eqb_refl, orb_true_r. reflexivity. }
  rewrite Hg. eexists. split; [reflexivity|]. rewrite !mem_char_app, HnE.
  rewrite (num_char_no "E" (dchars (digits cb))); [|apply dchars_num, digits_ok|reflexivity|discriminate|discriminate|discriminate].
  reflexivity.
Qed.

(** C03 *)
Lemma read_number_scaleb s c e shift : Z.of_N c < 10 ^ 28 ->
  exists c' k, read_number (d_format (d_scaleb (DFin s c e) shift)) = Some (s, c', k)
               /\ dR s c' (- Z.of_nat k) = (dR s c e * p10 shift)%R.
Proof.
  intros Hc. rewrite scaleb_small by exact Hc. rewrite read_number_format.
  destruct (Z.leb_spec 0 (e + shift)) as [H|H].
  - eexists _, _. split; [reflexivity|]. cbn [Z.of_nat Z.opp]. rewrite dR_pow10 by exact H. apply dR_shift.
  - eexists _, _. split; [reflexivity|]. replace (- Z.of_nat (Z.to_nat (- (e + shift)))) with (e + shift) by lia.
    apply dR_shift.
Qed.

Lemma print_estimate_above mu EB shift mn s c e nf :
  clip_ok mn (DFin s c e) -> Z.of_N c < 10 ^ 28 -> ext_lt (DFin s c e) mu ->
  exists txt c' k, print_estimate mu EB shift mn (DFin s c e) nf = Ok (">"%char :: txt)
    /\ read_number txt = Some (s, c', k) /\ dR s c' (- Z.of_nat k) = (dR s c e * p10 shift)%R.
Proof.
  intros Hclip Hc Hlt. destruct (clip_ok_asserts _ _ Hclip) as (H1 & H2 & H3 & Hn1 & Hn2).
  assert (Hmu : d_is_nan mu = false) by (destruct mu; cbn in *; auto; contradiction).
  unfold print_estimate. rewrite H1, H2. cbn [py_assert bind]. rewrite H3. cbn [py_assert bind].
  rewrite Hmu. cbn [negb]. apply d_lt_true in Hlt. rewrite Hlt. cbn [bind d_is_finite py_assert].
  destruct (read_number_scaleb s c e shift Hc) as (c' & k & Hr & Hv).
  exists (d_format (d_scaleb (DFin s c e) shift)), c', k. auto.
Qed.

Lemma print_estimate_below mu EB shift s c e mx nf :
  clip_ok (DFin s c e) mx -> Z.of_N c < 10 ^ 28 -> ext_lt mu (DFin s c e) ->
  exists txt c' k, print_estimate mu EB shift (DFin s c e) mx nf = Ok ("<"%char :: txt)
    /\ read_number txt = Some (s, c', k) /\ dR s c' (- Z.of_nat k) = (dR s c e * p10 shift)%R.
Proof.
  intros Hclip Hc Hlt. destruct (clip_ok_asserts _ _ Hclip) as (H1 & H2 & H3 & Hn1 & Hn2).
  assert (Hmu : d_is_nan mu = false) by (destruct mu; cbn in *; auto; contradiction).
  unfold print_estimate. rewrite H1, H2. cbn [py_assert bind]. rewrite H3. cbn [py_assert bind].
  rewrite Hmu. cbn [negb].
  assert (Hna : ~ ext_lt mx mu).
  { destruct Hclip as (_ & Hmx & Hlt'). intros Habs.
    destruct Hmx as [->|(s2 & c2 & e2 & ->)]; destruct mu as [s1 c1 e1|b1|]; cbn in *;
      try contradiction; try discriminate; try lra; intuition congruence. }
  apply d_lt_false in Hna; auto. rewrite Hna. cbn [bind].
  apply d_lt_true in Hlt. rewrite Hlt. cbn [bind d_is_finite py_assert].
  destruct (read_number_scaleb s c e shift Hc) as (c' & k & Hr & Hv).
  exists (d_format (d_scaleb (DFin s c e) shift)), c', k. auto.
Qed.

Lemma format_head s c e : exists a t, d_format (DFin s c e) = a :: t /\ (is_digit_char a \/ a = "-"%char).
Proof.
  rewrite d_format_unfold. destruct (unsigned_format_head c e) as (a & t & -> & Ha).
  destruct s; cbn; eauto.
Qed.

Lemma print_estimate_unmarked s c e EB shift mn mx nf out :
  clip_ok mn mx -> ~ ext_lt mx (DFin s c e) -> ~ ext_lt (DFin s c e) mn ->
  print_estimate (DFin s c e) EB shift mn mx nf = Ok out ->
  exists a t, out = a :: t /\ a <> ">"%char /\ a <> "<"%char.
Proof.
  intros Hclip Ha Hb. rewrite print_estimate_fin by assumption. unfold pe_core. cbn zeta.
  destruct (scaleb_fin s c e shift) as (c' & e' & Hs). rewrite Hs.
  destruct (negb (decimal_to_dot (DFin s c' e'))); [discriminate|].
  destruct (format_head s c' e') as (a & t & Hf & Hh). rewrite Hf.
  assert (Ha' : a <> ">"%char /\ a <> "<"%char).
  { destruct Hh as [Hd| ->]; [|split; discriminate]. unfold is_digit_char in Hd.
    split; intros ->; apply Hd; reflexivity. }
  destruct EB as [sb cb eb|b|].
  - destruct (negb _); [discriminate|]. intros H; inversion H; subst. cbn. eauto.
  - intros H; inversion H; subst. eauto.
  - intros H; inversion H; subst. eauto.
Qed.
