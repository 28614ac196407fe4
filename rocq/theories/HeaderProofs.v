(** adjust_headers. *)
From Coq Require Import Reals Lra ZifyBool ZifyNat ZifyN.
From Verif Require Import PyBase F64 Dec Sciprint Spec_Sciprint DecProofs DecRound FormatProofs EstimateProofs.
Open Scope Z_scope.

Lemma read_fmt_d k : read_number (fmt_d k) = Some (k <? 0, Z.to_N (Z.abs k), O).
Proof.
  unfold fmt_d. fold (dchars (digits (Z.to_N (Z.abs k)))). pose proof (read_number_digits (Z.to_N (Z.abs k))) as H.
  destruct (k <? 0); cbn [app str list_ascii_of_string]; [|exact H].
  pose proof (dchars_digit _ (digits_ok (Z.to_N (Z.abs k)))) as Hd.
  destruct (dchars (digits (Z.to_N (Z.abs k)))) as [|a t] eqn:E; [discriminate|].
  inversion Hd; subst. rewrite read_number_digit_head in H by assumption.
  cbn [read_number]. destruct (scan (a :: t) 0 None) as [[c kk]|]; [|discriminate].
  inversion H; subst. reflexivity.
Qed.

Lemma fmt_d_inj a b : fmt_d a = fmt_d b -> a = b.
Proof.
  intros H. apply (f_equal read_number) in H. rewrite !read_fmt_d in H. inversion H.
  destruct (Z.ltb_spec a 0), (Z.ltb_spec b 0); try discriminate; lia.
Qed.

Lemma prefix_power (tex : bool) k p :
  zdict_get (if tex then PREFIX_TEX else PREFIX) k = Some p -> si_power (string_of_list_ascii p) = Some k.
Proof.
  destruct tex; cbn [PREFIX PREFIX_TEX map Z.eqb zdict_get Z.opp Pos.eqb];
    repeat match goal with
           | |- context [Z.eqb k ?n] => destruct (Z.eqb_spec k n) as [->|]; [intros E; inversion E; reflexivity|]
           end; discriminate.
Qed.

Lemma prefix_complete (tex : bool) k sym : si_power sym = Some k ->
  exists p, zdict_get (if tex then PREFIX_TEX else PREFIX) k = Some p.
Proof.
  unfold si_power. intros H.
  repeat (match type of H with
          | context [match ?s with EmptyString => _ | String _ _ => _ end] => destruct s
          | context [match ?a with Ascii _ _ _ _ _ _ _ _ => _ end] => destruct a
          | context [if ?b then _ else _] => destruct b
          end; try discriminate H);
  inversion H; subst k; destruct tex; eexists; reflexivity.
Qed.

(** The text of the factor. *)
Definition factor (tex : bool) (num : pystr) : pystr :=
  if tex then str " $" ++ [TAB] ++ str "imes 10^{" ++ num ++ str "}$" else str " x 1e" ++ num.

Definition brace (tex : bool) (h : pystr) : pystr := if tex then str "{" ++ h ++ str "}" else h.

(** What an estimate header says about how displayed values relate to
    original ones. *)
Inductive header_says (tex : bool) (metric : pystr) (unit : option pystr) (use_prefix : bool) (sh : Z) (h : pystr) : Prop :=
| H_prefix u sym p (Hu : unit = Some u) (Hp : use_prefix = true)
    (Hh : h = brace tex (metric ++ str " (" ++ str sym ++ u ++ str ")"))
    (Hs : si_power sym = Some p) (Hv : forall v, (v * p10 sh * p10 p = v)%R)
| H_factor num (Hp : unit = None \/ use_prefix = false \/ forall sym, si_power sym <> Some (- sh))
    (Hh : h = brace tex (metric ++ factor tex num ++ match unit with None => [] | Some u => str " (" ++ u ++ str ")" end))
    (Hn : read_number num = Some (sh <? 0, Z.to_N (Z.abs sh), O)) (Hz : sh <> 0)
| H_none (Hp : unit = None \/ use_prefix = false)
    (Hh : h = brace tex (metric ++ match unit with None => [] | Some u => str " (" ++ u ++ str ")" end))
    (Hz : sh = 0).

Lemma str_roundtrip l : str (string_of_list_ascii l) = l.
Proof. apply list_ascii_of_string_of_list_ascii. Qed.

Lemma adjust_header_says tex metric unit use_prefix sh :
  header_says tex (replace_char "_" " " metric) unit use_prefix sh
              (adjust_header sh unit use_prefix tex metric EST_COL).
Proof.
  unfold adjust_header. set (m := replace_char "_" " " metric). cbn zeta.
  fold (brace tex).
  assert (Hfs : forall n, fmt_shift tex m n = m ++ factor tex (fmt_d n))
    by (intros n; unfold fmt_shift, factor; destruct tex; reflexivity).
  assert (Hb : forall h, (if tex then str "{" ++ h ++ str "}" else h) = brace tex h) by reflexivity.
  destruct unit as [u|].
  - destruct (if use_prefix then zdict_get (if tex then PREFIX_TEX else PREFIX) (- sh) else None) as [p|] eqn:E.
    + destruct use_prefix; [|discriminate]. apply prefix_power in E.
      eapply H_prefix; [reflexivity|reflexivity| |exact E|].
      * rewrite str_roundtrip. reflexivity.
      * intros v. rewrite Rmult_assoc, <- p10_plus. replace (sh + - sh) with 0 by lia. rewrite p10_0. ring.
    + destruct (Z.eqb_spec sh 0) as [->|Hz]; cbn [negb].
      * apply H_none; [|reflexivity|reflexivity]. destruct use_prefix; [|right; reflexivity].
        destruct tex; discriminate.
      * rewrite Hfs. apply H_factor with (num := fmt_d sh); [|rewrite Hb, <- app_assoc; reflexivity|apply read_fmt_d|exact Hz].
        right. destruct use_prefix; [|left; reflexivity]. right. intros sym Hsym.
        apply (prefix_complete tex) in Hsym. destruct Hsym as [p Hp]. congruence.
  - destruct (Z.eqb_spec sh 0) as [->|Hz]; cbn [negb].
    + apply H_none; [left; reflexivity|rewrite app_nil_r; reflexivity|reflexivity].
    + rewrite Hfs. apply H_factor with (num := fmt_d sh); [left; reflexivity|rewrite app_nil_r; reflexivity|apply read_fmt_d|exact Hz].
Qed.

(** The header determines the shift. *)
Lemma brace_inj tex a b : brace tex a = brace tex b -> a = b.
Proof.
  unfold brace. destruct tex; [|auto]. intros H. apply app_inv_head in H. apply app_inv_tail in H. exact H.
Qed.

Lemma read_number_sh a b n : read_number n = Some (a <? 0, Z.to_N (Z.abs a), O) ->
  read_number n = Some (b <? 0, Z.to_N (Z.abs b), O) -> a = b.
Proof.
  intros Ha Hb. rewrite Ha in Hb. inversion Hb.
  destruct (Z.ltb_spec a 0), (Z.ltb_spec b 0); try discriminate; lia.
Qed.

Lemma factor_inj tex a b t : factor tex a ++ t = factor tex b ++ t -> a = b.
Proof.
  intros H. apply app_inv_tail in H. unfold factor in H. destruct tex.
  - do 3 apply app_inv_head in H. apply app_inv_tail in H. exact H.
  - apply app_inv_head in H. exact H.
Qed.

Lemma p10_prefix sh p : (forall v, (v * p10 sh * p10 p = v)%R) -> p = - sh.
Proof.
  intros H. specialize (H 1%R). rewrite Rmult_1_l, <- p10_plus in H.
  rewrite <- p10_0 in H. apply Flocq.Core.Raux.bpow_inj in H. lia.
Qed.

Lemma header_says_inj tex m unit use_prefix sh1 sh2 h :
  header_says tex m unit use_prefix sh1 h -> header_says tex m unit use_prefix sh2 h -> sh1 = sh2.
Proof.
  intros H1 H2.
  assert (Hne : forall num x, factor tex num ++ x <> x).
  { intros num x Hx. apply (f_equal (@length ascii)) in Hx. rewrite app_length in Hx.
    unfold factor in Hx. destruct tex; cbn [length app str list_ascii_of_string] in Hx; lia. }
  destruct H1 as [u1 s1 p1 Hu1 Hp1 Hh1 Hs1 Hv1|n1 Hp1 Hh1 Hn1 Hz1|Hp1 Hh1 Hz1];
    destruct H2 as [u2 s2 p2 Hu2 Hp2 Hh2 Hs2 Hv2|n2 Hp2 Hh2 Hn2 Hz2|Hp2 Hh2 Hz2];
    rewrite Hh1 in Hh2; apply brace_inj, app_inv_head in Hh2;
    try (unfold factor in Hh2; destruct tex, unit; discriminate Hh2);
    try (exfalso; destruct Hp2 as [Hx|Hx]; congruence);
    try (exfalso; destruct Hp1 as [Hx|Hx]; congruence);
    try (exfalso; eapply Hne; exact Hh2);
    try (exfalso; eapply Hne; symmetry; exact Hh2).
  - rewrite Hu1 in Hu2. inversion Hu2; subst u2. apply app_inv_head in Hh2.
    apply app_inv_tail in Hh2.
    assert (Hss : s1 = s2).
    { rewrite <- (string_of_list_ascii_of_string s1), <- (string_of_list_ascii_of_string s2).
      f_equal. exact Hh2. }
    subst s2. apply p10_prefix in Hv1, Hv2. rewrite Hs1 in Hs2. inversion Hs2. lia.
  - apply factor_inj in Hh2. subst n2. eapply read_number_sh; eauto.
  - congruence.
Qed.

Lemma adjust_header_inj tex metric unit use_prefix sh1 sh2 :
  adjust_header sh1 unit use_prefix tex metric EST_COL = adjust_header sh2 unit use_prefix tex metric EST_COL ->
  sh1 = sh2.
Proof.
  intros E. apply (header_says_inj tex (replace_char "_" " " metric) unit use_prefix sh1 sh2
                     (adjust_header sh1 unit use_prefix tex metric EST_COL)).
  - apply adjust_header_says.
  - rewrite E. apply adjust_header_says.
Qed.

(** C14 *)
Lemma adjust_header_tex_no_command metric sh : sh <> 0 -> ~ In "\"%char metric ->
  let h := adjust_header sh None false true metric EST_COL in
  ~ In "\"%char h /\ In TAB h.
Proof.
  intros Hz Hm. unfold adjust_header. cbn zeta. destruct (Z.eqb_spec sh 0); [contradiction|]. cbn [negb].
  unfold fmt_shift. 
  assert (Hm' : ~ In "\"%char (replace_char "_" " " metric)).
  { unfold replace_char. intros H. apply in_map_iff in H. destruct H as (a & Ha & Hin).
    destruct (Ascii.eqb a "_"); [discriminate|]. subst. contradiction. }
  assert (Hd : ~ In "\"%char (fmt_d sh)).
  { unfold fmt_d. intros H. apply in_app_or in H. destruct H as [H|H].
    - destruct (sh <? 0); cbn in H; [|contradiction]. destruct H as [H|[]]. discriminate.
    - pose proof (dchars_digit _ (digits_ok (Z.to_N (Z.abs sh)))) as Hd. rewrite Forall_forall in Hd.
      specialize (Hd _ H). apply Hd. reflexivity. }
  split.
  - rewrite !in_app_iff. cbn [str list_ascii_of_string In TAB]. intuition discriminate.
  - rewrite !in_app_iff. right. left. right. right. left. left. reflexivity.
Qed.
