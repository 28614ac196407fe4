(** format_table: success, truthfulness, no-shift mode. *)
From Coq Require Import Reals Lra ZifyBool ZifyNat ZifyN Permutation Sorted.
From Flocq Require Import Core BinarySingleNaN.
From Verif Require Import PyBase F64 Dec Sciprint Spec_Sciprint DecProofs DecRound FormatProofs EstimateProofs DecimalizeProofs ShiftProofs TableProofs.
Open Scope Z_scope.

Arguments Z.pow : simpl never.

(** Display limits as decimals. *)
Definition min_dec (k : option Z) : dec :=
  match k with Some k => DFin true 1 k | None => DInf true end.

Lemma limit_expo_min d metric : decimal_1ek (limit_expo d metric) true = min_dec (dict_get d metric).
Proof. unfold limit_expo, decimal_1ek, min_dec. destruct (dict_get d metric); reflexivity. Qed.

Lemma dR_neg1 k : dR true 1 k = (- p10 k)%R.
Proof. rewrite dR_sval. cbn. lra. Qed.

Lemma limits_clip_ok a b : clip_ok (min_dec a) (limit_dec b).
Proof.
  unfold clip_ok. destruct a as [a|], b as [b|]; cbn [min_dec limit_dec ext_lt].
  - split; [right; eauto|]. split; [right; eauto|]. rewrite dR_neg1, dR_1.
    pose proof (p10_pos a). pose proof (p10_pos b). lra.
  - split; [right; eauto|]. split; [left; reflexivity|]. reflexivity.
  - split; [left; reflexivity|]. split; [right; eauto|]. reflexivity.
  - split; [left; reflexivity|]. split; [left; reflexivity|]. split; reflexivity.
Qed.

Lemma ext_lt_dec x y : {ext_lt x y} + {~ ext_lt x y}.
Proof.
  destruct x as [s c e|a|], y as [s' c' e'|b|]; cbn [ext_lt]; try (right; intros []; fail).
  - apply Rlt_dec.
  - destruct b; [right; discriminate|left; reflexivity].
  - destruct a; [left; reflexivity|right; discriminate].
  - destruct a, b; [right; intros []; discriminate|left; auto|right; intros []; discriminate|right; intros []; discriminate].
Qed.

(** ** Rows *)

Definition row := (pystr * (dec * dec * dec))%type.
Definition rmean (r : row) : dec := let '(_, (mu, _, _)) := r in mu.
Definition rerr (r : row) : dec := let '(_, (_, EB, _)) := r in EB.
Definition rpval (r : row) : dec := let '(_, (_, _, p)) := r in p.

Definition est_ok (mu EB : dec) : Prop :=
  exists s c e, mu = DFin s c e /\ Z.of_N c < 10 ^ 28 /\ err_ok EB e.
Definition pv_ok (pd : Z) (p : dec) : Prop :=
  p = DNaN \/ exists s q, p = DFin s q (- pd) /\ (0 <= dR s q (- pd) <= 1)%R /\ (q <> 0%N -> s = false).
Definition row_ok (pd : Z) (r : row) : Prop := est_ok (rmean r) (rerr r) /\ pv_ok pd (rpval r).

Definition clipped (mn mx mu : dec) : Prop := ext_lt mx mu \/ ext_lt mu mn.

Lemma clipped_dec mn mx mu : {clipped mn mx mu} + {~ clipped mn mx mu}.
Proof.
  unfold clipped. destruct (ext_lt_dec mx mu); [left; auto|]. destruct (ext_lt_dec mu mn); [left; auto|].
  right. tauto.
Qed.

Lemma print_clipped a b mu EB sh nf : clipped (min_dec a) (limit_dec b) mu ->
  exists txt, print_estimate mu EB sh (min_dec a) (limit_dec b) nf = Ok txt.
Proof.
  pose proof (limits_clip_ok a b) as Hc. intros [H|H].
  - destruct b as [b|]; cbn [limit_dec] in *; [|destruct mu; cbn in H; try contradiction; try discriminate; destruct H; discriminate].
    destruct (print_estimate_above mu EB sh (min_dec a) false 1 b nf Hc) as (t & c' & k & Hp & _); [lia|exact H|eauto].
  - destruct a as [a|]; cbn [min_dec] in *; [|destruct mu; cbn in H; try contradiction; try discriminate; destruct H; discriminate].
    destruct (print_estimate_below mu EB sh true 1 a (limit_dec b) nf Hc) as (t & c' & k & Hp & _); [lia|exact H|eauto].
Qed.

Lemma print_estimate_cases a b mu EB sh nf : est_ok mu EB ->
  ((clipped (min_dec a) (limit_dec b) mu \/ known_to_dot mu sh) ->
     exists txt, print_estimate mu EB sh (min_dec a) (limit_dec b) nf = Ok txt) /\
  (~ clipped (min_dec a) (limit_dec b) mu -> ~ known_to_dot mu sh ->
     print_estimate mu EB sh (min_dec a) (limit_dec b) nf = Err ValueError).
Proof.
  intros (s & c & e & -> & Hc & He). split.
  - intros H. destruct (clipped_dec (min_dec a) (limit_dec b) (DFin s c e)) as [Hcl|Hcl]; [apply print_clipped; exact Hcl|].
    destruct H as [H|H]; [contradiction|]. cbn in H.
    destruct (print_estimate_error_iff s c e EB sh (min_dec a) (limit_dec b) nf Hc He (limits_clip_ok a b)) as [_ Hx];
      [intros Hx; apply Hcl; left; exact Hx|intros Hx; apply Hcl; right; exact Hx|].
    destruct (Hx H) as (out & Ho & _). eauto.
  - intros Hcl Hk. cbn in Hk.
    apply (print_estimate_error_iff s c e EB sh (min_dec a) (limit_dec b) nf Hc He (limits_clip_ok a b));
      [intros Hx; apply Hcl; left; exact Hx|intros Hx; apply Hcl; right; exact Hx|lia].
Qed.

(** The printed text begins with a digit, a sign or a clip marker. *)
Lemma print_head_ok a b mu EB sh nf txt : est_ok mu EB ->
  print_estimate mu EB sh (min_dec a) (limit_dec b) nf = Ok txt -> point_pos txt <> O.
Proof.
  intros (s & c & e & -> & Hc & He) Hp.
  assert (Hh : exists x t, txt = x :: t /\ x <> "."%char /\ x <> "("%char).
  { destruct (ext_lt_dec (limit_dec b) (DFin s c e)) as [Hcl|Ha].
    - destruct b as [b|]; [|cbn in Hcl; discriminate].
      destruct (print_estimate_above (DFin s c e) EB sh (min_dec a) false 1 b nf (limits_clip_ok a (Some b))) as (t & c' & k & Hp' & _);
        [lia|exact Hcl|]. cbn [limit_dec] in Hp. rewrite Hp' in Hp. inversion Hp. eexists _, _. split; [reflexivity|]. split; discriminate.
    - destruct (ext_lt_dec (DFin s c e) (min_dec a)) as [Hcl|Hb].
      + destruct a as [a|]; [|cbn in Hcl; discriminate].
        destruct (print_estimate_below (DFin s c e) EB sh true 1 a (limit_dec b) nf (limits_clip_ok (Some a) b)) as (t & c' & k & Hp' & _);
          [lia|exact Hcl|]. cbn [min_dec] in Hp. rewrite Hp' in Hp. inversion Hp. eexists _, _. split; [reflexivity|]. split; discriminate.
      + rewrite print_estimate_fin in Hp by (apply limits_clip_ok || assumption).
        unfold pe_core in Hp. cbn zeta in Hp.
        destruct (scaleb_fin s c e sh) as (c' & e' & Hs). rewrite Hs in Hp.
        destruct (negb (decimal_to_dot (DFin s c' e'))); [discriminate|].
        destruct (format_head s c' e') as (x & t & Hf & Hh). rewrite Hf in Hp.
        assert (Hx : x <> "."%char /\ x <> "("%char).
        { destruct Hh as [Hd| ->]; [|split; discriminate]. unfold is_digit_char in Hd.
          split; intros ->; apply Hd; reflexivity. }
        destruct EB as [sb cb eb|bb|].
        * destruct (negb _) in Hp; [discriminate|]. inversion Hp. eexists _, _. split; [reflexivity|exact Hx].
        * inversion Hp. eexists _, _. split; [reflexivity|exact Hx].
        * inversion Hp. eexists _, _. split; [reflexivity|exact Hx]. }
  destruct Hh as (x & t & -> & H1 & H2). unfold point_pos.
  destruct (mem_char "." (x :: t)); cbn [index_or_end].
  - destruct (Ascii.eqb_spec x "."); [contradiction|discriminate].
  - destruct (Ascii.eqb_spec x "("); [contradiction|discriminate].
Qed.

Lemma print_pval_ok pd p nf : pv_ok pd p -> exists txt, print_pval p nf = Ok txt.
Proof.
  intros [->|(s & q & -> & H01 & Hs)]; [eexists; reflexivity|].
  rewrite print_pval_fin by assumption. eauto.
Qed.

(** ** The mask of unclipped rows *)

Definition in_clip (mn mx mu : dec) : bool :=
  if clipped_dec mn mx mu then false else true.

Lemma clip_mask_spec mn mx means : d_is_nan mn = false -> d_is_nan mx = false ->
  Forall (fun mu => d_is_nan mu = false) means ->
  clip_mask mn mx means = Ok (map (in_clip mn mx) means).
Proof.
  intros Hn Hx Hm. unfold clip_mask.
  rewrite (mapM_ext_in _ (fun mu => Ok (if ext_lt_dec mu mn then false else true))).
  2:{ intros mu Hi. rewrite Forall_forall in Hm. specialize (Hm _ Hi).
      destruct (ext_lt_dec mu mn); [apply d_le_false|apply d_le_true]; auto. }
  rewrite mapM_Ok. cbn [bind].
  rewrite (mapM_ext_in _ (fun mu => Ok (if ext_lt_dec mx mu then false else true))).
  2:{ intros mu Hi. rewrite Forall_forall in Hm. specialize (Hm _ Hi).
      destruct (ext_lt_dec mx mu); [apply d_le_false|apply d_le_true]; auto. }
  rewrite mapM_Ok. cbn [bind]. f_equal. clear. induction means as [|m l IH]; cbn; [reflexivity|].
  f_equal; [|exact IH]. unfold in_clip.
  destruct (clipped_dec mn mx m) as [H|H]; unfold clipped in H;
    destruct (ext_lt_dec mx m), (ext_lt_dec m mn); try reflexivity; exfalso; tauto.
Qed.

Lemma select_map {A B} (f : A -> bool) (g : A -> B) l :
  select (map f l) (map g l) = map g (filter f l).
Proof.
  unfold select. induction l as [|a l IH]; cbn; [reflexivity|].
  destruct (f a); cbn; rewrite IH; reflexivity.
Qed.

Lemma combine_map {A B C} (f : A -> B) (g : A -> C) l :
  combine (map f l) (map g l) = map (fun a => (f a, g a)) l.
Proof. induction l as [|a l IH]; cbn; congruence. Qed.

Lemma all_same_const k l : Forall (fun x => x = k) l -> all_same l = true.
Proof.
  destruct l as [|a l]; [reflexivity|]. intros H. unfold all_same. apply forallb_forall.
  rewrite Forall_forall in H. intros x Hx. rewrite (H x Hx), (H a) by (left; reflexivity). apply Z.eqb_refl.
Qed.

Lemma finite_expos_ok pd l : Forall (pv_ok pd) l -> all_same (finite_expos l) = true.
Proof.
  intros H. apply (all_same_const (- pd)). unfold finite_expos. apply Forall_flat_map.
  eapply Forall_impl; [|exact H]. intros p [->|(s & q & -> & _)]; auto.
Qed.

(** ** One metric *)

(** What the formatted rows must be. *)
Definition row_printed (sh : Z) (mn mx : dec) (nf : dict pystr) (pad : bool)
           (r : row) (o : pystr * (pystr * pystr)) : Prop :=
  fst o = fst r /\ exists txt n, fst (snd o) = txt ++ repeat " "%char n /\ (pad = false -> n = O) /\
    print_estimate (rmean r) (rerr r) sh mn mx nf = Ok txt /\ print_pval (rpval r) nf = Ok (snd (snd o)).

Lemma Forall2_impl2 {A B} (P Q : A -> B -> Prop) l l' :
  (forall a b, In a l -> P a b -> Q a b) -> Forall2 P l l' -> Forall2 Q l l'.
Proof.
  intros H F. induction F as [|a b l l' Hab F IH]; constructor.
  - apply H; [left; reflexivity|exact Hab].
  - apply IH. intros; apply H; [right; assumption|assumption].
Qed.

(** The part of format_metric after the shift has been chosen. *)
Definition print_rows (sh : Z) (pad : bool) (mn mx : dec) (nf : dict pystr)
           (metric : pystr) (rows : list row) : res fmt_block :=
  do out <- mapM (fun '(method, (mu, EB, p)) =>
                    do e <- print_estimate mu EB sh mn mx nf;
                    do ps <- print_pval p nf;
                    Ok (method, (e, ps))) rows;
  if pad then
    do padded <- pad_num_str (map (fun '(_, (e, _)) => e) out) " "%char;
    Ok (metric, sh,
        map (fun '((method, (_, ps)), e) => (method, (e, ps))) (combine out padded))
  else Ok (metric, sh, out).

Lemma print_rows_ok sh pad a b nf metric rows pd : rows <> [] -> Forall (row_ok pd) rows ->
  (forall r, In r rows -> ~ clipped (min_dec a) (limit_dec b) (rmean r) -> known_to_dot (rmean r) sh) ->
  exists out, print_rows sh pad (min_dec a) (limit_dec b) nf metric rows = Ok (metric, sh, out)
    /\ Forall2 (row_printed sh (min_dec a) (limit_dec b) nf pad) rows out.
Proof.
  intros Hne Hok Hk. unfold print_rows. rewrite Forall_forall in Hok.
  set (f := fun '(method, (mu, EB, p)) => _).
  assert (Hf : forall r, In r rows -> exists e ps, f r = Ok (fst r, (e, ps)) /\
     print_estimate (rmean r) (rerr r) sh (min_dec a) (limit_dec b) nf = Ok e /\
     print_pval (rpval r) nf = Ok ps /\ point_pos e <> O).
  { intros [m [[mu EB] p]] Hr. destruct (Hok _ Hr) as [He Hp]. specialize (Hk _ Hr).
    cbn [rmean rerr rpval fst] in *.
    destruct (print_estimate_cases a b mu EB sh nf He) as [Hx _].
    destruct Hx as [e Hx]; [destruct (clipped_dec (min_dec a) (limit_dec b) mu); auto|].
    destruct (print_pval_ok pd p nf Hp) as [ps Hps]. exists e, ps. unfold f. rewrite Hx, Hps. cbn [bind].
    split; [reflexivity|]. split; [reflexivity|]. split; [reflexivity|].
    eapply print_head_ok; eauto. }
  destruct (mapM_ok f rows) as [out Hout]; [intros r Hr; destruct (Hf r Hr) as (e & ps & H & _); eauto|].
  rewrite Hout. cbn [bind]. apply mapM_Forall2 in Hout.
  assert (Hout' : Forall2 (fun r o => fst o = fst r /\ print_estimate (rmean r) (rerr r) sh (min_dec a) (limit_dec b) nf = Ok (fst (snd o))
     /\ print_pval (rpval r) nf = Ok (snd (snd o)) /\ point_pos (fst (snd o)) <> O) rows out).
  { eapply Forall2_impl2; [|exact Hout]. intros r o Hr Ho. destruct (Hf r Hr) as (e & ps & H & H1 & H2 & H3).
    cbv beta in Ho; rewrite H in Ho. inversion Ho; subst. cbn [fst snd]. auto. }
  clear Hout Hf f. destruct pad.
  - destruct (pad_num_str_ok (map (fun '(_, (e, _)) => e) out) " "%char) as (w & _ & _ & Hw).
    + intros E. apply map_eq_nil in E. subst. inversion Hout'. subst. contradiction.
    + apply Forall_map. clear -Hout'. induction Hout' as [|r [m [e ps]] rows out H F IH]; constructor; [apply H|exact IH].
    + rewrite Hw. cbn [bind]. eexists. split; [reflexivity|]. clear -Hout'.
      induction Hout' as [|r [m [e ps]] rows out H F IH]; [constructor|]. cbn [map combine].
      constructor; [|exact IH]. cbn [fst snd] in H. destruct H as (H1 & H2 & H3 & _).
      split; [exact H1|]. exists e. eexists. cbn [fst snd]. split; [reflexivity|]. split; [discriminate|]. auto.
  - eexists. split; [reflexivity|]. eapply Forall2_impl2; [|exact Hout'].
    intros r o _ (H1 & H2 & H3 & _). split; [exact H1|]. exists (fst (snd o)), O. cbn [repeat].
    rewrite app_nil_r. auto.
Qed.

(** Some unclipped mean not known to the dot: ValueError. *)
Lemma print_rows_fail sh pad a b nf metric rows pd r : Forall (row_ok pd) rows ->
  In r rows -> ~ clipped (min_dec a) (limit_dec b) (rmean r) -> ~ known_to_dot (rmean r) sh ->
  print_rows sh pad (min_dec a) (limit_dec b) nf metric rows = Err ValueError.
Proof.
  intros Hok Hin Hcl Hk. unfold print_rows.
  match goal with |- bind ?m _ = _ => assert (Hm : m = Err ValueError) end.
  { induction Hok as [|[m [[mu EB] p]] rows [He Hp] Hok IH]; [destruct Hin|]. cbn [mapM rmean rerr rpval] in *.
    destruct (print_estimate_cases a b mu EB sh nf He) as [H1 H2].
    destruct (clipped_dec (min_dec a) (limit_dec b) mu) as [Hc|Hc].
    - destruct H1 as [e He']; [auto|]. rewrite He'. cbn [bind].
      destruct (print_pval_ok pd p nf Hp) as [ps Hps]. rewrite Hps. cbn [bind].
      destruct Hin as [<-|Hin]; [contradiction|]. rewrite IH by exact Hin. reflexivity.
    - assert (Hd : {known_to_dot mu sh} + {~ known_to_dot mu sh}).
      { destruct mu as [s c e| |]; cbn; [apply Z_le_dec|right; tauto|right; tauto]. }
      destruct Hd as [Hd|Hd].
      + destruct H1 as [e He']; [auto|]. rewrite He'. cbn [bind].
        destruct (print_pval_ok pd p nf Hp) as [ps Hps]. rewrite Hps. cbn [bind].
        destruct Hin as [<-|Hin]; [contradiction|]. rewrite IH by exact Hin. reflexivity.
      + rewrite H2 by assumption. reflexivity. }
  rewrite Hm. reflexivity.
Qed.

Lemma format_metric_unfold argsort smod pad cmax cmin nf metric rows pd :
  Forall (row_ok pd) rows ->
  let mn := min_dec (dict_get cmin metric) in let mx := limit_dec (dict_get cmax metric) in
  let un := filter (fun r => in_clip mn mx (rmean r)) rows in
  format_metric argsort smod pad cmax cmin nf metric rows =
  do sh <- match smod with
           | None => Ok 0
           | Some md => find_shift argsort (map rmean un) (map rerr un) md
           end;
  print_rows sh pad mn mx nf metric rows.
Proof.
  intros Hok. cbn zeta. unfold format_metric. rewrite limit_expo_dec, limit_expo_min.
  set (mn := min_dec _). set (mx := limit_dec _).
  assert (Hnn : d_is_nan mn = false) by (unfold mn; destruct (dict_get cmin metric); reflexivity).
  assert (Hnx : d_is_nan mx = false) by (unfold mx; destruct (dict_get cmax metric); reflexivity).
  change (map (fun '(_, (mu, _, _)) => mu) rows) with (map rmean rows).
  change (map (fun '(_, (_, EB, _)) => EB) rows) with (map rerr rows).
  change (map (fun '(_, (_, _, p)) => p) rows) with (map rpval rows).
  rewrite (finite_expos_ok pd) by (apply Forall_map; eapply Forall_impl; [|exact Hok]; intros r [_ H]; exact H).
  cbn [py_assert bind].
  assert (Hfin : Forall (fun r => d_is_finite (rmean r) = true) rows).
  { eapply Forall_impl; [|exact Hok]. intros r [(s & c & e & -> & _) _]. reflexivity. }
  rewrite clip_mask_spec; [|assumption|assumption|].
  2:{ apply Forall_map. eapply Forall_impl; [|exact Hfin]. intros r H. cbv beta in H |- *. destruct (rmean r); [reflexivity|reflexivity|discriminate H]. }
  cbn [bind]. rewrite map_map, !select_map.
  assert (Hall : decimal_all_finite (map rmean (filter (fun r => in_clip mn mx (rmean r)) rows)) = true).
  { unfold decimal_all_finite. apply forallb_forall. intros x Hx. apply in_map_iff in Hx.
    destruct Hx as (r & <- & Hr). apply filter_In in Hr. rewrite Forall_forall in Hfin. apply Hfin, Hr. }
  rewrite Hall. cbn [py_assert bind]. reflexivity.
Qed.

Lemma format_metric_shift argsort md pad cmax cmin nf metric rows pd : argsort_ok argsort -> 1 <= md ->
  rows <> [] -> Forall (row_ok pd) rows ->
  exists sh out, format_metric argsort (Some md) pad cmax cmin nf metric rows = Ok (metric, sh, out)
    /\ (md | sh)
    /\ Forall2 (row_printed sh (min_dec (dict_get cmin metric)) (limit_dec (dict_get cmax metric)) nf pad) rows out.
Proof.
  intros Hs Hmd Hne Hok. rewrite (format_metric_unfold _ _ _ _ _ _ _ _ pd Hok). cbn zeta.
  set (mn := min_dec _). set (mx := limit_dec _).
  set (un := filter (fun r => in_clip mn mx (rmean r)) rows).
  assert (Hun : forall r, In r un <-> In r rows /\ ~ clipped mn mx (rmean r)).
  { intros r. unfold un. rewrite filter_In. unfold in_clip. destruct (clipped_dec mn mx (rmean r)); intuition congruence. }
  assert (Hsh : exists sh, find_shift argsort (map rmean un) (map rerr un) md = Ok sh /\ (md | sh) /\
                forall r, In r un -> known_to_dot (rmean r) sh).
  { destruct (list_eq_dec (fun a b : nat => Nat.eq_dec a b) (map (fun _ => O) un) []) as [En|Hn].
    - apply map_eq_nil in En. rewrite En. exists 0. cbn [map]. unfold find_shift. cbn [length Nat.eqb forallb py_assert bind].
      destruct (Z.leb_spec 1 md); [|lia]. split; [reflexivity|]. split; [apply Z.divide_0_r|intros r []].
    - destruct (find_shift_spec argsort (map rmean un) (map rerr un) md) as (lo & hi & small & sh & w & Hr & Hf & Hd & Hb & _); auto.
      + rewrite !map_length. reflexivity.
      + intros E. apply map_eq_nil in E. apply Hn. rewrite E. reflexivity.
      + rewrite combine_map. apply Forall_map. apply Forall_forall. intros r Hr. apply Hun in Hr.
        rewrite Forall_forall in Hok. apply (Hok r), Hr.
      + exists sh. split; [exact Hf|]. split; [exact Hd|]. intros r Hin.
        destruct (get_shift_range_spec (map rmean un) md) as (lo' & hi' & small' & Hr' & Hsp); auto.
        * intros E. apply map_eq_nil in E. apply Hn. rewrite E. reflexivity.
        * apply forallb_forall. intros x Hx. apply in_map_iff in Hx. destruct Hx as (r' & <- & Hr').
          apply Hun in Hr'. rewrite Forall_forall in Hok. destruct (Hok r' (proj1 Hr')) as [(s & c & e & -> & _) _]. reflexivity.
        * rewrite Hr in Hr'. inversion Hr'; subst. destruct Hsp as (_ & _ & _ & Hdot & _).
          apply (Hdot sh Hd); [lia|]. apply in_map. exact Hin. }
  destruct Hsh as (sh & Hf & Hd & Hk). rewrite Hf. cbn [bind].
  destruct (print_rows_ok sh pad (dict_get cmin metric) (dict_get cmax metric) nf metric rows pd Hne Hok) as (out & Ho & Hp).
  - intros r Hr Hc. apply Hk. apply Hun. auto.
  - exists sh, out. auto.
Qed.

(** ** Whole tables *)

Definition table_ok (pd : Z) (d : ptable dec) : Prop :=
  d <> [] /\ Forall (fun m => snd m <> [] /\ Forall (row_ok pd) (snd m)) d.

Lemma format_table_asserts argsort smod pad cmax cmin nf pd d : table_ok pd d ->
  format_table argsort smod pad cmax cmin nf d =
  mapM (fun '(metric, rows) => format_metric argsort smod pad cmax cmin nf metric rows) d.
Proof.
  intros [Hne Hok]. unfold format_table.
  assert (H : forallb (fun '(_, rows) => negb (Nat.eqb (length rows) 0)) d = true).
  { apply forallb_forall. intros [m rows] Hin. rewrite Forall_forall in Hok. destruct (Hok _ Hin) as [Hr _].
    cbn in Hr. destruct rows; [contradiction|reflexivity]. }
  rewrite H. cbn [py_assert bind]. destruct d; [contradiction|]. reflexivity.
Qed.

Lemma format_table_shift argsort md pad cmax cmin nf pd d : argsort_ok argsort -> 1 <= md -> table_ok pd d ->
  exists out, format_table argsort (Some md) pad cmax cmin nf d = Ok out /\
    Forall2 (fun m o => fst (fst o) = fst m /\ (md | snd (fst o)) /\
      Forall2 (row_printed (snd (fst o)) (min_dec (dict_get cmin (fst m))) (limit_dec (dict_get cmax (fst m))) nf pad)
              (snd m) (snd o)) d out.
Proof.
  intros Hs Hmd Hok. rewrite (format_table_asserts _ _ _ _ _ _ pd) by exact Hok.
  destruct Hok as [_ Hok]. rewrite Forall_forall in Hok.
  set (f := fun '(metric, rows) => _).
  assert (Hf : forall m, In m d -> exists o, f m = Ok o /\ fst (fst o) = fst m /\ (md | snd (fst o)) /\
      Forall2 (row_printed (snd (fst o)) (min_dec (dict_get cmin (fst m))) (limit_dec (dict_get cmax (fst m))) nf pad)
              (snd m) (snd o)).
  { intros [metric rows] Hin. destruct (Hok _ Hin) as [Hne Hr].
    destruct (format_metric_shift argsort md pad cmax cmin nf metric rows pd Hs Hmd Hne Hr) as (sh & out & Ho & Hd & Hp).
    exists (metric, sh, out). cbn [fst snd]. auto. }
  destruct (mapM_ok f d) as [out Hout]; [intros m Hm; destruct (Hf m Hm) as (o & H & _); eauto|].
  exists out. split; [exact Hout|]. apply mapM_Forall2 in Hout. eapply Forall2_impl2; [|exact Hout].
  intros m o Hm Ho. destruct (Hf m Hm) as (o' & H & Hx). cbv beta in Ho; rewrite H in Ho. inversion Ho; subst. exact Hx.
Qed.

Lemma format_table_none argsort pad cmax cmin nf pd d : table_ok pd d ->
  let bad metric rows := exists r, In r rows /\
        ~ clipped (min_dec (dict_get cmin metric)) (limit_dec (dict_get cmax metric)) (rmean r) /\
        ~ known_to_dot (rmean r) 0 in
  ((exists metric rows, In (metric, rows) d /\ bad metric rows) ->
     format_table argsort None pad cmax cmin nf d = Err ValueError) /\
  ((forall metric rows, In (metric, rows) d -> ~ bad metric rows) ->
     exists out, format_table argsort None pad cmax cmin nf d = Ok out /\
       Forall2 (fun m o => fst (fst o) = fst m /\ snd (fst o) = 0 /\
      Forall2 (row_printed 0 (min_dec (dict_get cmin (fst m))) (limit_dec (dict_get cmax (fst m))) nf pad)
              (snd m) (snd o)) d out).
Proof.
  intros Hok bad. rewrite (format_table_asserts _ _ _ _ _ _ pd) by exact Hok.
  destruct Hok as [_ Hok].
  set (f := fun '(metric, rows) => _).
  assert (Hdec : forall metric rows, {bad metric rows} + {~ bad metric rows}).
  { intros metric rows. unfold bad. set (a := min_dec _). set (b := limit_dec _).
    induction rows as [|r rows IH]; [right; intros (r & [] & _)|].
    destruct IH as [IH|IH].
    - left. destruct IH as (r' & H1 & H2). exists r'. split; [right; exact H1|exact H2].
    - destruct (clipped_dec a b (rmean r)) as [Hc|Hc].
      + right. intros (r' & [<-|Hi] & H2); [tauto|]. apply IH. eauto.
      + assert (Hd : {known_to_dot (rmean r) 0} + {~ known_to_dot (rmean r) 0}).
        { destruct (rmean r) as [s c e| |]; cbn; [apply Z_le_dec|right; tauto|right; tauto]. }
        destruct Hd as [Hd|Hd].
        * right. intros (r' & [<-|Hi] & H2); [tauto|]. apply IH. eauto.
        * left. exists r. split; [left; reflexivity|]. auto. }
  assert (Hf : forall m, In m d ->
    (bad (fst m) (snd m) -> f m = Err ValueError) /\
    (~ bad (fst m) (snd m) -> exists o, f m = Ok o /\ fst (fst o) = fst m /\ snd (fst o) = 0 /\
      Forall2 (row_printed 0 (min_dec (dict_get cmin (fst m))) (limit_dec (dict_get cmax (fst m))) nf pad)
              (snd m) (snd o))).
  { intros [metric rows] Hin. rewrite Forall_forall in Hok. destruct (Hok _ Hin) as [Hne Hr]. cbn [fst snd] in *.
    unfold f. rewrite (format_metric_unfold _ _ _ _ _ _ _ _ pd Hr). cbn zeta. cbn [bind]. split.
    - intros (r & Hi & Hc & Hk). apply (print_rows_fail 0 pad _ _ nf metric rows pd r); assumption.
    - intros Hn. destruct (print_rows_ok 0 pad (dict_get cmin metric) (dict_get cmax metric) nf metric rows pd Hne Hr) as (out & Ho & Hp).
      + intros r Hi Hc. assert (Hd : {known_to_dot (rmean r) 0} + {~ known_to_dot (rmean r) 0}).
        { destruct (rmean r) as [s c e| |]; cbn; [apply Z_le_dec|right; tauto|right; tauto]. }
        destruct Hd as [Hd|Hd]; [exact Hd|]. exfalso. apply Hn. exists r. auto.
      + exists (metric, 0, out). cbn [fst snd]. auto. }
  clear Hok. split.
  - intros (metric & rows & Hin & Hb). induction d as [|[m0 r0] d IH]; [destruct Hin|]. cbn [mapM].
    destruct (Hf (m0, r0)) as [H1 H2]; [left; reflexivity|]. cbn [fst snd] in *.
    destruct (Hdec m0 r0) as [Hb0|Hb0]; [rewrite H1 by exact Hb0; reflexivity|].
    destruct H2 as (o & Ho & _); [exact Hb0|]. rewrite Ho. cbn [bind].
    destruct Hin as [E|Hin]; [inversion E; subst; contradiction|].
    rewrite IH; [reflexivity| |exact Hin]. intros m Hm. apply Hf. right. exact Hm.
  - intros Hn. destruct (mapM_ok f d) as [out Hout].
    + intros [m r] Hm. destruct (Hf (m, r) Hm) as [_ H2]. destruct H2 as (o & Ho & _); [cbn; apply Hn; exact Hm|]. eauto.
    + exists out. split; [exact Hout|]. apply mapM_Forall2 in Hout. eapply Forall2_impl2; [|exact Hout].
      intros [m r] o Hm Ho. destruct (Hf (m, r) Hm) as [_ H2]. destruct H2 as (o' & Ho' & Hx); [cbn; apply Hn; exact Hm|].
      cbv beta in Ho; rewrite Ho' in Ho. inversion Ho; subst. exact Hx.
Qed.

(** ** From float tables *)

Lemma est_cell_ok mf ef mu EB : est_cell mf ef mu EB -> est_ok mu EB.
Proof. intros (s & c & e & H1 & H2 & _ & H3 & _). exists s, c, e. auto. Qed.

Lemma pv_cell_ok pd pf p : pv_cell pd pf p -> pv_ok pd p.
Proof. intros [[_ ->]|[_ (s & q & H1 & _ & H2 & H3)]]; [left; reflexivity|right; eauto]. Qed.

Definition finite_means (t : ptable f64) : Prop :=
  forall i j metric method mf ef pf, cell_at t i j metric method (mf, ef, pf) -> fisfin mf = true.

Definition nonempty_table {V} (t : ptable V) : Prop := t <> [] /\ forall m, In m t -> snd m <> [].

Lemma decimalize_shape ed pd dd lim t d : decimalize ed pd dd lim t = Ok d ->
  Forall2 (fun m m' => fst m' = fst m /\ Forall2 (fun r r' => fst r' = fst r /\
     decimalize_cell ed pd dd (limit_dec (dict_get lim (fst m))) (snd r) = Ok (snd r')) (snd m) (snd m')) t d.
Proof.
  unfold decimalize. destruct (1 <=? pd); [|discriminate]. cbn [py_assert bind]. intros H.
  apply mapM_Forall2 in H. eapply Forall2_impl2; [|exact H]. intros [metric rows] m' _ Hm.
  rewrite limit_expo_dec in Hm. destruct (mapM _ rows) as [rs|] eqn:E; [|discriminate]. cbn [bind] in Hm. inversion Hm; subst.
  cbn [fst snd]. split; [reflexivity|]. apply mapM_Forall2 in E. eapply Forall2_impl2; [|exact E].
  intros [method v] r' _ Hr. destruct (decimalize_cell _ _ _ _ v) as [c|] eqn:Ec; [|discriminate]. cbn [bind] in Hr. inversion Hr; subst. split; [reflexivity|exact Ec].
Qed.

Lemma Forall2_Forall_r {A B} (P : A -> B -> Prop) (Q : B -> Prop) l l' :
  (forall a b, In a l -> P a b -> Q b) -> Forall2 P l l' -> Forall Q l'.
Proof.
  intros H F. induction F as [|a b l l' Hab F IH]; constructor.
  - apply (H a); [left; reflexivity|exact Hab].
  - apply IH. intros; eapply H; [right; eassumption|eassumption].
Qed.

Lemma decimalize_table_ok ed pd dd lim t d : 1 <= ed -> 1 <= dd <= 28 ->
  decimalize ed pd dd lim t = Ok d -> nonempty_table t -> finite_means t -> table_ok pd d.
Proof.
  intros Hed Hdd Hd [Hne Hrows] Hfin. pose proof (decimalize_shape _ _ _ _ _ _ Hd) as Hsh. split.
  - intros ->. inversion Hsh. subst. contradiction.
  - eapply Forall2_Forall_r; [|exact Hsh]. intros [metric rows] [metric' rows'] Hin [Hm Hr]. cbn [fst snd] in *. subst metric'. split.
    + intros ->. inversion Hr. subst. exact (Hrows _ Hin eq_refl).
    + eapply Forall2_Forall_r; [|exact Hr]. intros [method [[mf ef] pf]] [method' [[mu EB] p]] Hin' [_ Hc]. cbn [fst snd] in *.
      destruct (in_cell_at t metric rows method _ Hin Hin') as (i & j & Hcell).
      rewrite decimalize_cell_stages in Hc.
      destruct (eb_stage ed _ ef) as [EB0|] eqn:E1; [|discriminate]. cbn [bind] in Hc.
      destruct (mu_stage dd EB0 mf) as [mu0|] eqn:E2; [|discriminate]. cbn [bind] in Hc.
      destruct (pv_stage pd pf) as [p0|] eqn:E3; [|discriminate]. cbn [bind] in Hc. inversion Hc; subst.
      split; cbn [rmean rerr rpval].
      * eapply est_cell_ok. eapply stages_est_cell; eauto.
      * eapply pv_cell_ok. eapply pv_stage_cases; eauto.
Qed.

(** C15 *)
Lemma format_decimalized argsort md pad cmax cmin nf ed pd dd lim t d : argsort_ok argsort -> 1 <= md ->
  1 <= ed -> 1 <= dd <= 28 -> nonempty_table t -> finite_means t ->
  decimalize ed pd dd lim t = Ok d ->
  exists out, format_table argsort (Some md) pad cmax cmin nf d = Ok out.
Proof.
  intros Hs Hmd Hed Hdd Hne Hf Hd.
  destruct (format_table_shift argsort md pad cmax cmin nf pd d Hs Hmd) as (out & Ho & _); [|eauto].
  eapply decimalize_table_ok; eauto.
Qed.

(** ** C16: reading a formatted cell *)

(** What a reader of the estimate text [txt] (after dropping padding) can
    conclude about the float mean and error, given the shift of the column
    and the display limits. *)
Inductive truthful (mf ef : f64) (sh : Z) (kmin kmax : option Z) (txt : pystr) : Prop :=
| T_plain s c k eb (He : read_estimate txt = Some ((s, c, k), eb))
    (Hm : rounds_half_up (B2R64 mf) (dR s c (- Z.of_nat k - sh)) (p10 (- Z.of_nat k - sh)))
    (Hl1 : forall k', kmax = Some k' -> (dR s c (- Z.of_nat k - sh) <= p10 k')%R)
    (Hl2 : forall k', kmin = Some k' -> (- p10 k' <= dR s c (- Z.of_nat k - sh))%R)
    (Hb : forall n, eb = Some n -> fisfin ef = true /\
            ((n = 0%N /\ B2R64 ef = 0%R) \/
             rounds_up (B2R64 ef) (dR false n (- Z.of_nat k - sh)) (p10 (- Z.of_nat k - sh)))) :
    truthful mf ef sh kmin kmax txt
| T_above k' num s c k v u (Hk : kmax = Some k') (He : txt = ">"%char :: num)
    (Hn : read_number num = Some (s, c, k)) (Hv : dR s c (- Z.of_nat k - sh) = p10 k')
    (Hm : rounds_half_up (B2R64 mf) v u) (Hg : (p10 k' < v)%R) :
    truthful mf ef sh kmin kmax txt
| T_below k' num s c k v u (Hk : kmin = Some k') (He : txt = "<"%char :: num)
    (Hn : read_number num = Some (s, c, k)) (Hv : dR s c (- Z.of_nat k - sh) = (- p10 k')%R)
    (Hm : rounds_half_up (B2R64 mf) v u) (Hg : (v < - p10 k')%R) :
    truthful mf ef sh kmin kmax txt.

Lemma dR_unshift s c k v sh : dR s c k = (v * p10 sh)%R -> dR s c (k - sh) = v.
Proof.
  intros H. replace (k - sh) with (k + - sh) by lia. rewrite dR_shift, H, Rmult_assoc, <- p10_plus.
  replace (sh + - sh) with 0 by lia. rewrite p10_0. ring.
Qed.

Lemma print_truthful mf ef mu EB sh a b nf txt : est_cell mf ef mu EB ->
  print_estimate mu EB sh (min_dec a) (limit_dec b) nf = Ok txt -> truthful mf ef sh a b txt.
Proof.
  intros (s & c & e & -> & Hc & Hr & He & HEB & Hni) Hp.
  destruct (ext_lt_dec (limit_dec b) (DFin s c e)) as [Hcl|Ha].
  - destruct b as [b|]; [|cbn in Hcl; discriminate]. cbn [limit_dec] in *.
    destruct (print_estimate_above (DFin s c e) EB sh (min_dec a) false 1 b nf (limits_clip_ok a (Some b))) as (t & c' & k & Hp' & Hrd & Hv);
      [lia|exact Hcl|]. rewrite Hp' in Hp. inversion Hp; subst. cbn [ext_lt] in Hcl. rewrite dR_1 in Hcl, Hv.
    eapply T_above; [reflexivity|reflexivity|exact Hrd| |exact Hr|exact Hcl]. apply dR_unshift. exact Hv.
  - destruct (ext_lt_dec (DFin s c e) (min_dec a)) as [Hcl|Hb].
    + destruct a as [a|]; [|cbn in Hcl; discriminate]. cbn [min_dec] in *.
      destruct (print_estimate_below (DFin s c e) EB sh true 1 a (limit_dec b) nf (limits_clip_ok (Some a) b)) as (t & c' & k & Hp' & Hrd & Hv);
        [lia|exact Hcl|]. rewrite Hp' in Hp. inversion Hp; subst. cbn [ext_lt] in Hcl. rewrite dR_neg1 in Hcl, Hv.
      eapply T_below; [reflexivity|reflexivity|exact Hrd| |exact Hr|exact Hcl]. apply dR_unshift. exact Hv.
    + assert (Hd : e + sh <= 0).
      { destruct (Z_le_gt_dec (e + sh) 0) as [|Hg]; [assumption|exfalso].
        destruct (print_estimate_error_iff s c e EB sh (min_dec a) (limit_dec b) nf Hc He (limits_clip_ok a b) Ha Hb) as [[_ H] _].
        rewrite H in Hp by lia. discriminate. }
      destruct (print_estimate_roundtrip s c e EB sh (min_dec a) (limit_dec b) nf Hc Hd He (limits_clip_ok a b) Ha Hb)
        as (out & k & Hp' & Hk & Hrd & Hv & HvE).
      rewrite Hp' in Hp. inversion Hp; subst out.
      assert (Hek : - Z.of_nat k - sh = e) by lia.
      eapply T_plain; [exact Hrd|rewrite Hek; exact Hr| | |].
      * intros k' ->. rewrite Hek. cbn [limit_dec ext_lt] in Ha. rewrite dR_1 in Ha. lra.
      * intros k' ->. rewrite Hek. cbn [min_dec ext_lt] in Hb. rewrite dR_neg1 in Hb. lra.
      * intros n Hn. destruct EB as [sb cb eb| |]; [|discriminate|discriminate]. cbn in Hn. inversion Hn; subst cb.
        destruct (HEB _ _ _ eq_refl) as (-> & Hef & Hru & Hz & Hnz). split; [exact Hef|].
        destruct (N.eq_dec n 0) as [E|E]; [left; auto|]. right. rewrite Hek. rewrite <- (Hnz E). exact Hru.
Qed.

(** What the p-value text says. *)
Inductive truthful_p (pd : Z) (pf : f64) (nan_txt : pystr) (txt : pystr) : Prop :=
| P_nan (Hf : pf = fnan) (He : txt = nan_txt)
| P_small num (He : txt = "<"%char :: num) (Hn : read_number num = Some (false, 1%N, Z.to_nat pd))
    (Hf : fisfin pf = true) (Hlt : (B2R64 pf < p10 (- pd))%R)
| P_plain q (Hn : read_number txt = Some (false, q, Z.to_nat pd)) (Hf : fisfin pf = true)
    (Hr : rounds_up (B2R64 pf) (dR false q (- pd)) (p10 (- pd))) (Hgt : (p10 (- pd) < B2R64 pf)%R)
    (H1 : (dR false q (- pd) <= 1)%R).

Lemma print_pval_truthful pd pf p nf txt : 1 <= pd -> pv_cell pd pf p -> print_pval p nf = Ok txt ->
  truthful_p pd pf (dict_get_def nf NAN_STR NAN_STR) txt.
Proof.
  intros Hpd [[Hf ->]|[Hf (s & q & -> & Hr & H01 & Hs)]] Hp.
  - apply P_nan; [exact Hf|]. inversion Hp. reflexivity.
  - rewrite print_pval_fin in Hp by assumption. pose proof (p10_pos (- pd)) as Hu.
    assert (Hsv : dR s q (- pd) = (IZR (Z.of_N q) * p10 (- pd))%R).
    { unfold dR. destruct s; [|reflexivity]. destruct (N.eq_dec q 0) as [->|E]; [reflexivity|discriminate Hs; exact E]. }
    destruct (Z.leb_spec (Z.of_N q) 1) as [Hq|Hq]; apply (f_equal (fun r => match r with Ok x => x | Err _ => [] end)) in Hp; cbv beta iota in Hp; subst txt.
    + eapply P_small; [reflexivity| |exact Hf|].
      * rewrite read_number_format. destruct (Z.leb_spec 0 (- pd)); [lia|]. rewrite Z.opp_involutive. reflexivity.
      * destruct Hr as [Hr _]. rewrite Hsv in Hr. apply IZR_le in Hq.
        assert (Hle : (B2R64 pf <= p10 (- pd))%R) by nra.
        pose proof (not_dyadic_10 pf pd Hpd). lra.
    + assert (s = false) as -> by (apply Hs; intros ->; lia).
      eapply P_plain; [|exact Hf|exact Hr| |lra].
      * rewrite read_number_format. destruct (Z.leb_spec 0 (- pd)); [lia|]. rewrite Z.opp_involutive. reflexivity.
      * destruct Hr as [_ Hr]. rewrite Hsv in Hr. assert (2 <= Z.of_N q) by lia. apply IZR_le in H. nra.
Qed.

Lemma format_truthful argsort md pad cmax cmin nf ed pd dd lim t d out : argsort_ok argsort -> 1 <= md ->
  1 <= ed -> 1 <= dd <= 28 -> nonempty_table t -> finite_means t ->
  decimalize ed pd dd lim t = Ok d ->
  format_table argsort (Some md) pad cmax cmin nf d = Ok out ->
  length out = length t /\
  forall i j metric method mf ef pf, cell_at t i j metric method (mf, ef, pf) ->
  exists sh rows txt n ptxt,
    nth_error out i = Some (metric, sh, rows) /\ (md | sh) /\
    nth_error rows j = Some (method, (txt ++ repeat " "%char n, ptxt)) /\
    truthful mf ef sh (dict_get cmin metric) (dict_get cmax metric) txt /\
    truthful_p pd pf (dict_get_def nf NAN_STR NAN_STR) ptxt.
Proof.
  intros Hs Hmd Hed Hdd Hne Hf Hd Ho.
  assert (Hok : table_ok pd d) by (eapply decimalize_table_ok; eauto).
  destruct (format_table_shift argsort md pad cmax cmin nf pd d Hs Hmd Hok) as (out' & Ho' & HF).
  rewrite Ho in Ho'. inversion Ho'; subst out'. clear Ho'.
  destruct (decimalize_cells _ _ _ _ _ _ Hd) as (Hpd & Hlen & Hcells).
  split; [rewrite <- Hlen; symmetry; eapply Forall2_len; exact HF|].
  intros i j metric method mf ef pf Hc.
  destruct (Hcells _ _ _ _ _ _ _ Hc) as (mu & EB & p & (rows & Hi & Hj) & H1 & H2 & H3).
  destruct (Forall2_nth_error _ _ _ _ _ HF Hi) as ([[metric' sh] rows'] & Hi' & Hm & Hdv & HR). cbn [fst snd] in *. subst metric'.
  destruct (Forall2_nth_error _ _ _ _ _ HR Hj) as ([method' [e ps]] & Hj' & Hmm & txt & n & He & Hpad & Hpe & Hpp). cbn [fst snd rmean rerr rpval] in *. subst.
  exists sh, rows', txt, n, ps. split; [exact Hi'|]. split; [exact Hdv|]. split; [exact Hj'|]. split.
  - eapply print_truthful; [|exact Hpe]. apply (stages_est_cell ed dd (dict_get lim metric)); auto. eapply Hf; exact Hc.
  - eapply print_pval_truthful; [exact Hpd| |exact Hpp]. eapply pv_stage_cases; eauto.
Qed.
