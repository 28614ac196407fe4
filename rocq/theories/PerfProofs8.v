(** The three curves in IEEE doubles, and their inputs. *)
From Coq Require Import Reals Lra Lia List Sorted Bool.
From Flocq Require Import Core BinarySingleNaN.
From Verif Require Import PyBase F64 F64Lemmas Num NumOk Util UtilProofs ListLemmas UtilProofs2 BootProofs2 BootProofs4
  PerfCurves PerfProofs2 PerfProofs7.
Open Scope R_scope.
Open Scope list_scope.

Lemma map2_map_map {A B C E} (f : B -> C -> E) (g : A -> B) (h : A -> C) l : map2 f (map g l) (map h l) = map (fun a => f (g a) (h a)) l.
Proof. induction l; cbn; f_equal; auto. Qed.
Lemma map2_map_r {A B C E} (f : A -> C -> E) (h : B -> C) (l : list A) m : map2 f l (map h m) = map2 (fun a b => f a (h b)) l m.
Proof. revert m; induction l; intros [|b m]; cbn; f_equal; auto. Qed.

Lemma Forall_map2' {A B C} (g : A -> B -> C) (Q : C -> Prop) l m :
  Forall2 (fun a b => Q (g a b)) l m -> Forall Q (map2 g l m).
Proof. induction 1; cbn [map2]; constructor; auto. Qed.

(** what a precision gain can be *)
Definition pgain (x : f64) : Prop := x = fninf \/ (fisfin x = true /\ - P2 800 <= B2R x <= 1).

Lemma gain_row_eq f t : f <> [] -> t <> [] ->
  gain_row (f0 :: f) (f0 :: t) =
  (map (rg (last t f0) (last f f0)) (f0 :: t),
   back_fill (map2 (fun a tp => gain (last t f0) (last f f0) tp a) (f0 :: f) (f0 :: t))).
Proof.
  intros Nf Nt. unfold gain_row, lastn. cbn [n0 f64_num]. rewrite !last_cons_f0 by auto.
  rewrite map2_map_map, map2_map_r. reflexivity.
Qed.

Lemma good_facts f t : good_row f t ->
  t <> [] /\ sane (last t f0) /\ sane (last f f0) /\ (forall x, In x (f0 :: t) -> sane x /\ B2R x <= B2R (last t f0)).
Proof.
  intros [L N Sf St Ff Ft Fl Tl Z].
  assert (t <> []) as Nt by (intros ->; destruct f; [congruence|discriminate]).
  split; auto. split; [eapply Forall_forall; [exact St|now apply last_in]|].
  split; [eapply Forall_forall; [exact Sf|now apply last_in]|].
  intros x Hx. split.
  - destruct Hx as [<-|Hx]; [apply sane_f0|]. eapply Forall_forall; eauto.
  - pose proof (sorted_last_ge (f0 :: t) x Ft Hx) as Q. rewrite last_cons_f0 in Q by auto. exact Q.
Qed.

Lemma nmax0 x : nmax f0 x = if fleb x f0 then f0 else x.
Proof. unfold nmax. cbn [nleb nisnan f64_num]. change (fisnan f0) with false. now rewrite orb_false_r. Qed.

Lemma sorted_no_drop (l : list f64) : StronglySorted (fun a b => fleb a b = true) l ->
  existsb (fun d => nltb d n0) (diff l) = false.
Proof.
  induction l as [|a l IH]; [reflexivity|]. intros S. destruct l as [|b l]; [reflexivity|].
  rewrite diff_cons. cbn [existsb]. apply StronglySorted_inv in S as [S F]. rewrite IH by auto. rewrite orb_false_r.
  inversion F as [|? ? H _]; subst. destruct (fleb_notnan _ _ H) as [Na Nb].
  cbn [nltb nsub n0 f64_num]. destruct (fltb (fsub b a) f0) eqn:E; auto.
  apply fsub_neg in E; auto. apply fltb_key in E; auto. apply fleb_key in H; auto. lra.
Qed.

Lemma clamp_mono a b : fleb a b = true -> fleb (nmax f0 a) (nmax f0 b) = true.
Proof.
  intros H. destruct (fleb_notnan _ _ H) as [Na Nb]. rewrite !nmax0.
  assert (fisnan f0 = false) as N0 by reflexivity.
  destruct (fleb a f0) eqn:Ea, (fleb b f0) eqn:Eb; auto.
  - apply fleb_false_lt in Eb; auto. apply fleb_key; auto. lra.
  - exfalso. apply fleb_false_lt in Ea; auto. apply fleb_key in Eb; auto. apply fleb_key in H; auto. lra.
Qed.

Lemma sorted_map_le (g : f64 -> f64) l : (forall a b, fleb a b = true -> fleb (g a) (g b) = true) ->
  StronglySorted (fun a b => fleb a b = true) l -> StronglySorted (fun a b => fleb a b = true) (map g l).
Proof.
  intros H S. induction S as [|a l S IH F]; cbn [map]; constructor; auto.
  apply Forall_forall. intros b Hb. apply in_map_iff in Hb as (c & <- & Hc). apply H. eapply Forall_forall in F; eauto.
Qed.

Lemma clamp_unit x : x = fninf \/ (fisfin x = true /\ - P2 800 <= B2R x <= 1) ->
  fisfin (nmax f0 x) = true /\ 0 <= B2R (nmax f0 x) <= 1.
Proof.
  rewrite nmax0. intros [->|(F & B)].
  - change (fleb fninf f0) with true. cbv iota. change (B2R64 f0) with 0. split; [reflexivity|lra].
  - destruct (fleb x f0) eqn:E.
    + change (B2R64 f0) with 0. split; [reflexivity|lra].
    + split; auto. apply fleb_false_lt in E; [|now apply fisfin_notnan|reflexivity].
      rewrite (fkey_fin x F) in E. change (fkey f0) with 0 in E. lra.
Qed.

Lemma prg_row_ok f t : good_row f t ->
  let g := gain_row (f0 :: f) (f0 :: t) in
  existsb (fun d => nltb d n0) (diff (fst g)) = false /\
  unit_axis (map (nmax f0) (fst g)) /\ length (fst g) = S (length f) /\
  Forall pgain (snd g) /\ length (snd g) = S (length f) /\ last (snd g) f0 = f0.
Proof.
  intros G. destruct (good_facts f t G) as (Nt & Sp & Sn & B). destruct G as [L N Sf St Ff Ft Fl Tl Z].
  rewrite gain_row_eq by auto. cbn [fst snd].
  set (np := last t f0) in *. set (nn_ := last f f0) in *.
  assert (StronglySorted (fun a b => fleb a b = true) (map (rg np nn_) (f0 :: t))) as Srt.
  { apply sorted_map; auto. intros x y Hx Hy Lxy. destruct (B x Hx), (B y Hy). apply rg_mono; auto. }
  assert (forall x, In x (map (rg np nn_) (f0 :: t)) -> x = fninf \/ (fisfin x = true /\ - P2 800 <= B2R x <= 1)) as C.
  { intros x Hx. apply in_map_iff in Hx as (tp & <- & Htp). destruct (B tp Htp) as [S Lt].
    destruct (rg_cases np nn_ Sp Sn Tl Fl tp S Lt) as [[_ E]|(_ & E)]; auto. }
  split; [now apply sorted_no_drop|]. split; [|split; [|split; [|split]]].
  - destruct f1_val as [V1 [F1 _]]. constructor.
    + apply Forall_forall. intros z Hz. apply in_map_iff in Hz as (x & <- & Hx). apply clamp_unit; auto.
    + apply sorted_map_le; auto using clamp_mono.
    + cbn [map hd]. destruct (B f0 (or_introl eq_refl)) as [_ _].
      unfold rg. rewrite (fns_f0 np Sp Tl). rewrite (gain_at_zero np nn_ Sp Sn Tl) by (try apply sane_bounded; try apply sane_lb; auto). reflexivity.
    + rewrite map_map, (last_map _ _ f0 f0) by discriminate. rewrite last_cons_f0 by auto. fold np.
      unfold rg. rewrite (fns_self np Sp), gain_top by auto. rewrite nmax0.
      replace (fleb (f_of_Z 1) f0) with false; [reflexivity|vm_compute; reflexivity].
    + apply Forall_forall. intros z Hz. apply in_map_iff in Hz as (x & <- & Hx). destruct (clamp_unit x (C x Hx)) as [F U].
      split; apply fleb_fin; auto; [change (B2R64 f0) with 0|rewrite V1]; lra.
  - rewrite map_length. cbn [length]. congruence.
  - cbn [map2]. apply back_fill_tail.
    + destruct f, t; try congruence; discriminate.
    + apply Forall_map2'. eapply Forall2_strong; [exact Sf|exact St|exact Z|]. cbn beta. intros a b Sa Sb H.
      exact (pg_cases np nn_ Sp Sn Tl Fl b a Sb Sa H).
  - rewrite back_fill_len, map2_len; cbn [length]; congruence.
  - cbn [map2]. rewrite back_fill_last.
    + rewrite (last_map2 _ _ _ _ f0 f0) by auto. fold np nn_. now apply gain_bottom.
    + destruct f, t; try congruence; discriminate.
Qed.

(** ** From rows to curves *)

Definition good_rows (F T : list (list f64)) (k : nat) : Prop :=
  Forall2 (fun a b => exists f t, a = f0 :: f /\ b = f0 :: t /\ good_row f t /\ S (length f) = k) F T.

Theorem roc_f64 y s sw F T th : _binary_clf_curve y s sw = Ok (F, T, th) -> good_rows F T (length th) ->
  exists rows, roc_curve y s sw = Ok ((rows, Linear), th) /\ length rows = length F /\
    Forall (fun c => unit_axis (fst c) /\ unit_axis (snd c) /\ length (fst c) = length th /\ length (snd c) = length th) rows.
Proof.
  intros E G. unfold roc_curve. rewrite E. cbn [bind]. eexists. split; [reflexivity|]. clear E.
  induction G as [|a b F T (f & t & -> & -> & G & K) _ IH]; [split; [reflexivity|constructor]|].
  destruct IH as [IH1 IH2]. cbn [map combine length]. split; [congruence|]. constructor; auto. cbn [fst snd].
  destruct (good_facts f t G) as (Nt & _). destruct G as [L N Sf St Ff Ft Fl Tl Z].
  destruct (rate_axis f) as [U1 L1]; auto. destruct (rate_axis t) as [U2 L2]; auto.
  split; [exact U1|]. split; [exact U2|]. split; [etransitivity; [exact L1|exact K]|]. etransitivity; [exact L2|]. now rewrite <- L.
Qed.

Lemma in01_leb x : in01f x -> fleb f0 x = true /\ fleb x (f_of_Z 1) = true.
Proof.
  intros [F B]. destruct f1_val as [V1 [F1 _]]. split; apply fleb_fin; auto; [change (B2R64 f0) with 0|rewrite V1]; lra.
Qed.

Theorem rp_f64 y s sw F T th : _binary_clf_curve y s sw = Ok (F, T, th) -> good_rows F T (length th) ->
  exists rows, recall_precision_curve y s sw = Ok ((rows, Previous), th) /\ length rows = length F /\
    Forall (fun c => unit_axis (fst c) /\ Forall in01f (snd c) /\ length (fst c) = length th /\ length (snd c) = length th) rows.
Proof.
  intros E G. unfold recall_precision_curve. rewrite E. cbn [bind].
  assert (Forall (Forall in01f) (map back_fill (map2 (map2 (fun t f => ndiv t (nadd t f))) T F))) as P.
  { clear E. induction G as [|a b F T (f & t & -> & -> & G & K) _ IH]; cbn [map2 map]; constructor; auto.
    apply (proj1 (prec_row_ok f t G)). }
  assert (forallb (forallb (nleb n0)) (map back_fill (map2 (map2 (fun t f => ndiv t (nadd t f))) T F)) = true) as A1.
  { apply forallb_forall. intros r Hr. apply forallb_forall. intros x Hx. rewrite Forall_forall in P. specialize (P r Hr).
    rewrite Forall_forall in P. now apply in01_leb, P. }
  assert (forallb (forallb (fun p => nleb p n1)) (map back_fill (map2 (map2 (fun t f => ndiv t (nadd t f))) T F)) = true) as A2.
  { apply forallb_forall. intros r Hr. apply forallb_forall. intros x Hx. rewrite Forall_forall in P. specialize (P r Hr).
    rewrite Forall_forall in P. now apply in01_leb, P. }
  rewrite A1, A2. cbn [andb py_assert bind]. clear A1 A2 P. eexists. split; [reflexivity|]. clear E.
  induction G as [|a b F T (f & t & -> & -> & G & K) _ IH]; [split; [reflexivity|constructor]|].
  destruct IH as [IH1 IH2]. cbn [map map2 combine length]. split; [congruence|]. constructor; auto. cbn [fst snd].
  destruct (good_facts f t G) as (Nt & _). destruct (prec_row_ok f t G) as (Q1 & Q2 & _). destruct G as [L N Sf St Ff Ft Fl Tl Z].
  destruct (rate_axis t) as [U2 L2]; auto. split; [exact U2|]. split; [exact Q1|]. split; [etransitivity; [exact L2|]; now rewrite <- L|].
  etransitivity; [exact Q2|exact K].
Qed.

Lemma pgain_le1 x : pgain x -> fleb x (f_of_Z 1) = true.
Proof.
  destruct f1_val as [V1 [F1 _]]. intros [->|(F & B)].
  - destruct (f_of_Z 1); try discriminate; reflexivity.
  - apply fleb_fin; auto. rewrite V1. lra.
Qed.

Theorem prg_f64 y s sw F T th : _binary_clf_curve y s sw = Ok (F, T, th) -> good_rows F T (length th) ->
  exists rows, prg_curve y s sw = Ok ((rows, Previous), th) /\ length rows = length F /\
    Forall (fun c => unit_axis (fst c) /\ Forall pgain (snd c) /\ last (snd c) f0 = f0 /\
                     length (fst c) = length th /\ length (snd c) = length th) rows.
Proof.
  intros E G. unfold prg_curve. rewrite E. cbn [bind].
  assert (Forall (fun g => existsb (fun d => nltb d n0) (diff (fst g)) = false /\ unit_axis (map (nmax f0) (fst g)) /\
     length (fst g) = length th /\ Forall pgain (snd g) /\ length (snd g) = length th /\ last (snd g) f0 = f0) (map2 gain_row F T)) as P.
  { clear E. induction G as [|a b F T (f & t & -> & -> & G & K) _ IH]; cbn [map2]; constructor; auto.
    rewrite <- K. apply (prg_row_ok f t G). }
  assert (existsb (fun r => existsb (fun d => nltb d n0) (diff r)) (map fst (map2 gain_row F T)) = false) as A1.
  { clear E G. induction P as [|g l (H & _) P IH]; [reflexivity|]. cbn [map existsb]. now rewrite H, IH. }
  rewrite A1. cbn [negb py_assert bind].
  assert (forallb (forallb (fun x => nleb x n1)) (map (map (nmax n0)) (map fst (map2 gain_row F T))) = true) as A2.
  { clear E G A1. induction P as [|g l (_ & U & _) P IH]; [reflexivity|]. cbn [map forallb]. rewrite IH, andb_true_r.
    apply forallb_forall. intros x Hx. destruct U as [_ _ _ _ U]. rewrite Forall_forall in U. apply U. exact Hx. }
  rewrite A2. cbn [py_assert bind].
  match goal with |- context [py_assert ?b] => assert (b = true) as A3 end.
  { clear E G A1 A2. induction P as [|g l (_ & _ & _ & U & _) P IH]; [reflexivity|]. cbn [map combine forallb]. rewrite IH, andb_true_r.
    apply forallb_forall. intros q Hq. cbn [fst snd] in Hq. destruct q as [u v]. apply in_combine_r in Hq.
    rewrite Forall_forall in U. apply orb_true_iff. right. cbn [snd]. now apply pgain_le1, U. }
  rewrite A3. cbn [py_assert bind]. eexists. split; [reflexivity|]. clear E A1 A2 A3.
  split.
  - rewrite combine_length, !map_length, Nat.min_id, map2_len; auto. clear -G. induction G; cbn; congruence.
  - clear G. induction P as [|g l (_ & U & L1 & V & L2 & L3) P IH]; cbn [map combine]; constructor; auto. cbn [fst snd].
    split; [exact U|]. split; [exact V|]. split; [exact L3|]. split; [rewrite map_length; exact L1|exact L2].
Qed.
