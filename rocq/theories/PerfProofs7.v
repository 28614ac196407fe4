(** The curves in IEEE doubles: rounding is monotone, so the curves keep their
    shape as long as no count overflows or underflows. *)
From Coq Require Import Reals Lra Lia List Sorted Bool.
From Flocq Require Import Core BinarySingleNaN.
From Verif Require Import PyBase F64 F64Lemmas Num NumOk Util UtilProofs ListLemmas UtilProofs2 BootProofs2 BootProofs4
  PerfCurves PerfProofs2.
Open Scope R_scope.
Open Scope list_scope.

Notation P2 e := (bpow radix2 e).

(** ** Non-negative finite doubles (excluding -0) *)

Definition nn (x : f64) : Prop := fisfin x = true /\ Bsign x = false.

Lemma nn_ge0 x : nn x -> 0 <= B2R x.
Proof.
  intros [F S]. destruct x as [s|s| |s m e B]; cbn [fisfin is_finite] in F; try discriminate; cbn [B2R]; [lra|].
  cbn [Bsign] in S. subst s. apply F2R_ge_0. cbn. lia.
Qed.

Lemma nn_zero x : nn x -> B2R x = 0 -> x = f0.
Proof.
  intros [F S] Z. apply B2R_Bsign_inj; auto.
Qed.

Lemma nn_f0 : nn f0.
Proof. split; reflexivity. Qed.

Lemma nn_pos x : fisfin x = true -> 0 < B2R x -> nn x.
Proof.
  intros F P. split; auto. destruct x as [s|s| |s m e B]; try discriminate; cbn [B2R] in P; [lra|].
  cbn [Bsign]. destruct s; auto. exfalso.
  assert (F2R (Float radix2 (cond_Zopp true (Z.pos m)) e) < 0) by (apply F2R_lt_0; cbn; lia). lra.
Qed.

Lemma nn_eq x y : nn x -> nn y -> B2R x = B2R y -> x = y.
Proof. intros [F S] [F' S'] E. apply B2R_Bsign_inj; auto. congruence. Qed.

Lemma no_ovf x : Rabs x <= P2 1000 -> Rabs (rnd64 x) < P2 emax64.
Proof.
  intros H. apply Rle_lt_trans with (P2 1000); [|apply bpow_lt; reflexivity].
  apply Rabs_le_inv in H. apply Rabs_le. split.
  - apply rnd64_ge; [|lra]. apply generic_format_opp, format64_pow. lia.
  - apply rnd64_le; [|lra]. apply format64_pow. lia.
Qed.

Lemma rnd_nn x : 0 <= x -> 0 <= rnd64 x.
Proof. intros. apply rnd64_ge; auto using format64_0. Qed.

Lemma abs_nn x b : 0 <= x <= b -> Rabs x <= b.
Proof. intros. rewrite Rabs_pos_eq; lra. Qed.

Lemma fmul_nn x y : nn x -> nn y -> B2R x * B2R y <= P2 1000 ->
  nn (fmul x y) /\ B2R (fmul x y) = rnd64 (B2R x * B2R y).
Proof.
  intros Hx Hy L. pose proof (nn_ge0 _ Hx) as X. pose proof (nn_ge0 _ Hy) as Y.
  destruct Hx as [Fx Sx], Hy as [Fy Sy].
  assert (0 <= B2R x * B2R y) as P by (apply Rmult_le_pos; auto).
  assert (Rabs (rnd64 (B2R x * B2R y)) < P2 emax64) as O by (apply no_ovf, abs_nn; lra).
  destruct (fmul_correct x y Fx Fy O) as [V F]. split; auto. split; auto.
  pose proof (Bmult_correct prec64 emax64 _ _ mode_NE x y) as C. simpl (round_mode mode_NE) in C.
  rewrite Rlt_bool_true in C by exact O. destruct C as (_ & _ & C). unfold fmul. rewrite C by (now apply fisfin_notnan).
  now rewrite Sx, Sy.
Qed.

Lemma fdiv_nn x y : nn x -> nn y -> 0 < B2R y -> B2R x / B2R y <= P2 1000 ->
  nn (fdiv x y) /\ B2R (fdiv x y) = rnd64 (B2R x / B2R y).
Proof.
  intros Hx Hy Py L. pose proof (nn_ge0 _ Hx) as X. destruct Hx as [Fx Sx], Hy as [Fy Sy].
  assert (0 <= B2R x / B2R y) as P by (apply Rle_mult_inv_pos; auto).
  assert (Rabs (rnd64 (B2R x / B2R y)) < P2 emax64) as O by (apply no_ovf, abs_nn; lra).
  assert (B2R y <> 0) as N by lra.
  destruct (fdiv_correct x y Fx N O) as [V F]. split; auto. split; auto.
  pose proof (Bdiv_correct prec64 emax64 _ _ mode_NE x y N) as C. simpl (round_mode mode_NE) in C.
  rewrite Rlt_bool_true in C by exact O. destruct C as (_ & _ & C). unfold fdiv. rewrite C by (now apply fisfin_notnan).
  now rewrite Sx, Sy.
Qed.

Lemma fadd_nn x y : nn x -> nn y -> B2R x + B2R y <= P2 1000 ->
  nn (fadd x y) /\ B2R (fadd x y) = rnd64 (B2R x + B2R y).
Proof.
  intros Hx Hy L. pose proof (nn_ge0 _ Hx) as X. pose proof (nn_ge0 _ Hy) as Y.
  destruct Hx as [Fx Sx], Hy as [Fy Sy].
  assert (Rabs (rnd64 (B2R x + B2R y)) < P2 emax64) as O by (apply no_ovf, abs_nn; lra).
  destruct (fadd_correct x y Fx Fy O) as [V F]. split; auto. split; auto.
  pose proof (Bplus_correct prec64 emax64 _ _ mode_NE x y Fx Fy) as C. simpl (round_mode mode_NE) in C.
  rewrite Rlt_bool_true in C by exact O. destruct C as (_ & _ & C). unfold fadd. rewrite C, Sx, Sy.
  destruct (Rcompare_spec (B2R x + B2R y) 0); auto. lra.
Qed.

Lemma fsub_nn x y : nn x -> nn y -> B2R y <= B2R x -> B2R x <= P2 1000 ->
  nn (fsub x y) /\ B2R (fsub x y) = rnd64 (B2R x - B2R y).
Proof.
  intros Hx Hy L U. pose proof (nn_ge0 _ Hx) as X. pose proof (nn_ge0 _ Hy) as Y.
  destruct Hx as [Fx Sx], Hy as [Fy Sy].
  assert (Rabs (rnd64 (B2R x - B2R y)) < P2 emax64) as O by (apply no_ovf, abs_nn; lra).
  destruct (fsub_correct x y Fx Fy O) as [V F]. split; auto. split; auto.
  pose proof (Bminus_correct prec64 emax64 _ _ mode_NE x y Fx Fy) as C. simpl (round_mode mode_NE) in C.
  rewrite Rlt_bool_true in C by exact O. destruct C as (_ & _ & C). unfold fsub. rewrite C, Sx, Sy.
  destruct (Rcompare_spec (B2R x - B2R y) 0); auto. lra.
Qed.

Lemma f1_val : B2R (f_of_Z 1) = 1 /\ nn (f_of_Z 1).
Proof.
  destruct (f_of_Z_correct 1) as [V F]; [cbn; lia|]. split; auto. apply nn_pos; auto. rewrite V. lra.
Qed.

(** a proportion *)
Lemma ratio x y : nn x -> nn y -> 0 < B2R y -> B2R x <= B2R y ->
  nn (fdiv x y) /\ B2R (fdiv x y) = rnd64 (B2R x / B2R y) /\ 0 <= B2R (fdiv x y) <= 1.
Proof.
  intros Hx Hy P L. pose proof (nn_ge0 _ Hx).
  assert (0 <= B2R x / B2R y <= 1) as B.
  { split; [apply Rle_mult_inv_pos; auto|]. apply Rmult_le_reg_r with (B2R y); auto. unfold Rdiv. rewrite Rmult_assoc, Rinv_l; lra. }
  destruct (fdiv_nn x y) as [N V]; auto.
  { apply Rle_trans with 1; [lra|]. change 1 with (P2 0). apply bpow_le. lia. }
  split; auto. split; auto. rewrite V. split; [apply rnd_nn; lra|apply rnd64_le; auto using format64_1; lra].
Qed.

Lemma ratio_self x : nn x -> 0 < B2R x -> fdiv x x = f_of_Z 1.
Proof.
  intros N P. destruct (ratio x x N N P (Rle_refl _)) as (M & V & _). destruct f1_val as [V1 N1].
  apply nn_eq; auto. rewrite V, V1. replace (B2R x / B2R x) with 1 by (field; lra). apply rnd64_1.
Qed.

Lemma ratio_zero y : nn y -> 0 < B2R y -> fdiv f0 y = f0.
Proof.
  intros N P. destruct (ratio f0 y nn_f0 N P) as (M & V & _); [cbn; lra|].
  apply nn_zero; auto. rewrite V. change (B2R64 f0) with 0. replace (0 / B2R y) with 0 by (field; lra). apply rnd64_0.
Qed.

(** ** Rows of counts *)

(** zero, or neither tiny nor huge *)
Definition sane (x : f64) : Prop := nn x /\ (B2R x = 0 \/ P2 (-200) <= B2R x <= P2 200).

Definition rle (a b : f64) : Prop := B2R a <= B2R b.

Record good_row (f t : list f64) : Prop := {
  gr_len : length f = length t;
  gr_ne : f <> [];
  gr_f : Forall sane f;
  gr_t : Forall sane t;
  gr_fs : StronglySorted rle (f0 :: f);
  gr_ts : StronglySorted rle (f0 :: t);
  gr_fl : 0 < B2R (last f f0);
  gr_tl : 0 < B2R (last t f0);
  gr_nz : Forall2 (fun a b => B2R b = 0 -> 0 < B2R a) f t
}.

Lemma sane_nn x : sane x -> nn x.
Proof. now intros []. Qed.
Lemma sane_ub x : sane x -> B2R x <= P2 200.
Proof. intros [_ [->|H]]; [apply bpow_ge_0|apply H]. Qed.
Lemma sane_lb x : sane x -> 0 < B2R x -> P2 (-200) <= B2R x.
Proof. intros [_ [E|H]] P; [lra|apply H]. Qed.
Lemma sane_f0 : sane f0.
Proof. split; [apply nn_f0|left; reflexivity]. Qed.

Lemma last_cons_f0 (a : f64) l : l <> [] -> last (a :: l) f0 = last l f0.
Proof. destruct l; [congruence|reflexivity]. Qed.
Lemma last_in {A} (l : list A) d : l <> [] -> In (last l d) l.
Proof.
  induction l as [|a l IH]; [congruence|]. intros _. destruct l as [|b l]; [now left|].
  right. apply IH. discriminate.
Qed.
Lemma sorted_last_ge l x : StronglySorted rle l -> In x l -> rle x (last l f0).
Proof.
  induction l as [|a l IH]; [contradiction|]. intros S [<-|I].
  - destruct l as [|b l]; [unfold rle; cbn; lra|]. apply StronglySorted_inv in S as [_ F].
    eapply Forall_forall in F; [exact F|]. rewrite last_cons_f0 by discriminate. apply last_in. discriminate.
  - destruct l as [|b l]; [contradiction|]. apply StronglySorted_inv in S as [S _].
    rewrite last_cons_f0 by discriminate. auto.
Qed.

(** an axis of a curve: finite, non-decreasing from 0 to 1 *)
Record unit_axis (l : list f64) : Prop := {
  ua_fin : Forall (fun x => fisfin x = true) l;
  ua_sorted : StronglySorted (fun a b => fleb a b = true) l;
  ua_hd : hd f0 l = f0;
  ua_last : last l f0 = f_of_Z 1;
  ua_unit : Forall (fun x => fleb f0 x = true /\ fleb x (f_of_Z 1) = true) l
}.

Lemma sorted_map (g : f64 -> f64) l : (forall x y, In x l -> In y l -> rle x y -> fleb (g x) (g y) = true) ->
  StronglySorted rle l -> StronglySorted (fun a b => fleb a b = true) (map g l).
Proof.
  intros H S. induction S as [|a l S IH F]; cbn [map]; constructor.
  - apply IH. intros. apply H; auto; now right.
  - apply Forall_forall. intros b Hb. apply in_map_iff in Hb as (c & <- & Hc). apply H; [now left|now right|].
    eapply Forall_forall in F; eauto.
Qed.

Lemma last_map {A B} (g : A -> B) l d e : l <> [] -> last (map g l) d = g (last l e).
Proof.
  induction l as [|a l IH]; [congruence|]. intros _. destruct l as [|b l]; [reflexivity|].
  transitivity (last (map g (b :: l)) d); [reflexivity|]. rewrite IH by discriminate. reflexivity.
Qed.

Lemma rate_axis l : l <> [] -> Forall sane l -> StronglySorted rle (f0 :: l) -> 0 < B2R (last l f0) ->
  unit_axis (div_last (f0 :: l)) /\ length (div_last (f0 :: l)) = S (length l).
Proof.
  intros Ne Sn So P.
  assert (lastn (f0 :: l) = last l f0) as EL by (unfold lastn; cbn [n0 f64_num]; now apply last_cons_f0).
  assert (forall x, In x (f0 :: l) -> nn x /\ B2R x <= B2R (last l f0)) as B.
  { intros x Hx. split.
    - destruct Hx as [<-|Hx]; [apply nn_f0|]. eapply Forall_forall in Sn; eauto. now apply sane_nn.
    - pose proof (sorted_last_ge (f0 :: l) x So Hx) as Q. rewrite last_cons_f0 in Q by auto. exact Q. }
  assert (nn (last l f0)) as NL by (apply B; right; now apply last_in).
  unfold div_last. rewrite EL. split; [|cbn; now rewrite map_length].
  assert (forall x, In x (f0 :: l) -> nn (fdiv x (last l f0)) /\ B2R (fdiv x (last l f0)) = rnd64 (B2R x / B2R (last l f0)) /\ 0 <= B2R (fdiv x (last l f0)) <= 1) as R.
  { intros x Hx. destruct (B x Hx). now apply ratio. }
  destruct f1_val as [V1 [F1 _]].
  constructor.
  - apply Forall_forall. intros z Hz. apply in_map_iff in Hz as (x & <- & Hx). apply R; auto.
  - apply sorted_map; auto. intros x y Hx Hy L. destruct (R x Hx) as ((Fx & _) & Vx & _). destruct (R y Hy) as ((Fy & _) & Vy & _).
    apply fleb_fin; auto. cbn [ndiv f64_num]. rewrite Vx, Vy. apply rnd64_mono. apply Rmult_le_compat_r; [|exact L].
    left. now apply Rinv_0_lt_compat.
  - cbn [map hd]. cbn [ndiv f64_num]. now apply ratio_zero.
  - rewrite (last_map _ _ f0 f0) by discriminate. rewrite last_cons_f0 by auto. now apply ratio_self.
  - apply Forall_forall. intros z Hz. apply in_map_iff in Hz as (x & <- & Hx). destruct (R x Hx) as ((Fx & _) & Vx & Bx).
    split; apply fleb_fin; auto; cbn [ndiv f64_num]; [cbn [B2R f0]; lra|]. rewrite V1. lra.
Qed.

(** *** Recall-precision *)

Lemma precision_val a b : sane a -> sane b -> (B2R b = 0 -> 0 < B2R a) ->
  nn (fdiv b (fadd b a)) /\ 0 <= B2R (fdiv b (fadd b a)) <= 1.
Proof.
  intros Sa Sb N. pose proof (nn_ge0 _ (sane_nn _ Sa)) as A. pose proof (nn_ge0 _ (sane_nn _ Sb)) as B.
  destruct (fadd_nn b a) as [M V]; auto using sane_nn.
  { apply Rle_trans with (P2 200 + P2 200); [apply Rplus_le_compat; now apply sane_ub|].
    replace (P2 200 + P2 200) with (P2 201) by (change 201%Z with (1 + 200)%Z; rewrite bpow_plus; change (P2 1) with 2; lra).
    apply bpow_le. lia. }
  assert (B2R b <= B2R (fadd b a)) as L by (rewrite V; apply rnd64_ge; [apply B2R_format|lra]).
  assert (B2R a <= B2R (fadd b a)) as L' by (rewrite V; apply rnd64_ge; [apply B2R_format|lra]).
  assert (0 < B2R (fadd b a)) as P by (destruct (Req_dec (B2R b) 0) as [E|E]; [specialize (N E)|]; lra).
  destruct (ratio b (fadd b a)) as (Q & _ & R); auto using sane_nn.
Qed.

Definition in01f (x : f64) : Prop := fisfin x = true /\ 0 <= B2R x <= 1.
Definition prec_row (f t : list f64) : list f64 :=
  back_fill (map2 (fun t f => ndiv t (nadd t f)) (f0 :: t) (f0 :: f)).

Lemma map2_len {A B C} (g : A -> B -> C) l m : length l = length m -> length (map2 g l m) = length l.
Proof. revert m; induction l as [|a l IH]; intros [|b m] H; try discriminate; cbn [map2 length]; auto. Qed.

Lemma back_fill_len (l : list f64) : length (back_fill l) = length l.
Proof. destruct l as [|a [|b l]]; reflexivity. Qed.

Lemma back_fill_tail (a : f64) l (Q : f64 -> Prop) : l <> [] -> Forall Q l -> Forall Q (back_fill (a :: l)).
Proof. destruct l as [|b l]; [congruence|]. intros _ H. cbn [back_fill]. inversion H; subst. constructor; auto. Qed.

Lemma back_fill_last (a : f64) l d : l <> [] -> last (back_fill (a :: l)) d = last l d.
Proof. destruct l as [|b l]; [congruence|]. intros _. reflexivity. Qed.

Lemma Forall_map2 {A B C} (g : A -> B -> C) (Q : C -> Prop) l m :
  Forall2 (fun a b => Q (g b a)) m l -> Forall Q (map2 g l m).
Proof. induction 1; cbn [map2]; constructor; auto. Qed.

Lemma last_map2 {A B C} (g : A -> B -> C) l m d e k : length l = length m -> l <> [] ->
  last (map2 g l m) d = g (last l e) (last m k).
Proof.
  revert m. induction l as [|a l IH]; intros [|b m] L N; try discriminate; try congruence.
  destruct l as [|a' l], m as [|b' m]; try discriminate; [reflexivity|].
  transitivity (last (map2 g (a' :: l) (b' :: m)) d); [reflexivity|]. rewrite IH by (auto; discriminate). reflexivity.
Qed.

Lemma Forall2_strong {A B} (P : A -> Prop) (Q : B -> Prop) (R S : A -> B -> Prop) l m :
  Forall P l -> Forall Q m -> Forall2 R l m -> (forall a b, P a -> Q b -> R a b -> S a b) -> Forall2 S l m.
Proof. intros HP HQ H I. induction H; constructor; inversion HP; inversion HQ; subst; auto. Qed.

Lemma prec_row_ok f t : good_row f t ->
  Forall in01f (prec_row f t) /\ length (prec_row f t) = S (length f) /\
  last (prec_row f t) f0 = fdiv (last t f0) (fadd (last t f0) (last f f0)).
Proof.
  intros G. destruct G as [L N Sf St Ff Ft Fl Tl Z]. unfold prec_row. cbn [map2].
  assert (t <> []) as Nt by (intros ->; destruct f; [congruence|discriminate]).
  assert (map2 (fun t f => ndiv t (nadd t f)) t f <> []) as Nm.
  { destruct t, f; try congruence; discriminate. }
  split; [|split].
  - apply back_fill_tail; auto. apply Forall_map2. eapply Forall2_strong; [exact Sf|exact St|exact Z|].
    intros a b Sa Sb H. destruct (precision_val a b Sa Sb H) as [[F _] R]. split; auto.
  - rewrite back_fill_len. cbn [length]. rewrite map2_len; congruence.
  - rewrite back_fill_last by auto. rewrite (last_map2 _ _ _ _ f0 f0) by (auto; congruence). reflexivity.
Qed.

(** *** Precision-recall-gain *)

Lemma P2_dbl e : P2 e + P2 e = P2 (e + 1).
Proof. rewrite bpow_plus. change (P2 1) with 2. lra. Qed.

Lemma fsub_inf x : fisfin x = true -> fsub x finf = fninf.
Proof. destruct x as [s|s| |s m e B]; try discriminate; reflexivity. Qed.

Lemma one_minus x : nn x -> B2R x <= 1 -> nn (fsub (f_of_Z 1) x) /\ B2R (fsub (f_of_Z 1) x) = rnd64 (1 - B2R x).
Proof.
  intros N L. destruct f1_val as [V1 N1]. rewrite <- V1. apply fsub_nn; auto; rewrite V1; auto.
  change 1 with (P2 0). apply bpow_le. lia.
Qed.
Lemma one_minus_zero : fsub (f_of_Z 1) f0 = f_of_Z 1.
Proof.
  destruct f1_val as [V1 N1]. destruct (one_minus f0 nn_f0) as [N V]; [change (B2R64 f0) with 0; lra|].
  apply nn_eq; [exact N|exact N1|]. rewrite V, V1. change (B2R64 f0) with 0. rewrite Rminus_0_r. apply rnd64_1.
Qed.
Lemma one_minus_one : fsub (f_of_Z 1) (f_of_Z 1) = f0.
Proof.
  destruct f1_val as [V1 N1]. destruct (one_minus _ N1) as [N V]; [lra|].
  apply nn_zero; [exact N|]. rewrite V, V1, Rminus_eq_0. apply rnd64_0.
Qed.

Section Gain.
  Variables np nn_ : f64.
  Hypothesis Sp : sane np.
  Hypothesis Sn : sane nn_.
  Hypothesis Pp : 0 < B2R np.
  Hypothesis Pn : 0 < B2R nn_.

  Definition gain (tp x : f64) : f64 := fsub (f_of_Z 1) (fdiv (fmul np x) (fmul nn_ tp)).

  Definition bounded (x : f64) : Prop := nn x /\ B2R x <= P2 200.

  Lemma prod_ub x y : bounded x -> bounded y -> 0 <= B2R x * B2R y <= P2 400.
  Proof.
    intros [Nx Ux] [Ny Uy]. pose proof (nn_ge0 _ Nx). pose proof (nn_ge0 _ Ny). split; [now apply Rmult_le_pos|].
    change 400%Z with (200 + 200)%Z. rewrite bpow_plus. apply Rmult_le_compat; auto.
  Qed.
  Lemma sane_bounded x : sane x -> bounded x.
  Proof. intros S. split; [now apply sane_nn|now apply sane_ub]. Qed.

  Lemma num_val x : bounded x -> nn (fmul np x) /\ B2R (fmul np x) = rnd64 (B2R np * B2R x) /\ 0 <= B2R (fmul np x) <= P2 400.
  Proof.
    intros B. pose proof (prod_ub np x (sane_bounded _ Sp) B) as U.
    destruct (fmul_nn np x) as [N V]; [now apply sane_nn|apply B| |].
    { apply Rle_trans with (P2 400); [lra|apply bpow_le; lia]. }
    split; auto. split; auto. rewrite V. split; [apply rnd_nn; lra|apply rnd64_le; [apply format64_pow; lia|lra]].
  Qed.

  Lemma den_val tp : sane tp -> 0 < B2R tp ->
    nn (fmul nn_ tp) /\ B2R (fmul nn_ tp) = rnd64 (B2R nn_ * B2R tp) /\ P2 (-400) <= B2R (fmul nn_ tp).
  Proof.
    intros S P. pose proof (prod_ub nn_ tp (sane_bounded _ Sn) (sane_bounded _ S)) as U.
    destruct (fmul_nn nn_ tp) as [N V]; [now apply sane_nn|now apply sane_nn| |].
    { apply Rle_trans with (P2 400); [lra|apply bpow_le; lia]. }
    split; auto. split; auto. rewrite V. apply rnd64_ge; [apply format64_pow; lia|].
    change (-400)%Z with (-200 + -200)%Z. rewrite bpow_plus.
    apply Rmult_le_compat; try apply bpow_ge_0; now apply sane_lb.
  Qed.

  Definition qv (tp x : R) : R := rnd64 (rnd64 (B2R np * x) / rnd64 (B2R nn_ * tp)).

  Lemma quot_val tp x : sane tp -> 0 < B2R tp -> bounded x ->
    let q := fdiv (fmul np x) (fmul nn_ tp) in nn q /\ B2R q = qv (B2R tp) (B2R x) /\ 0 <= B2R q <= P2 800.
  Proof.
    intros S P B q. destruct (num_val x B) as (N1 & V1 & U1). destruct (den_val tp S P) as (N2 & V2 & L2).
    assert (0 < B2R (fmul nn_ tp)) as P2' by (eapply Rlt_le_trans; [apply (bpow_gt_0 radix2 (-400))|exact L2]).
    assert (B2R (fmul np x) / B2R (fmul nn_ tp) <= P2 800) as Q.
    { apply Rmult_le_reg_r with (B2R (fmul nn_ tp)); auto. unfold Rdiv. rewrite Rmult_assoc, Rinv_l, Rmult_1_r by lra.
      apply Rle_trans with (P2 800 * P2 (-400)).
      - rewrite <- bpow_plus. apply U1.
      - apply Rmult_le_compat_l; [apply bpow_ge_0|exact L2]. }
    destruct (fdiv_nn _ _ N1 N2 P2') as [N V]; [apply Rle_trans with (P2 800); [exact Q|apply bpow_le; lia]|].
    fold q in N, V. split; auto. split; [unfold qv; rewrite V, V1, V2; reflexivity|].
    split; [now apply nn_ge0|]. rewrite V. apply rnd64_le; [apply format64_pow; lia|exact Q].
  Qed.

  Lemma gain_fin tp x : sane tp -> 0 < B2R tp -> bounded x ->
    fisfin (gain tp x) = true /\ B2R (gain tp x) = rnd64 (1 - qv (B2R tp) (B2R x)) /\ - P2 800 <= B2R (gain tp x) <= 1.
  Proof.
    intros S P B. destruct (quot_val tp x S P B) as ([Fq Sq] & Vq & Uq). destruct f1_val as [V1 [F1 _]].
    destruct (fsub_correct (f_of_Z 1) (fdiv (fmul np x) (fmul nn_ tp)) F1 Fq) as [V F].
    { apply no_ovf. rewrite V1. apply Rabs_le. assert (1 <= P2 800) by (change 1 with (P2 0); apply bpow_le; lia).
      assert (P2 800 <= P2 1000) by (apply bpow_le; lia). lra. }
    fold (gain tp x) in V, F. split; auto. rewrite V1, Vq in V. split; auto. rewrite V. split.
    - apply rnd64_ge; [apply generic_format_opp, format64_pow; lia|]. rewrite <- Vq. lra.
    - apply rnd64_le; [apply format64_1|]. rewrite <- Vq. lra.
  Qed.

  (** more true positives, fewer false ones: more gain *)
  Lemma gain_mono tp x tp' x' : sane tp -> sane tp' -> 0 < B2R tp -> B2R tp <= B2R tp' -> bounded x -> bounded x' ->
    B2R x' <= B2R x -> B2R (gain tp x) <= B2R (gain tp' x').
  Proof.
    intros S S' P L B B' L'. assert (0 < B2R tp') as P' by lra.
    destruct (gain_fin tp x S P B) as (_ & -> & _). destruct (gain_fin tp' x' S' P' B') as (_ & -> & _).
    apply rnd64_mono. assert (qv (B2R tp') (B2R x') <= qv (B2R tp) (B2R x)); [|lra].
    destruct (num_val x B) as (_ & V1 & U1). destruct (num_val x' B') as (_ & V1' & U1').
    destruct (den_val tp S P) as (_ & V2 & L2). destruct (den_val tp' S' P') as (_ & V2' & L2').
    pose proof (bpow_gt_0 radix2 (-400)) as E.
    unfold qv. rewrite <- V1, <- V1', <- V2, <- V2'. apply rnd64_mono. unfold Rdiv. apply Rmult_le_compat.
    - lra.
    - left. apply Rinv_0_lt_compat. lra.
    - rewrite V1, V1'. apply rnd64_mono. apply Rmult_le_compat_l; lra.
    - apply Rinv_le_contravar; [lra|]. rewrite V2, V2'. apply rnd64_mono. apply Rmult_le_compat_l; lra.
  Qed.

  Lemma fdiv_inf z : nn z -> 0 < B2R z -> fdiv z f0 = finf.
  Proof.
    intros [F S] P. destruct z as [s|s| |s m e B]; try discriminate; [cbn in P; lra|].
    cbn [Bsign] in S. subst s. reflexivity.
  Qed.

  Lemma gain_at_zero x : bounded x -> P2 (-200) <= B2R x -> gain f0 x = fninf.
  Proof.
    intros B L. unfold gain. destruct (num_val x B) as (N & V & _).
    assert (0 < B2R (fmul np x)) as P.
    { apply Rlt_le_trans with (P2 (-400)); [apply bpow_gt_0|]. rewrite V. apply rnd64_ge; [apply format64_pow; lia|].
      change (-400)%Z with (-200 + -200)%Z. rewrite bpow_plus. apply Rmult_le_compat; try apply bpow_ge_0; auto. now apply sane_lb. }
    assert (fmul nn_ f0 = f0) as ->.
    { destruct (fmul_nn nn_ f0 (sane_nn _ Sn) nn_f0) as [M W].
      - change (B2R64 f0) with 0. rewrite Rmult_0_r. apply bpow_ge_0.
      - apply nn_zero; auto. rewrite W. change (B2R64 f0) with 0. rewrite Rmult_0_r. apply rnd64_0. }
    rewrite fdiv_inf by auto. apply fsub_inf. apply f1_val.
  Qed.

  (** all positives found *)
  Lemma gain_top : gain np f0 = f_of_Z 1.
  Proof.
    destruct (den_val np Sp Pp) as (N2 & _ & L2). pose proof (bpow_gt_0 radix2 (-400)).
    destruct (fmul_nn np f0 (sane_nn _ Sp) nn_f0) as [M W].
    { change (B2R64 f0) with 0. rewrite Rmult_0_r. apply bpow_ge_0. }
    assert (fmul np f0 = f0) as E.
    { apply nn_zero; auto. rewrite W. change (B2R64 f0) with 0. rewrite Rmult_0_r. apply rnd64_0. }
    unfold gain. rewrite E, ratio_zero by (auto; lra). apply one_minus_zero.
  Qed.

  Lemma gain_bottom : gain np nn_ = f0.
  Proof.
    destruct (den_val np Sp Pp) as (N2 & V2 & L2). pose proof (bpow_gt_0 radix2 (-400)).
    destruct (num_val nn_ (sane_bounded _ Sn)) as (N1 & V1 & _).
    assert (fmul np nn_ = fmul nn_ np) as E.
    { apply nn_eq; auto. rewrite V1, V2. f_equal. apply Rmult_comm. }
    unfold gain. rewrite E, ratio_self by (auto; lra). apply one_minus_one.
  Qed.

  (** false negatives *)
  Lemma fns_val tp : sane tp -> B2R tp <= B2R np -> bounded (fsub np tp) /\ B2R (fsub np tp) = rnd64 (B2R np - B2R tp).
  Proof.
    intros S L. pose proof (nn_ge0 _ (sane_nn _ S)). pose proof (sane_ub _ Sp) as U.
    destruct (fsub_nn np tp) as [N V]; auto using sane_nn.
    { apply Rle_trans with (P2 200); [exact U|apply bpow_le; lia]. }
    split; auto. split; auto. rewrite V. apply rnd64_le; [apply format64_pow; lia|lra].
  Qed.
  Lemma fns_self : fsub np np = f0.
  Proof.
    destruct (fns_val np Sp (Rle_refl _)) as [[N _] V]. apply nn_zero; auto. rewrite V, Rminus_eq_0. apply rnd64_0.
  Qed.
  Lemma fns_f0 : fsub np f0 = np.
  Proof.
    destruct (fns_val f0 sane_f0) as [[N _] V]; [change (B2R64 f0) with 0; lra|]. apply nn_eq; auto using sane_nn.
    rewrite V. change (B2R64 f0) with 0. rewrite Rminus_0_r. apply rnd64_id, B2R_format.
  Qed.

  (** one entry of the recall gain *)
  Definition rg (tp : f64) : f64 := gain tp (fsub np tp).

  Lemma rg_cases tp : sane tp -> B2R tp <= B2R np ->
    (tp = f0 /\ rg tp = fninf) \/ (0 < B2R tp /\ fisfin (rg tp) = true /\ - P2 800 <= B2R (rg tp) <= 1).
  Proof.
    intros S L. pose proof (nn_ge0 _ (sane_nn _ S)) as G. destruct (Req_dec (B2R tp) 0) as [E|E].
    - left. assert (tp = f0) as -> by (apply nn_zero; auto using sane_nn). split; auto. unfold rg. rewrite fns_f0.
      apply gain_at_zero; [now apply sane_bounded|now apply sane_lb].
    - right. assert (0 < B2R tp) as P by lra. split; auto. destruct (fns_val tp S L) as [B _].
      destruct (gain_fin tp _ S P B) as (F & _ & U). split; auto.
  Qed.

  Lemma rg_mono tp tp' : sane tp -> sane tp' -> B2R tp <= B2R tp' -> B2R tp' <= B2R np -> fleb (rg tp) (rg tp') = true.
  Proof.
    intros S S' L L'. destruct (rg_cases tp S) as [[-> E]|(P & F & U)]; [lra| |].
    - rewrite E. destruct (rg_cases tp' S' L') as [[-> E']|(P' & F' & U')]; [rewrite E'; reflexivity|].
      destruct (rg tp'); try discriminate; reflexivity.
    - destruct (rg_cases tp' S' L') as [[-> E']|(P' & F' & U')]; [change (B2R64 f0) with 0 in L; lra|].
      apply fleb_fin; auto. destruct (fns_val tp S) as [B V]; [lra|]. destruct (fns_val tp' S' L') as [B' V'].
      apply gain_mono; auto. rewrite V, V'. apply rnd64_mono. lra.
  Qed.

  (** one entry of the precision gain *)
  Lemma pg_cases tp x : sane tp -> sane x -> (B2R tp = 0 -> 0 < B2R x) ->
    gain tp x = fninf \/ (fisfin (gain tp x) = true /\ - P2 800 <= B2R (gain tp x) <= 1).
  Proof.
    intros S Sx H. pose proof (nn_ge0 _ (sane_nn _ S)) as G. destruct (Req_dec (B2R tp) 0) as [E|E].
    - left. assert (tp = f0) as -> by (apply nn_zero; auto using sane_nn). apply gain_at_zero; [now apply sane_bounded|].
      apply sane_lb; auto.
    - right. assert (0 < B2R tp) as P by lra. destruct (gain_fin tp x S P (sane_bounded _ Sx)) as (F & _ & U). auto.
  Qed.
End Gain.
