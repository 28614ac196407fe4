(** The standard curves in IEEE doubles: check_curve, area and interp1d do not
    fail on them. *)
From Coq Require Import Reals Lra Lia List Sorted Bool Permutation.
From Flocq Require Import Core BinarySingleNaN.
From Verif Require Import PyBase F64 F64Lemmas Num NumOk Util UtilProofs ListLemmas UtilProofs2 BootUtil BootProofs2 BootProofs4
  PerfCurves PerfProofs PerfProofs2 PerfProofs7 PerfProofs8 PerfProofs9 CurveBoot CurveProofs SumProofs.
Open Scope R_scope.
Open Scope list_scope.

Definition grid64 (g : list f64) : Prop := forall x, In x g -> fleb f0 x = true /\ fleb x (f_of_Z 1) = true.

Lemma last_S (A : Type) (a : A) l d d' : last (a :: l) d = last (a :: l) d'.
Proof. revert a. induction l as [|b l IH]; intros a; [reflexivity|]. cbn [last] in *. apply IH. Qed.

Lemma nice_unit g x y : unit_axis x -> length x = length y -> (2 <= length x)%nat -> Forall (fun v => fltb v finf = true) y -> grid64 g ->
  nice g (x, y).
Proof.
  intros U L L2 B G. unfold nice. cbn [fst snd]. split; auto. split; auto. split; [apply U|]. split; [exact (ua_sorted _ U)|].
  split; [exact B|]. intros v Hv. destruct (G v Hv) as [A C].
  change (fleb (hd f0 x) v = true /\ fleb v (last x f0) = true). rewrite (ua_hd _ U), (ua_last _ U). auto.
Qed.

(** ** Sums that cannot become NaN *)
Definition low (m : R) (a : f64) : Prop := a = fninf \/ (fisfin a = true /\ B2R a <= m).

Lemma low_notnan m a : low m a -> fisnan a = false.
Proof. intros [->|[F _]]; [reflexivity|now apply fisfin_notnan]. Qed.

Lemma fadd_low (j k : Z) a b : (0 <= j)%Z -> (0 <= k)%Z -> (j + k <= 2 ^ 53)%Z -> low (IZR j) a -> low (IZR k) b -> low (IZR (j + k)) (fadd a b).
Proof.
  intros J K JK [->|[Fa Ba]] [->|[Fb Bb]].
  - left. reflexivity.
  - left. destruct b as [s|s| |s m e H]; try discriminate; reflexivity.
  - left. destruct a as [s|s| |s m e H]; try discriminate; reflexivity.
  - assert (rnd64 (B2R a + B2R b) <= IZR (j + k)) as U.
    { apply rnd64_le; [apply format64_IZR; lia|]. rewrite plus_IZR. lra. }
    destruct (Rlt_le_dec (Rabs (rnd64 (B2R a + B2R b))) (bpow radix2 emax64)) as [O|O].
    + right. destruct (fadd_correct a b Fa Fb O) as [V F]. split; [exact F|]. rewrite V. exact U.
    + left. pose proof (Bplus_correct prec64 emax64 _ _ mode_NE a b Fa Fb) as C. simpl (round_mode mode_NE) in C.
      match type of C with if ?c then _ else _ => destruct c eqn:Ec end.
      { exfalso. destruct (Rlt_bool_spec (Rabs (rnd64 (B2R a + B2R b))) (bpow radix2 emax64)); [lra|]. congruence. }
      destruct C as [C S]. fold (fadd a b) in C.
      assert (Bsign a = true) as Sa.
      { destruct (Bsign a) eqn:Sa; auto. exfalso. assert (nn a /\ nn b) as [Na Nb] by (split; split; congruence).
        pose proof (nn_ge0 _ Na). pose proof (nn_ge0 _ Nb). rewrite Rabs_pos_eq in O by (apply rnd64_ge; [apply format64_0|lra]).
        assert (IZR (j + k) < bpow radix2 emax64); [|lra]. apply Rle_lt_trans with (IZR (2 ^ 53)); [apply IZR_le; lia|].
        change (IZR (2 ^ 53)) with (P2 53). apply bpow_lt. reflexivity. }
      apply B2SF_inj. rewrite C, Sa. reflexivity.
Qed.

Lemma low_f0 j : (0 <= j)%Z -> low (IZR j) f0.
Proof. intros J. right. split; [reflexivity|]. change (B2R64 f0) with 0. apply (IZR_le 0). exact J. Qed.
Lemma sums_to_low l v : sums_to l v -> Forall (low 1) l -> (Z.of_nat (length l) <= 2 ^ 53)%Z -> low (IZR (Z.of_nat (length l))) v.
Proof.
  induction 1 as [|a|l m v w _ IHv _ IHw|l m v P _ IH]; intros F L.
  - now apply low_f0.
  - now inversion F.
  - apply Forall_app in F as [F1 F2]. rewrite app_length, Nat2Z.inj_add in *. apply fadd_low; [lia|lia|lia|apply IHv; auto; lia|apply IHw; auto; lia].
  - rewrite <- (Permutation_length P) in *. apply IH; auto. now apply (Permutation_Forall (Permutation_sym P)).
Qed.
Lemma row_sum_low n l : Forall (low 1) l -> (Z.of_nat (length l) <= 2 ^ 53)%Z -> fisnan (row_sum n l) = false.
Proof. intros F L. eapply low_notnan. exact (sums_to_low _ _ (row_sums n l) F L). Qed.


(** a step of a non-decreasing axis inside [0,1] *)
Definition step01 (d : f64) : Prop := fisfin d = true /\ 0 <= B2R d <= 1.

Lemma axis_step x : unit_axis x -> Forall step01 (diff x).
Proof.
  intros U. assert (Forall (fun v => fisfin v = true /\ 0 <= B2R v <= 1) x) as R.
  { pose proof (ua_fin _ U) as F. pose proof (ua_unit _ U) as V. rewrite Forall_forall in *. intros v Hv. specialize (F v Hv).
    destruct (V v Hv) as [A B]. destruct f1_val as [V1 N1]. apply fleb_fin in A; [|reflexivity|auto]. apply fleb_fin in B; [|auto|apply N1].
    change (B2R64 f0) with 0 in A. rewrite V1 in B. auto. }
  pose proof (ua_sorted _ U) as S. clear U. induction x as [|a [|b l] IH]; [constructor|constructor|].
  rewrite diff_cons. inversion R as [|? ? [Fa Ba] R']; subst. inversion S as [|? ? S' Fs]; subst. constructor; [|now apply IH].
  inversion R' as [|? ? [Fb Bb] _]; subst. inversion Fs as [|? ? L _]; subst. apply fleb_fin in L; auto.
  assert (0 <= rnd64 (B2R b - B2R a) <= 1) as B.
  { split; [apply rnd64_ge; [apply format64_0|lra]|]. apply rnd64_le; [|lra]. apply format64_1. }
  assert (Rabs (rnd64 (B2R b - B2R a)) < bpow radix2 emax64) as O.
  { rewrite Rabs_pos_eq by apply B. apply Rle_lt_trans with 1; [apply B|]. change 1 with (P2 0). apply bpow_lt. reflexivity. }
  destruct (fsub_correct b a Fb Fa O) as [V F]. change (nsub b a) with (fsub b a). split; [exact F|]. rewrite V. exact B.
Qed.

Lemma clean_nan (v : f64) : low 1 v \/ fisnan v = true -> low 1 (if nisnan v then n0 else v).
Proof. change (nisnan v) with (fisnan v). intros [L|H]; [|rewrite H; apply (low_f0 1); lia]. now rewrite (low_notnan _ _ L). Qed.

Lemma fmul_fninf d : step01 d -> low 1 (fmul fninf d) \/ fisnan (fmul fninf d) = true.
Proof.
  intros [F B]. destruct d as [s|s| |s m e H]; try discriminate; [right; reflexivity|]. destruct s; [|left; left; reflexivity].
  exfalso. destruct B as [B _]. cbn in B. unfold F2R in B. cbn [Fnum Fexp] in B. pose proof (bpow_gt_0 radix2 e).
  assert (IZR (Z.neg m) < 0) by now apply IZR_lt. nra.
Qed.

Lemma fmul_low v d : pgain v -> step01 d -> low 1 (fmul v d) \/ fisnan (fmul v d) = true.
Proof.
  intros [->|[Fv Bv]] S; [now apply fmul_fninf|]. destruct S as [Fd Bd]. left. right.
  assert (Rabs (B2R v * B2R d) <= P2 1000) as M.
  { assert (P2 800 <= P2 1000) by (apply bpow_le; lia). assert (1 <= P2 800) by (change 1 with (P2 0); apply bpow_le; lia).
    apply Rabs_le. split; nra. }
  destruct (fmul_correct v d Fv Fd (no_ovf _ M)) as [V F]. split; auto. rewrite V. apply rnd64_le; [apply format64_1|]. nra.
Qed.

Lemma map2_in {A B C} (g : A -> B -> C) l : forall m c, In c (map2 g l m) -> exists a b, In a l /\ In b m /\ c = g a b.
Proof.
  induction l as [|a l IH]; intros [|b m] c H; cbn in H; try contradiction. destruct H as [<-|H]; [exists a, b; cbn; auto|].
  destruct (IH _ _ H) as (a' & b' & ? & ? & ?). exists a', b'. cbn. auto.
Qed.

Lemma map2_len_le {A B C} (g : A -> B -> C) l : forall m, (length (map2 g l m) <= length l)%nat.
Proof. induction l as [|a l IH]; intros [|b m]; cbn; try lia. specialize (IH m). lia. Qed.

Lemma removelast_incl {A} (l : list A) v : In v (removelast l) -> In v l.
Proof. induction l as [|a [|b l] IH]; cbn in *; auto. intros [H|H]; auto. Qed.

Lemma removelast_len_le {A} (l : list A) : (length (removelast l) <= length l)%nat.
Proof. induction l as [|a [|b l] IH]; cbn in *; lia. Qed.

Lemma area_prev_notnan n x y : unit_axis x -> Forall pgain y -> (Z.of_nat (length y) <= 2 ^ 53)%Z -> fisnan (area_previous n x y) = false.
Proof.
  intros U P L. unfold area_previous, nansum. apply row_sum_low.
  2: { rewrite map_length. pose proof (map2_len_le (nmul : f64 -> f64 -> f64) (removelast y) (diff x)). pose proof (removelast_len_le y). lia. }
  - apply Forall_forall. intros v Hv. apply in_map_iff in Hv. destruct Hv as (u & <- & Hu). apply clean_nan.
    destruct (map2_in _ _ _ _ Hu) as (a & d & Ha & Hd & ->). apply removelast_incl in Ha. apply fmul_low.
    + eapply Forall_forall in P; eauto.
    + pose proof (axis_step x U) as S. eapply Forall_forall in S; eauto.
Qed.

Lemma trap_low d s : step01 d -> fisfin s = true -> 0 <= B2R s <= 2 -> low 1 (fdiv (fmul d s) (f_of_Z 2)).
Proof.
  intros [Fd Bd] Fs Bs. right. destruct (f_of_Z_correct 2) as [V2 _]; [lia|].
  assert (format64 2) as F2 by (apply (format64_IZR 2); lia).
  assert (2 <= P2 1000) as T. { change 2 with (P2 1). apply bpow_le. lia. }
  assert (0 <= B2R d * B2R s <= 2) as M by nra.
  destruct (fmul_correct d s Fd Fs) as [V F]. { apply no_ovf. apply abs_nn. lra. }
  assert (0 <= B2R (fmul d s) <= 2) as B. { rewrite V. split; [apply rnd_nn; lra|apply rnd64_le; auto; lra]. }
  destruct (fdiv_correct (fmul d s) (f_of_Z 2) F) as [W G].
  - rewrite V2. lra.
  - rewrite V2. apply no_ovf. apply abs_nn. lra.
  - split; auto. rewrite W, V2. apply rnd64_le; [apply format64_1|]. lra.
Qed.

Lemma fadd_unit a b : fisfin a = true -> fisfin b = true -> 0 <= B2R a <= 1 -> 0 <= B2R b <= 1 -> fisfin (fadd a b) = true /\ 0 <= B2R (fadd a b) <= 2.
Proof.
  intros Fa Fb Ba Bb. assert (2 <= P2 1000) as T. { change 2 with (P2 1). apply bpow_le. lia. }
  destruct (fadd_correct a b Fa Fb) as [V F]. { apply no_ovf. apply abs_nn. lra. }
  split; auto. rewrite V. split; [apply rnd_nn; lra|]. apply rnd64_le; [apply (format64_IZR 2); lia|lra].
Qed.

Lemma axis_in01 x : unit_axis x -> Forall in01f x.
Proof.
  intros U. pose proof (ua_fin _ U) as F. pose proof (ua_unit _ U) as V. rewrite Forall_forall in *. intros v Hv. specialize (F v Hv).
  destruct (V v Hv) as [A B]. destruct f1_val as [V1 N1]. apply fleb_fin in A; [|reflexivity|auto]. apply fleb_fin in B; [|auto|apply N1].
  change (B2R64 f0) with 0 in A. rewrite V1 in B. split; auto.
Qed.

Lemma area_lin_notnan n x y : unit_axis x -> Forall in01f y -> (Z.of_nat (length x) <= 2 ^ 53)%Z -> fisnan (area_linear n x y) = false.
Proof.
  intros U P L. unfold area_linear. rewrite Forall_forall in P. apply row_sum_low.
  2: { match goal with |- context [map2 ?g ?l ?m] => pose proof (map2_len_le g l m) end. rewrite diff_length in H. lia. }
  - apply Forall_forall. intros v Hv. destruct (map2_in _ _ _ _ Hv) as (d & s & Hd & Hs & ->).
    destruct (map2_in _ _ _ _ Hs) as (a & b & Ha & Hb & ->). apply removelast_incl in Hb.
    assert (In a y) as Ha' by (destruct y; [contradiction|right; exact Ha]).
    destruct (P a Ha') as [Fa Ba]. destruct (P b Hb) as [Fb Bb]. destruct (fadd_unit a b Fa Fb Ba Bb) as [F B].
    pose proof (axis_step x U) as S. eapply Forall_forall in S; [|exact Hd]. exact (trap_low _ _ S F B).
Qed.

(** ** The three curves *)
Definition works (f : curve_fun f64) y s sw : Prop := forall g, g <> [] -> grid64 g -> exists rows k th areas vals,
  f y s sw = Ok ((rows, k), th) /\ check_curve ((rows, k), th) (Some g) = Ok (rows, k) /\
  curve_area (rows, k) = Ok areas /\ Forall (fun a => fisnan a = false) areas /\ length areas = length rows /\
  interp1d g rows k = Ok vals /\ Forall (fun v => length v = length g) vals /\ length vals = length rows.

Definition fine (k : ikind) (n : nat) (c : list f64 * list f64) : Prop :=
  unit_axis (fst c) /\ length (fst c) = n /\ length (snd c) = n /\
  match k with Linear => Forall in01f (snd c) | Previous => Forall pgain (snd c) | Next => False end.

Lemma in01_pgain x : in01f x -> pgain x.
Proof. intros [F B]. right. split; auto. pose proof (bpow_gt_0 radix2 800). lra. Qed.

Lemma pgain_lt x : pgain x -> fltb x finf = true.
Proof. intros [->|[F _]]; [reflexivity|]. destruct x as [s|s| |s m e H]; try discriminate; try reflexivity; destruct s; reflexivity. Qed.

Lemma fine_pgain k n c : fine k n c -> Forall pgain (snd c).
Proof.
  intros (_ & _ & _ & H). destruct k; try contradiction;
  try exact H; try (eapply Forall_impl; [|exact H]; intros; now apply in01_pgain).
Qed.

Lemma no_nan_exists (l : list f64) : Forall (fun v => fisnan v = false) l -> existsb nisnan l = false.
Proof. induction 1 as [|v l H _ IH]; [reflexivity|]. cbn [existsb]. change (nisnan v) with (fisnan v). now rewrite H, IH. Qed.

Lemma fine_area k n m c : fine k n c -> (2 <= n)%nat -> (Z.of_nat n <= 2 ^ 53)%Z -> area_row k n m c (row_area k m c).
Proof.
  intros Fc N2 NB. pose proof (fine_pgain _ _ _ Fc) as P. destruct Fc as (U & Lx & Ly & K). destruct c as [x y]. unfold area_row. cbn [fst snd] in *.
  split; [now apply Nat.leb_le|]. split.
  { apply no_nan_exists. pose proof (ua_fin _ U) as F. eapply Forall_impl; [|exact F]. intros; now apply fisfin_notnan. }
  split; [apply Nat.eqb_eq; congruence|]. split.
  { apply (no_nan_exists y). eapply Forall_impl; [|exact P]. intros v [->|[F _]]; [reflexivity|now apply fisfin_notnan]. }
  split; [|split; [reflexivity|intros ->; contradiction]].
  unfold row_area. cbn [fst snd]. destruct k; [|contradiction|]; [apply area_prev_notnan; auto; lia|apply area_lin_notnan; auto; lia].
Qed.

Lemma fine_works (f : curve_fun f64) y s sw rows k th : f y s sw = Ok ((rows, k), th) -> rows <> [] -> Forall (fine k (length th)) rows ->
  (2 <= length th)%nat -> (Z.of_nat (length th) <= 2 ^ 53)%Z -> works f y s sw.
Proof.
  intros E Ne Fr N2 NB g Ng G.
  assert (Forall (nice g) rows) as NI.
  { eapply Forall_impl; [|exact Fr]. intros c Hc. pose proof (fine_pgain _ _ _ Hc) as P. destruct Hc as (U & Lx & Ly & _). destruct c as [xx yy].
    cbn [fst snd] in *. apply nice_unit; auto; [congruence|lia|]. eapply Forall_impl; [|exact P]. intros; now apply pgain_lt. }
  assert (k <> Next) as KN.
  { intros ->. destruct rows as [|c rows]; [congruence|]. inversion Fr as [|? ? Hc _]; subst. apply Hc. }
  destruct (interp_rows g rows k NI KN) as (vals & EV & FV).
  set (V := map (row_area k (length rows)) rows).
  assert (Forall2 (area_row k (length th) (length rows)) rows V) as FA.
  { unfold V. generalize (length rows). intros m. clear -Fr N2 NB. induction Fr; cbn [map]; constructor; auto. now apply fine_area. }
  clearbody V.
  assert (curve_area (rows, k) = Ok V) as EA.
  { unfold curve_area. cbn [fst snd]. destruct rows as [|c rows]; [congruence|]. inversion Fr as [|? ? Hc _]; subst. destruct Hc as (_ & Lx & _).
    rewrite Lx. apply area_rows_m; [exact FA|discriminate]. }
  exists rows, k, th, V, vals. split; [exact E|]. split; [apply check_nice; auto|]. split; [exact EA|].
  split; [|split; [symmetry; eapply Forall2_len; exact FA|split; [exact EV|split; [|symmetry; eapply Forall2_len; exact FV]]]].
  - revert FA. generalize (length rows). intros m FA. clear -FA. induction FA as [|? ? ? ? H _ IH]; constructor; auto. apply H.
  - clear -FV. induction FV as [|? ? ? ? [_ H] _ IH]; constructor; auto.
Qed.

Theorem curves_work y s sw F T th : _binary_clf_curve y s sw = Ok (F, T, th) -> good_rows F T (length th) -> F <> [] ->
  (2 <= length th)%nat -> (Z.of_nat (length th) <= 2 ^ 53)%Z ->
  works roc_curve y s sw /\ works recall_precision_curve y s sw /\ works prg_curve y s sw.
Proof.
  intros E G Ne N2 NB. assert (length F <> 0%nat) as LF by (destruct F; [congruence|discriminate]).
  split; [|split].
  - destruct (roc_f64 _ _ _ _ _ _ E G) as (rows & ER & L & H). eapply fine_works; eauto; [intros ->; cbn in L; lia|].
    eapply Forall_impl; [|exact H]. intros c (U & V & A & B). repeat split; auto; try apply U. now apply axis_in01.
  - destruct (rp_f64 _ _ _ _ _ _ E G) as (rows & ER & L & H). eapply fine_works; eauto; [intros ->; cbn in L; lia|].
    eapply Forall_impl; [|exact H]. intros c (U & V & A & B). repeat split; auto; try apply U. eapply Forall_impl; [|exact V]. intros; now apply in01_pgain.
  - destruct (prg_f64 _ _ _ _ _ _ E G) as (rows & ER & L & H). eapply fine_works; eauto; [intros ->; cbn in L; lia|].
    eapply Forall_impl; [|exact H]. intros c (U & V & _ & A & B). repeat split; auto; try apply U.
Qed.
