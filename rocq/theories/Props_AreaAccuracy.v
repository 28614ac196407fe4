(** Property theorem C103: how far the areas of unweighted curves computed in
    doubles (perf_curves.py 54-220, util.py 148-184) are from the exact areas.
    Models: PerfCurves.v, Util.v, CurveBoot.v; specification: Spec_Curves.v. *)
From Coq Require Import Reals Lra List Sorted Bool Permutation Lia.
From Flocq Require Import Core BinarySingleNaN.
From Verif Require Import PyBase F64 F64Lemmas Num NumOk Util UtilProofs ListLemmas UtilProofs2 UtilProofs3 BootUtil BootProofs2 BootProofs5
  PerfCurves PerfProofs PerfProofs2 Spec_Curves PerfProofs3 PerfProofs4 PerfProofs5 PerfProofs6 PerfProofs7 PerfProofs8 PerfProofs9
  PerfProofs10 CurveBoot CurveProofs CurveProofs2 CurveProofs3 Props_Curves MLPaper CompareProofs MeanProofs DoublesProofs AccuracyProofs AreaAccuracy.
Import ListNotations.
Open Scope R_scope.
Open Scope list_scope.

(** ** Counts and weights *)
Lemma fleb_Rleb t a : fisfin t = true -> fisfin a = true -> fleb t a = Rleb (B2R t) (B2R a).
Proof. intros Ft Fa. apply eq_true_iff_eq. rewrite Rleb_spec. now apply fleb_fin. Qed.

Lemma count_weight c t (s : list f64) : fisfin t = true -> finite s -> forall y, length s = length y ->
  w_ge c (B2R t) (map B2R s) y (repeat 1 (length y)) = IZR (count_ge c t s y).
Proof.
  intros Ft. induction s as [|a s IH]; intros F y L; destruct y as [|b y]; try discriminate; [reflexivity|].
  inversion F as [|? ? Fa F']; subst. specialize (IH F' y ltac:(cbn in L; lia)). unfold w_ge in *. cbn [map length repeat wt]. rewrite IH.
  unfold count_ge. cbn [combine filter fst snd]. rewrite (fleb_Rleb t a Ft Fa), andb_comm. destruct (Rleb (B2R t) (B2R a) && eqb b c); cbn [length]; [|lra].
  rewrite Nat2Z.inj_succ, succ_IZR. lra.
Qed.

Lemma thresholds_exact (s D64 : list f64) : finite s -> distinct_desc64 s D64 -> map B2R D64 = D (map B2R s) /\ finite D64.
Proof.
  intros F (S & I & C). assert (finite D64) as FD.
  { apply Forall_forall. intros t Ht. exact (proj1 (Forall_forall _ _) F t (I t Ht)). }
  split; [|exact FD]. apply (distinct_desc_unique (map B2R s)); [|apply D_spec]. split.
  - clear I C. induction S as [|a l S IH H]; [constructor|]. inversion FD as [|? ? Fa Fl]; subst. cbn [map]. constructor; [exact (IH Fl)|].
    apply Forall_forall. intros r Hr. apply in_map_iff in Hr as (b & <- & Hb). apply Rlt_gt. apply fltb_fin; [exact (proj1 (Forall_forall _ _) Fl b Hb)|exact Fa|].
    exact (proj1 (Forall_forall _ _) H b Hb).
  - intros r. rewrite !in_map_iff. split.
    + intros (t & <- & Ht). exists t. split; [reflexivity|exact (I t Ht)].
    + intros (x & <- & Hx). destruct (C x Hx) as (t & Ht & E). exists t. split; [|exact Ht].
      symmetry. apply feqb_fin in E; [exact E|exact (proj1 (Forall_forall _ _) F x Hx)|exact (proj1 (Forall_forall _ _) FD t Ht)].
Qed.

Section Counts.
  Context (s : list f64) (y : list bool) (F : finite s) (L : length s = length y) (N : (Z.of_nat (length y) <= 2 ^ 53)%Z) (T : two_class y).
  Context (D64 : list f64) (HD : distinct_desc64 s D64).
  Let sr := map B2R s.
  Let ones := repeat 1 (length y).
  Notation cnt c := (fun t => count_ge c t s y).
  Let tot c := count_ge c (last D64 f0) s y.

  Lemma s_ne : sr <> [].
  Proof. unfold sr. destruct T as [H _]. destruct s, y; try discriminate. destruct H. Qed.
  Lemma cs_vrow : vrow sr y ones.
  Proof. apply (weight_rows_ok sr y None); [|now left]. split; [unfold sr; now rewrite map_length|]. split; [apply s_ne|exact I]. Qed.
  Lemma D64_ne : D64 <> [].
  Proof.
    destruct (thresholds_exact s D64 F HD) as [E _]. pose proof (D_len _ s_ne) as H. fold sr in E. rewrite <- E in H. intros ->. cbn in H. lia.
  Qed.
  Lemma D_fin t : In t D64 -> fisfin t = true.
  Proof. destruct (thresholds_exact s D64 F HD) as [_ E]. exact (proj1 (Forall_forall _ _) E t). Qed.
  Lemma tpv_cnt t : In t D64 -> tpv (B2R t) sr y ones = IZR (count_ge true t s y).
  Proof. intros H. rewrite at_true, at_two by exact T. apply count_weight; auto. now apply D_fin. Qed.
  Lemma fpv_cnt t : In t D64 -> fpv (B2R t) sr y ones = IZR (count_ge false t s y).
  Proof. intros H. rewrite at_false, at_two by exact T. apply count_weight; auto. now apply D_fin. Qed.
  Lemma last_in : In (last D64 f0) D64.
  Proof. pose proof D64_ne as Q. destruct (exists_last Q) as (l & a & ->). rewrite last_last. apply in_or_app. right. now left. Qed.
  Lemma last_D : last (D sr) 0 = B2R (last D64 f0).
  Proof. destruct (thresholds_exact s D64 F HD) as [E _]. fold sr in E. rewrite <- E. apply (PerfProofs7.last_map _ _ 0 f0). apply D64_ne. Qed.
  Lemma n_pos_cnt : n_pos sr y ones = IZR (tot true).
  Proof.
    rewrite total_true. unfold total. destruct (in_dec bool_dec true y) as [_|Q]; [|destruct T; contradiction].
    rewrite <- (w_ge_last true sr y ones 0 s_ne), last_D. apply count_weight; auto. apply D_fin, last_in.
  Qed.
  Lemma n_neg_cnt : n_neg sr y ones = IZR (tot false).
  Proof.
    rewrite total_false. unfold total. destruct (in_dec bool_dec false y) as [_|Q]; [|destruct T; contradiction].
    rewrite <- (w_ge_last false sr y ones 0 s_ne), last_D. apply count_weight; auto. apply D_fin, last_in.
  Qed.
  Lemma B2R_in t : In t D64 -> In (B2R t) (D sr).
  Proof. intros H. destruct (thresholds_exact s D64 F HD) as [E _]. fold sr in E. rewrite <- E. now apply in_map. Qed.
  Lemma cnt_range c t : In t D64 -> (0 <= count_ge c t s y <= tot c)%Z.
  Proof.
    intros H. destruct (values_range sr y ones (B2R t) cs_vrow (B2R_in t H)) as [A B]. rewrite tpv_cnt, n_pos_cnt in A by exact H. rewrite fpv_cnt, n_neg_cnt in B by exact H.
    destruct c; split; apply le_IZR; lra.
  Qed.
  Lemma cnt_both t : (count_ge true t s y + count_ge false t s y <= Z.of_nat (length y))%Z.
  Proof.
    unfold count_ge. clear -L. revert y L. induction s as [|a l IH]; intros [|b z] L; try discriminate. specialize (IH z ltac:(cbn in L; lia)).
    cbn [combine filter fst snd]. destruct (fleb t a), b; cbn [andb eqb length] in *; lia.
  Qed.
  Lemma tot_range c : (1 <= tot c <= 2 ^ 53)%Z.
  Proof.
    split.
    - assert (0 < IZR (tot c)) as H by (destruct c; [rewrite <- n_pos_cnt; apply vrow_pos|rewrite <- n_neg_cnt; apply vrow_neg]; apply cs_vrow). apply lt_IZR in H. lia.
    - pose proof (cnt_both (last D64 f0)) as H. pose proof (cnt_range true _ last_in). pose proof (cnt_range false _ last_in). fold (tot true) (tot false) in *. destruct c; lia.
  Qed.

  (** the columns in doubles and exactly *)
  Definition colZ (c : bool) : list f64 := f0 :: map (fun t => f_of_Z (count_ge c t s y)) D64.
  Lemma colZ_div c : div_last (colZ c) = map (fun k => fdiv (f_of_Z k) (f_of_Z (tot c))) (0%Z :: map (cnt c) D64).
  Proof.
    unfold div_last, colZ, lastn. change (@n0 f64 f64_num) with f0.
    assert (last (f0 :: map (fun t => f_of_Z (count_ge c t s y)) D64) f0 = f_of_Z (tot c)) as ->.
    { pose proof D64_ne as Q. destruct (exists_last Q) as (l & a & E). unfold tot. rewrite E, map_app, last_last. cbn [map]. rewrite app_comm_cons. apply last_last. }
    cbn [map]. rewrite !map_map. reflexivity.
  Qed.
  Lemma rates_near c : Forall2 near1 (div_last (colZ c)) (map (fun k => IZR k / IZR (tot c)) (0%Z :: map (cnt c) D64)).
  Proof.
    rewrite colZ_div. assert (Forall (fun k => 0 <= k <= tot c)%Z (0%Z :: map (cnt c) D64)) as H.
    { pose proof (tot_range c). constructor; [lia|]. apply Forall_forall. intros k Hk. apply in_map_iff in Hk as (t & <- & Ht). now apply cnt_range. }
    induction H as [|k l Hk _ IH]; cbn [map]; constructor; [|exact IH]. apply near1_quot; [exact Hk|apply tot_range].
  Qed.
  Lemma tpr_exact : tpr sr y ones = map (fun k => IZR k / IZR (tot true)) (0%Z :: map (cnt true) D64).
  Proof.
    unfold tpr, tcol. rewrite n_pos_cnt. destruct (thresholds_exact s D64 F HD) as [E _]. fold sr in E. rewrite <- E. cbn [map]. f_equal. rewrite !map_map.
    apply map_ext_in. intros t Ht. now rewrite tpv_cnt.
  Qed.
  Lemma fpr_exact : fpr sr y ones = map (fun k => IZR k / IZR (tot false)) (0%Z :: map (cnt false) D64).
  Proof.
    unfold fpr, fcol. rewrite n_neg_cnt. destruct (thresholds_exact s D64 F HD) as [E _]. fold sr in E. rewrite <- E. cbn [map]. f_equal. rewrite !map_map.
    apply map_ext_in. intros t Ht. now rewrite fpv_cnt.
  Qed.

  (** precision *)
  Definition precision64 (t : f64) : f64 := fdiv (f_of_Z (count_ge true t s y)) (fadd (f_of_Z (count_ge true t s y)) (f_of_Z (count_ge false t s y))).
  Lemma prec_near t : In t D64 -> near1 (precision64 t) (prc sr y ones (B2R t)).
  Proof.
    intros H. pose proof (cnt_range true t H) as A. pose proof (cnt_range false t H) as B. pose proof (cnt_both t) as C.
    unfold precision64, prc. rewrite fadd_Z by lia. rewrite tpv_cnt, fpv_cnt by exact H. rewrite <- plus_IZR. apply near1_quot; [lia|]. split; [|lia].
    pose proof (values_pos sr y ones (B2R t) cs_vrow (D_in _ _ (B2R_in t H))) as P. rewrite tpv_cnt, fpv_cnt, <- plus_IZR in P by exact H. apply lt_IZR in P. lia.
  Qed.
  Lemma prec_col : Forall2 near1 (back_fill (map2 (fun t f => fdiv t (fadd t f)) (colZ true) (colZ false))) (pcol sr y ones).
  Proof.
    unfold colZ, pcol. destruct (thresholds_exact s D64 F HD) as [E _]. fold sr in E. rewrite <- E. pose proof D64_ne as Q. pose proof prec_near as P.
    destruct D64 as [|d l] eqn:ED; [congruence|]. clear ED. cbn [map map2 back_fill hd]. constructor; [exact (P d (or_introl eq_refl))|].
    constructor; [exact (P d (or_introl eq_refl))|]. assert (forall t, In t l -> near1 (precision64 t) (prc sr y ones (B2R t))) as P' by (intros; apply P; now right).
    clear -P'. induction l as [|t l IH]; cbn [map map2]; constructor; [exact (P' t (or_introl eq_refl))|apply IH; intros; apply P'; now right].
  Qed.
End Counts.

(** ** C103 *)
Definition samples (s : list f64) (y : list bool) : Prop :=
  finite s /\ length s = length y /\ two_class y /\ (Z.of_nat (length y) <= 2 ^ 30)%Z.
(** a double within (1 + 2^-10) 2^-53 of a number between 0 and 1 *)
Definition close_rate (a : f64) (r : R) : Prop :=
  fisfin a = true /\ 0 <= B2R a <= 1 /\ Rabs (B2R a - r) <= (1 + / 1024) * / 2 ^ 53.

Lemma u64_val : u64 = / 2 ^ 53.
Proof. unfold u64. cbn [bpow]. rewrite pow_IZR. f_equal. Qed.
Lemma near_close x X : Forall2 near1 x X -> Forall2 close_rate x X.
Proof. induction 1 as [|a r x X (F & B & _ & E) _ IH]; constructor; auto. split; [exact F|]. split; [exact B|]. unfold u1 in E. rewrite u64_val in E. lra. Qed.
Lemma near_bounds x X : Forall2 near1 x X -> forallb (fleb f0) x = true /\ forallb (fun p => fleb p (f_of_Z 1)) x = true.
Proof.
  induction 1 as [|a r x X (F & B & _ & _) _ [IH1 IH2]]; [auto|]. cbn [forallb]. rewrite IH1, IH2. destruct (f_of_Z_correct 1 ltac:(lia)) as [V1 F1].
  split; apply andb_true_iff; split; auto; apply fleb_fin; auto; [exact (proj1 B)|]. rewrite V1. lra.
Qed.
Lemma distinct_le s D64 : distinct_desc64 s D64 -> (length D64 <= length s)%nat.
Proof.
  intros (S & I & _). apply NoDup_incl_length; [|exact I]. clear I. induction S as [|a l S IH H]; constructor; [|exact IH]. intros Q.
  pose proof (proj1 (Forall_forall _ _) H a Q) as L. pose proof (BootProofs2.fltb_fin_l _ _ L). congruence.
Qed.
Lemma maxn_Z n : (Z.of_nat n <= 2 ^ 30)%Z -> INR n <= MAXN.
Proof. intros H. rewrite INR_IZR_INZ. unfold MAXN. change (P2 30) with (IZR (2 ^ 30)). now apply IZR_le. Qed.

Section Curves.
  Context (s : list f64) (y : list bool) (V : samples s y).
  Let sr := map B2R s.
  Let ones := repeat 1 (length y).

  Lemma clf_cols : exists D64, distinct_desc64 s D64 /\ _binary_clf_curve y s None = Ok ([colZ s y D64 false], [colZ s y D64 true], finf :: D64).
  Proof. destruct V as (F & L & T & N). destruct (C45_counts_doubles s y F L ltac:(lia) T) as (D64 & HD & E). exists D64. split; [exact HD|exact E]. Qed.

  Lemma roc_near : exists X Y D64, distinct_desc64 s D64 /\ roc_curve y s None = Ok (([(X, Y)], Linear), finf :: D64) /\
    Forall2 near1 X (fpr sr y ones) /\ Forall2 near1 Y (tpr sr y ones).
  Proof.
    destruct clf_cols as (D64 & HD & E). pose proof V as (F & L & T & N). assert (Z.of_nat (length y) <= 2 ^ 53)%Z as N' by lia. exists (div_last (colZ s y D64 false)), (div_last (colZ s y D64 true)), D64. split; [exact HD|].
    split; [unfold roc_curve; rewrite E; reflexivity|]. unfold sr, ones. rewrite (fpr_exact s y F L N' T D64 HD), (tpr_exact s y F L N' T D64 HD).
    split; exact (rates_near s y F L N' T D64 HD _).
  Qed.
  Lemma rp_near : exists X Y D64, distinct_desc64 s D64 /\ recall_precision_curve y s None = Ok (([(X, Y)], Previous), finf :: D64) /\
    Forall2 near1 X (tpr sr y ones) /\ Forall2 near1 Y (pcol sr y ones).
  Proof.
    destruct clf_cols as (D64 & HD & E). pose proof V as (F & L & T & N). assert (Z.of_nat (length y) <= 2 ^ 53)%Z as N' by lia.
    pose proof (prec_col s y F L N' T D64 HD) as P. set (Y := back_fill _) in P.
    exists (div_last (colZ s y D64 true)), Y, D64. split; [exact HD|]. split.
    - unfold recall_precision_curve. rewrite E. cbn [bind map map2]. change (@ndiv f64 f64_num) with fdiv. change (@nadd f64 f64_num) with fadd. fold Y.
      destruct (near_bounds _ _ P) as [B1 B2]. cbn [forallb]. change (@nleb f64 f64_num) with fleb. change (@n0 f64 f64_num) with f0. change (@n1 f64 f64_num) with (f_of_Z 1).
      rewrite B1, B2. reflexivity.
    - unfold sr, ones. split; [|exact P]. rewrite (tpr_exact s y F L N' T D64 HD). exact (rates_near s y F L N' T D64 HD _).
  Qed.
  Lemma row_ok : vrow sr y ones.
  Proof. destruct clf_cols as (D64 & HD & _). pose proof V as (F & L & T & N). exact (cs_vrow s y F L ltac:(lia) T D64 HD). Qed.
  Lemma points_len X Y Xr Yr D64 : distinct_desc64 s D64 -> Forall2 near1 X Xr -> Forall2 near1 Y Yr -> length Xr = Datatypes.S (length (D sr)) -> length Yr = Datatypes.S (length (D sr)) ->
    length X = Datatypes.S (length D64) /\ length Y = Datatypes.S (length D64) /\ (1 <= length D64)%nat /\ INR (length D64) <= MAXN.
  Proof.
    intros HD HX HY LX LY. destruct V as (F & L & T & N). destruct (thresholds_exact s D64 F HD) as [E _]. fold sr in E. apply (f_equal (@length R)) in E. rewrite map_length in E.
    rewrite (Forall2_len _ _ _ HX), (Forall2_len _ _ _ HY), LX, LY. split; [exact (f_equal Datatypes.S (eq_sym E))|]. split; [exact (f_equal Datatypes.S (eq_sym E))|]. split.
    - assert (sr <> []) as Ne by exact (s_ne s y F L ltac:(lia) T D64 HD). exact (Nat.le_trans _ _ _ (D_len sr Ne) (Nat.eq_le_incl _ _ (eq_sym E))).
    - apply maxn_Z. pose proof (distinct_le s D64 HD). lia.
  Qed.
End Curves.

(** Every point of the two curves is correct to about half a unit in the last
    place of one. *)
Theorem C103_points :
  forall (s : list f64) y, samples s y ->
  exists D64 D X Y P, distinct_desc64 s D64 /\ distinct_desc (map B2R s) D /\ map B2R D64 = D /\
  roc_curve y s None = Ok (([(X, Y)], Linear), finf :: D64) /\
  recall_precision_curve y s None = Ok (([(Y, P)], Previous), finf :: D64) /\
  let w := repeat 1 (length y) in let r := map B2R s in
  Forall2 close_rate X (0 :: map (fun t => w_ge false t r y w / w_all false r y w) D) /\
  Forall2 close_rate Y (0 :: map (fun t => w_ge true t r y w / w_all true r y w) D) /\
  Forall2 close_rate P (precision_at (hd 0 D) r y w :: map (fun t => precision_at t r y w) D).
Proof.
  intros s y V. destruct (clf_cols s y V) as (D64 & HD & E). pose proof V as (F & L & T & N). assert (Z.of_nat (length y) <= 2 ^ 53)%Z as N' by lia. destruct (thresholds_exact s D64 F HD) as [ED _].
  pose proof (prec_col s y F L N' T D64 HD) as P. set (Y := back_fill _) in P.
  exists D64, (D (map B2R s)), (div_last (colZ s y D64 false)), (div_last (colZ s y D64 true)), Y. split; [exact HD|]. split; [apply D_spec|]. split; [exact ED|].
  split; [unfold roc_curve; rewrite E; reflexivity|]. split.
  - unfold recall_precision_curve. rewrite E. cbn [bind map map2]. change (@ndiv f64 f64_num) with fdiv. change (@nadd f64 f64_num) with fadd. fold Y.
    destruct (near_bounds _ _ P) as [B1 B2]. cbn [forallb]. change (@nleb f64 f64_num) with fleb. change (@n0 f64 f64_num) with f0. change (@n1 f64 f64_num) with (f_of_Z 1).
    rewrite B1, B2. reflexivity.
  - pose proof (row_ok s y V) as R. pose proof (vrow_neg _ _ _ R) as Qn. pose proof (vrow_pos _ _ _ R) as Qp. cbv zeta. split; [|split].
    + pose proof (near_close _ _ (rates_near s y F L N' T D64 HD false)) as Q. cbv beta in Q. rewrite <- (fpr_exact s y F L N' T D64 HD) in Q. unfold fpr, fcol in Q. cbn [map] in Q. rewrite map_map in Q.
      replace (0 / n_neg (map B2R s) y (repeat 1 (length y))) with 0 in Q by (field; lra).
      rewrite (map_ext _ (fun t => w_ge false t (map B2R s) y (repeat 1 (length y)) / w_all false (map B2R s) y (repeat 1 (length y)))) in Q; [exact Q|].
      intros t. rewrite at_false, at_two, total_false by exact T. unfold total. destruct (in_dec bool_dec false y) as [_|Z]; [reflexivity|destruct T; contradiction].
    + pose proof (near_close _ _ (rates_near s y F L N' T D64 HD true)) as Q. cbv beta in Q. rewrite <- (tpr_exact s y F L N' T D64 HD) in Q. unfold tpr, tcol in Q. cbn [map] in Q. rewrite map_map in Q.
      replace (0 / n_pos (map B2R s) y (repeat 1 (length y))) with 0 in Q by (field; lra).
      rewrite (map_ext _ (fun t => w_ge true t (map B2R s) y (repeat 1 (length y)) / w_all true (map B2R s) y (repeat 1 (length y)))) in Q; [exact Q|].
      intros t. rewrite at_true, at_two, total_true by exact T. unfold total. destruct (in_dec bool_dec true y) as [_|Z]; [reflexivity|destruct T; contradiction].
    + pose proof (near_close _ _ P) as Q. unfold pcol, prc in Q. rewrite at_true, at_false in Q. fold (precision_at (hd 0 (D (map B2R s))) (map B2R s) y (repeat 1 (length y))) in Q.
      rewrite (map_ext _ (fun t => precision_at t (map B2R s) y (repeat 1 (length y)))) in Q; [exact Q|]. intros t. unfold precision_at. now rewrite at_true, at_false.
Qed.
Print Assumptions C103_points.

(** The area under the ROC curve is the Mann-Whitney statistic up to twelve
    half units per distinct score. *)
Theorem C103_auc :
  forall (s : list f64) y, samples s y ->
  exists c th a, roc_curve y s None = Ok (c, th) /\ curve_area c = Ok [a] /\ fisfin a = true /\ (length th <= 1 + length y)%nat /\
  Rabs (B2R a - mann_whitney (map B2R s) y (repeat 1 (length y))) <= 12 * INR (length th - 1) / 2 ^ 53.
Proof.
  intros s y V. destruct (roc_near s y V) as (X & Y & D64 & HD & E & HX & HY). pose proof (row_ok s y V) as R.
  destruct (roc_shape (map B2R s) y (repeat 1 (length y)) R) as (S1 & _ & _ & _ & _ & _ & L1 & L2).
  destruct (points_len s y V X Y _ _ D64 HD HX HY L1 L2) as (LX & LY & N1 & M). pose proof V as (F & L & T & N). assert (Z.of_nat (length y) <= 2 ^ 53)%Z as N' by lia.
  destruct (area_near Linear X _ Y _ (Datatypes.S (length D64)) ltac:(discriminate) HX HY LX LY ltac:(lia)) as (a & A1 & A2 & A3).
  - now replace (Datatypes.S (length D64) - 1)%nat with (length D64) by lia.
  - exact S1.
  - apply auc_range. exact R.
  - exists ([(X, Y)], Linear), (finf :: D64), a. split; [exact E|]. split; [unfold curve_area; cbn [fst snd]; rewrite LX; exact A1|]. split; [exact A2|].
    split; [cbn [length]; pose proof (distinct_le s D64 HD); lia|]. rewrite (auc_mann_whitney _ _ _ R T), u64_val in A3. exact A3.
Qed.
Print Assumptions C103_auc.

(** The area under the recall-precision curve, against the same program in
    exact arithmetic. *)
Theorem C103_average_precision :
  forall (s : list f64) y, samples s y ->
  exists c th a r, recall_precision_curve y s None = Ok (c, th) /\ curve_area c = Ok [a] /\ fisfin a = true /\ (length th <= 1 + length y)%nat /\
  area_of (recall_precision_curve y (xs (map B2R s)) None) = Ok [Fin r] /\
  Rabs (B2R a - r) <= 12 * INR (length th - 1) / 2 ^ 53.
Proof.
  intros s y V. destruct (rp_near s y V) as (X & Y & D64 & HD & E & HX & HY). pose proof (row_ok s y V) as R.
  destruct (roc_shape (map B2R s) y (repeat 1 (length y)) R) as (_ & S1 & _ & _ & _ & _ & _ & L2).
  destruct (points_len s y V X Y _ _ D64 HD HX HY L2 (pcol_len _ _ _)) as (LX & LY & N1 & M). pose proof V as (F & L & T & N). assert (Z.of_nat (length y) <= 2 ^ 53)%Z as N' by lia.
  destruct (area_near Previous X _ Y _ (Datatypes.S (length D64)) ltac:(discriminate) HX HY LX LY ltac:(lia)) as (a & A1 & A2 & A3).
  - now replace (Datatypes.S (length D64) - 1)%nat with (length D64) by lia.
  - exact S1.
  - apply rp_area_range. exact R.
  - exists ([(X, Y)], Previous), (finf :: D64), a, (rarea Previous (tpr (map B2R s) y (repeat 1 (length y))) (pcol (map B2R s) y (repeat 1 (length y)))).
    split; [exact E|]. split; [unfold curve_area; cbn [fst snd]; rewrite LX; exact A1|]. split; [exact A2|].
    split; [cbn [length]; pose proof (distinct_le s D64 HD); lia|]. split; [|rewrite u64_val in A3; exact A3].
    apply (rp_area_eq (map B2R s) y None). destruct R as (R1 & _ & R2 & _). split; [exact R1|]. split; [exact R2|exact I].
Qed.
Print Assumptions C103_average_precision.

(** Up to 65536 samples the doubles order two classifiers as the exact
    statistics do, whenever these differ. *)
Lemma wins_against_half a s y n : exists k : Z, pair_wins_against a 1 s y (repeat 1 n) = IZR k / 2.
Proof.
  revert y n. induction s as [|b s IH]; intros [|l y] [|n]; try (exists 0%Z; cbn; lra). destruct (IH y n) as [k E]. cbn [repeat pair_wins_against]. rewrite E.
  destruct l; [exists k; lra|]. destruct (Rltb b a); [exists (k + 2)%Z; rewrite plus_IZR; lra|]. destruct (Reqb b a); [exists (k + 1)%Z; rewrite plus_IZR; lra|exists k; lra].
Qed.
Lemma wins_half s0 y0 n0 s y n : exists k : Z, pair_wins_from s0 y0 (repeat 1 n0) s y (repeat 1 n) = IZR k / 2.
Proof.
  revert y n. induction s as [|b s IH]; intros [|l y] [|n]; try (exists 0%Z; cbn; lra). destruct (IH y n) as [k E]. cbn [repeat pair_wins_from]. rewrite E.
  destruct l; [|exists k; lra]. destruct (wins_against_half b s0 y0 n0) as [j ->]. exists (j + k)%Z. rewrite plus_IZR. lra.
Qed.
Lemma w_all_count c s y : length s = length y -> w_all c s y (repeat 1 (length y)) = INR (count_occ bool_dec y c).
Proof.
  unfold w_all. revert y. induction s as [|a s IH]; intros [|b y] L; try discriminate; [reflexivity|]. cbn [length repeat wt]. rewrite IH by (cbn in L; lia).
  destruct b, c; cbn [eqb count_occ]; destruct bool_dec; try congruence; rewrite ?S_INR; lra.
Qed.
Lemma count_split y : (count_occ bool_dec y true + count_occ bool_dec y false = length y)%nat.
Proof. induction y as [|[] y IH]; [reflexivity| |]; cbn; lia. Qed.

Theorem C103_order :
  forall (s s' : list f64) y, samples s y -> samples s' y -> (Z.of_nat (length y) <= 2 ^ 16)%Z ->
  let w := repeat 1 (length y) in mann_whitney (map B2R s) y w < mann_whitney (map B2R s') y w ->
  exists c th c' th' a a', roc_curve y s None = Ok (c, th) /\ roc_curve y s' None = Ok (c', th') /\
  curve_area c = Ok [a] /\ curve_area c' = Ok [a'] /\ fltb a a' = true.
Proof.
  intros s s' y V V' N w H. destruct (C103_auc s y V) as (c & th & a & E & A & Fa & Lt & B). destruct (C103_auc s' y V') as (c' & th' & a' & E' & A' & Fa' & Lt' & B').
  exists c, th, c', th', a, a'. split; [exact E|]. split; [exact E'|]. split; [exact A|]. split; [exact A'|]. apply fltb_fin; [exact Fa|exact Fa'|].
  destruct V as (_ & L & [T1 T2] & _). destruct V' as (_ & L' & _ & _).
  set (n := length y) in *. set (m := INR n). assert (0 < m <= 2 ^ 16) as M.
  { unfold m. split; [apply lt_0_INR; destruct y; [destruct T1|cbn in n; unfold n; lia]|]. rewrite INR_IZR_INZ. rewrite (pow_IZR 2 16). apply IZR_le. exact N. }
  assert (forall q : list f64, (length q <= 1 + n)%nat -> 12 * INR (length q - 1) / 2 ^ 53 <= 12 * m / 2 ^ 53) as U.
  { intros q Hq. apply Rmult_le_compat_r; [apply Rlt_le, Rinv_0_lt_compat, pow_lt; lra|]. apply Rmult_le_compat_l; [lra|]. apply le_INR. lia. }
  pose proof (U th Lt) as U1. pose proof (U th' Lt') as U2. fold w in B, B'.
  assert (2 / (m * m) <= mann_whitney (map B2R s') y w - mann_whitney (map B2R s) y w) as G.
  { unfold mann_whitney in *. unfold w, n in *. rewrite !w_all_count in * by now rewrite map_length. pose proof (count_split y) as CS.
    assert (forall b, In b y -> 1 <= INR (count_occ bool_dec y b)) as Pc by (intros b Hb; apply (le_INR 1); apply (count_occ_In bool_dec) in Hb; lia).
    pose proof (Pc true T1) as P1. pose proof (Pc false T2) as P2. apply (f_equal INR) in CS. rewrite plus_INR in CS.
    set (p := INR (count_occ bool_dec y true)) in *. set (q := INR (count_occ bool_dec y false)) in *. change (p + q = m) in CS. clearbody p q m.
    destruct (wins_half (map B2R s) y (length y) (map B2R s) y (length y)) as [k1 K1]. destruct (wins_half (map B2R s') y (length y) (map B2R s') y (length y)) as [k2 K2].
    unfold pair_wins in *. rewrite K1, K2 in *. assert (0 < p * q) as PQ by (apply Rmult_lt_0_compat; lra).
    assert (IZR k1 < IZR k2) as K by (apply (Rmult_lt_reg_r (/ (p * q) / 2)); [apply Rmult_lt_0_compat; [now apply Rinv_0_lt_compat|lra]|]; unfold Rdiv in *; lra).
    apply lt_IZR in K. assert (IZR k1 + 1 <= IZR k2) as K' by (rewrite <- plus_IZR; apply IZR_le; lia).
    assert (4 * (p * q) <= m * m) as Q4 by (pose proof (Rle_0_sqr (p - q)); unfold Rsqr in *; rewrite <- CS; lra).
    apply Rle_trans with (/ (2 * (p * q))).
    - replace (2 / (m * m)) with (/ (m * m / 2)) by (field; lra). apply Rinv_le_contravar; lra.
    - replace (IZR k2 / 2 / (p * q) - IZR k1 / 2 / (p * q)) with ((IZR k2 - IZR k1) * / (2 * (p * q))) by (field; lra).
      rewrite <- (Rmult_1_l (/ (2 * (p * q)))) at 1. apply Rmult_le_compat_r; [apply Rlt_le, Rinv_0_lt_compat; lra|lra]. }
  assert (2 * (12 * m / 2 ^ 53) < 2 / (m * m)) as Q.
  { apply (Rmult_lt_reg_r (m * m)); [nra|]. replace (2 / (m * m) * (m * m)) with 2 by (field; lra).
    assert (m * m * m <= 2 ^ 48) as C3.
    { replace (2 ^ 48) with (2 ^ 16 * 2 ^ 16 * 2 ^ 16) by (cbn; lra). apply Rmult_le_compat; [nra|lra|apply Rmult_le_compat; lra|lra]. }
    replace (2 * (12 * m / 2 ^ 53) * (m * m)) with (24 * (m * m * m) / 2 ^ 53) by (field; apply pow_nonzero; lra).
    apply (Rmult_lt_reg_r (2 ^ 53)); [apply pow_lt; lra|]. unfold Rdiv. rewrite Rmult_assoc, Rinv_l by (apply pow_nonzero; lra). cbn [pow] in *. lra. }
  apply Rabs_le_inv in B. apply Rabs_le_inv in B'. lra.
Qed.
Print Assumptions C103_order.

(** What [curve_boot] reports for a data set, whatever the draw. *)
Lemma check_curve_same (r : curve f64 * list f64) g c : check_curve r g = Ok c -> c = fst r.
Proof.
  destruct r as [[rows k] th]. unfold check_curve. intros H. repeat (apply assert_ok in H as [_ H]). cbn [fst].
  destruct g as [g|]; [|now apply Ok_inj in H]. apply bind_ok in H as (g0 & _ & H). apply assert_ok in H as [_ H]. apply bind_ok in H as (g1 & _ & H).
  apply assert_ok in H as [_ H]. now apply Ok_inj in H.
Qed.
Lemma curve_boot_area counts kd y preds ncol ref (f : curve_fun f64) g n_boot pw conf a eb p rows :
  curve_boot counts kd y preds ncol ref f g n_boot pw conf = Ok ((a, eb, p), rows) ->
  exists c th, f (map (fun v => negb (v =? 0)%Z) y) (col1 preds) None = Ok (c, th) /\ curve_area c = Ok [a].
Proof.
  unfold curve_boot. intros H. apply bind_ok in H as ([n nl] & _ & H). repeat (apply assert_ok in H as [_ H]). cbv zeta in H.
  apply bind_ok in H as ([c th] & E & H). apply bind_ok in H as (c' & C & H). apply check_curve_same in C. cbn [fst] in C. subst c'.
  apply bind_ok in H as (aucs & A & H). apply bind_ok in H as (auc & U & H). exists c, th. split; [exact E|].
  assert (auc = a) as <-.
  { clear -H. apply bind_ok in H as (x1 & _ & H). apply bind_ok in H as (x2 & _ & H). apply bind_ok in H as (x3 & _ & H). apply bind_ok in H as (x4 & _ & H).
    apply bind_ok in H as (x5 & _ & H). apply bind_ok in H as (x6 & _ & H). apply assert_ok in H as [_ H]. apply bind_ok in H as (x7 & _ & H).
    apply bind_ok in H as ([x8 x9] & _ & H). apply bind_ok in H as (x10 & _ & H). apply bind_ok in H as (x11 & _ & H). apply bind_ok in H as (x12 & _ & H).
    apply Ok_inj in H. rewrite !pair_equal_spec in H. tauto. }
  unfold unpack1 in U. destruct aucs as [|b [|? ?]]; try discriminate. apply Ok_inj in U. now subst b.
Qed.

Theorem C103_curve_boot :
  forall counts kd y preds ncol ref g n_boot pairwise conf a eb p rows, let labels := map (fun v => negb (v =? 0)%Z) y in
  samples (col1 preds) labels ->
  let w := repeat 1 (length y) in let r := map B2R (col1 preds) in
  (curve_boot counts kd y preds ncol ref roc_curve g n_boot pairwise conf = Ok ((a, eb, p), rows) ->
   fisfin a = true /\ Rabs (B2R a - mann_whitney r labels w) <= 12 * INR (length y) / 2 ^ 53) /\
  (curve_boot counts kd y preds ncol ref recall_precision_curve g n_boot pairwise conf = Ok ((a, eb, p), rows) ->
   fisfin a = true /\ exists v, area_of (recall_precision_curve labels (xs r) None) = Ok [Fin v] /\ Rabs (B2R a - v) <= 12 * INR (length y) / 2 ^ 53).
Proof.
  intros counts kd y preds ncol ref g n_boot pw conf a eb p rows labels V w r.
  assert (length labels = length y) as Ly by apply map_length.
  assert (forall (th : list f64) x, (length th <= 1 + length labels)%nat -> Rabs x <= 12 * INR (length th - 1) / 2 ^ 53 -> Rabs x <= 12 * INR (length y) / 2 ^ 53) as M.
  { intros th x Hl Hx. eapply Rle_trans; [exact Hx|]. apply Rmult_le_compat_r; [apply Rlt_le, Rinv_0_lt_compat, pow_lt; lra|]. apply Rmult_le_compat_l; [lra|]. apply le_INR. lia. }
  split; intros H; apply curve_boot_area in H as (c & th & E & A).
  - destruct (C103_auc _ _ V) as (c' & th' & a' & E' & A' & F' & L' & B'). fold labels in E. rewrite E' in E. apply Ok_inj in E. apply pair_equal_spec in E as [-> ->].
    rewrite A' in A. apply Ok_inj in A. assert (a' = a) as <- by congruence. split; [exact F'|]. unfold w, r. rewrite <- Ly at 1. exact (M _ _ L' B').
  - destruct (C103_average_precision _ _ V) as (c' & th' & a' & v & E' & A' & F' & L' & Ev & B'). fold labels in E. rewrite E' in E. apply Ok_inj in E. apply pair_equal_spec in E as [-> ->].
    rewrite A' in A. apply Ok_inj in A. assert (a' = a) as <- by congruence. split; [exact F'|]. exists v. split; [exact Ev|]. exact (M _ _ L' B').
Qed.
Print Assumptions C103_curve_boot.

(** Equal statistics need not give equal doubles: five samples for which both
    areas are exactly 1/2, one of them computed below 1/2. *)
Definition tie_y : list bool := [true; true; true; false; false].
Definition tie_s : list f64 := ints [0; 1; 2; 0; 2]%Z.
Definition tie_t : list f64 := ints [0; 0; 0; 0; 0]%Z.
Theorem C103_tie_refuted :
  exists s s' y, samples s y /\ samples s' y /\
  (let w := repeat 1 (length y) in mann_whitney (map B2R s) y w = mann_whitney (map B2R s') y w) /\
  exists c th c' th' a a', roc_curve y s None = Ok (c, th) /\ roc_curve y s' None = Ok (c', th') /\
  curve_area c = Ok [a] /\ curve_area c' = Ok [a'] /\ fltb a a' = true.
Proof.
  exists tie_s, tie_t, tie_y.
  assert (forall k, In k [0; 1; 2]%Z -> fisfin (f_of_Z k) = true) as FI by (intros k Hk; apply f_of_Z_correct; cbn in Hk; lia).
  assert (forall k, In k [0; 1; 2]%Z -> B2R (f_of_Z k) = IZR k) as FV by (intros k Hk; apply f_of_Z_correct; cbn in Hk; lia).
  assert (samples tie_s tie_y) as V1.
  { split; [|split; [reflexivity|split; [split; cbn; auto|cbn; lia]]]. unfold tie_s, ints, finite. apply Forall_forall. intros x Hx. apply in_map_iff in Hx as (k & <- & Hk). apply FI. cbn in *; tauto. }
  assert (samples tie_t tie_y) as V2.
  { split; [|split; [reflexivity|split; [split; cbn; auto|cbn; lia]]]. unfold tie_t, ints, finite. apply Forall_forall. intros x Hx. apply in_map_iff in Hx as (k & <- & Hk). apply FI. cbn in *; tauto. }
  split; [exact V1|]. split; [exact V2|]. split.
  - cbv zeta. assert (map B2R tie_s = [0; 1; 2; 0; 2]) as ->.
    { unfold tie_s, ints. cbn [map]. rewrite !FV by (cbn; tauto). reflexivity. }
    assert (map B2R tie_t = [0; 0; 0; 0; 0]) as ->.
    { unfold tie_t, ints. cbn [map]. rewrite !FV by (cbn; tauto). reflexivity. }
    unfold mann_whitney, pair_wins, w_all, tie_y. cbn [length repeat pair_wins_from pair_wins_against wt eqb].
    assert (forall a b, b < a -> Rltb b a = true) as G1 by (intros; now apply Rltb_spec).
    assert (forall a b, a <= b -> Rltb b a = false) as G2.
    { intros a b H. destruct (Rltb b a) eqn:Q; auto. apply Rltb_spec in Q. lra. }
    assert (forall a b, a <> b -> Reqb b a = false) as G3.
    { intros a b H. destruct (Reqb b a) eqn:Q; auto. apply Reqb_spec in Q. congruence. }
    assert (forall a, Reqb a a = true) as G4 by (intros; now apply Reqb_spec).
    rewrite !G4, (G2 0 0), (G2 0 2), (G1 1 0), (G2 1 2), (G1 2 0), (G2 2 2), (G3 0 2), (G3 1 2) by lra. lra.
  - destruct (C103_auc _ _ V1) as (c & th & a & E & A & _). destruct (C103_auc _ _ V2) as (c' & th' & a' & E' & A' & _).
    exists c, th, c', th', a, a'. split; [exact E|]. split; [exact E'|]. split; [exact A|]. split; [exact A'|].
    pose (area64 := fun s : list f64 => do r <- roc_curve tie_y s None; curve_area (fst r)).
    assert (match area64 tie_s, area64 tie_t with Ok [b], Ok [b'] => fltb b b' | _, _ => false end = true) as H by (vm_compute; reflexivity).
    unfold area64 in H. rewrite E, E' in H. cbn [bind fst] in H. rewrite A, A' in H. exact H.
Qed.
Print Assumptions C103_tie_refuted.

(** The hypotheses are met; the exact areas 2/3 and 8/9 are no doubles. *)
Example C103_example :
  samples ex_s ex_y /\ (Z.of_nat (length ex_y) <= 2 ^ 16)%Z /\ show_area (roc_curve ex_y ex_s None) = Some [Some 666]%Z /\
  show_area (recall_precision_curve ex_y ex_s None) = Some [Some 888]%Z.
Proof.
  split; [|split; [cbn; lia|split; vm_compute; reflexivity]]. split; [|split; [reflexivity|split; [split; cbn; auto|cbn; lia]]].
  unfold ex_s, ints, finite. apply Forall_forall. intros x Hx. apply in_map_iff in Hx as (k & <- & Hk). apply f_of_Z_correct. cbn in Hk; lia.
Qed.
Example C103_boot_example :
  let preds := map (fun v => [f0; v]) ex_s in let y := [1; 0; 1; 0; 1]%Z in
  samples (col1 preds) (map (fun v => negb (v =? 0)%Z) y) /\
  boot_cells (curve_boot [[2; 1; 0; 1; 1]]%Z Ki y preds 2 (RefScalar (f_lit 1 2)) recall_precision_curve (Some [f_lit 1 2]) 1 true (f_lit 95 100)) =
  Some ((Some 888, Some 0, Some 0), [(Some 1000, Some 1000)])%Z.
Proof.
  cbv zeta. split; [|vm_compute; reflexivity]. destruct C103_example as [H _]. exact H.
Qed.
(** two classifiers as in [C103_order] *)
Example C103_order_example :
  samples ex_s ex_y /\ samples (ints [3; 1; 2; 1; 2]%Z) ex_y /\
  show_area (roc_curve ex_y ex_s None) = Some [Some 666]%Z /\ show_area (roc_curve ex_y (ints [3; 1; 2; 1; 2]%Z) None) = Some [Some 1000]%Z.
Proof.
  split; [apply C103_example|]. split; [|split; vm_compute; reflexivity]. split; [|split; [reflexivity|split; [split; cbn; auto|cbn; lia]]].
  unfold ints, finite. apply Forall_forall. intros x Hx. apply in_map_iff in Hx as (k & <- & Hk). apply f_of_Z_correct. cbn in Hk; lia.
Qed.
