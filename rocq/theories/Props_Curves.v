(** Property theorems C45-C54 about perf_curves.py and the curve part of
    classification.py.  Models: PerfCurves.v, CurveBoot.v; specification:
    Spec_Curves.v.  Theorems about [map Fin s] are about exact arithmetic,
    theorems about [f64] about IEEE doubles with every rounding. *)
From Coq Require Import Reals Lra List Sorted Bool Permutation Lia.
From Verif Require Import PyBase F64 F64Lemmas Num NumOk Util UtilProofs ListLemmas UtilProofs2 UtilProofs3 BootUtil BootProofs5
  PerfCurves PerfProofs PerfProofs2 Spec_Curves PerfProofs3 PerfProofs4 PerfProofs5 PerfProofs6 PerfProofs7 PerfProofs8 PerfProofs9
  PerfProofs10 CurveBoot CurveProofs CurveProofs2 CurveProofs3.
Import ListNotations.
Open Scope R_scope.
Open Scope list_scope.

(** ** Vocabulary *)
Notation xs s := (map Fin s).
Definition xw (sw : option (list (list R))) : option (list (list xr)) := option_map (map (map Fin)) sw.

(** What a curve counts for class [c] at threshold [t]: the weight of the
    samples of that class with score at least [t]; if the class is absent, 1e-10
    times that of the other class (the pseudo-points). *)
Definition at_least (c : bool) (t : R) (s : list R) (y : list bool) (w : list R) : R :=
  if in_dec bool_dec c y then w_ge c t s y w else 1 / IZR (10 ^ 10) * w_ge (negb c) t s y w.
Definition total (c : bool) (s : list R) (y : list bool) (w : list R) : R :=
  if in_dec bool_dec c y then w_all c s y w else 1 / IZR (10 ^ 10) * w_all (negb c) s y w.

Lemma at_false t s y w : fpv t s y w = at_least false t s y w.
Proof.
  unfold fpv, at_least. destruct (in_dec bool_dec false y) as [H|H].
  - apply has_neg in H. now rewrite H.
  - now rewrite (no_neg_fpv _ H).
Qed.
Lemma at_true t s y w : tpv t s y w = at_least true t s y w.
Proof.
  unfold tpv, at_least. destruct (in_dec bool_dec true y) as [H|H].
  - apply has_pos in H. now rewrite H.
  - now rewrite (no_pos_tpv _ H).
Qed.
Lemma total_false s y w : n_neg s y w = total false s y w.
Proof.
  unfold n_neg, total. destruct (in_dec bool_dec false y) as [H|H].
  - apply has_neg in H. now rewrite H.
  - now rewrite (no_neg_fpv _ H).
Qed.
Lemma total_true s y w : n_pos s y w = total true s y w.
Proof.
  unfold n_pos, total. destruct (in_dec bool_dec true y) as [H|H].
  - apply has_pos in H. now rewrite H.
  - now rewrite (no_pos_tpv _ H).
Qed.
Lemma at_two c t s y w : two_class y -> at_least c t s y w = w_ge c t s y w.
Proof. intros [A B]. unfold at_least. destruct (in_dec bool_dec c y) as [|N]; auto. destruct c; contradiction. Qed.

Lemma curve_rows_area (k : ikind) (X Y : list R -> list R) ws n : k <> Next -> ws <> [] -> (2 <= n)%nat ->
  (forall w, In w ws -> length (X w) = n /\ length (Y w) = n) ->
  curve_area (map (fun w => (xs (X w), xs (Y w))) ws, k) = Ok (map (fun w => Fin (rarea k (X w) (Y w))) ws).
Proof.
  intros K Ne N2 L. unfold curve_area. cbn [fst snd]. destruct ws as [|w0 ws]; [congruence|]. cbn [map fst]. rewrite map_length.
  destruct (L w0 (or_introl eq_refl)) as [-> _]. apply area_rows; [|discriminate].
  change (Forall2 (fun c v => area n [c] k = Ok [v]) (map (fun w => (xs (X w), xs (Y w))) (w0 :: ws)) (map (fun w => Fin (rarea k (X w) (Y w))) (w0 :: ws))).
  clear Ne. induction (w0 :: ws) as [|w l IH]; constructor; [|apply IH; intros; apply L; now right].
  destruct (L w (or_introl eq_refl)) as [Lx Ly]. rewrite <- Lx. apply area_exact; auto; lia.
Qed.

Lemma D_two s : s <> [] -> (2 <= S (length (D s)))%nat.
Proof. intros N. pose proof (D_len s N). lia. Qed.

(** ** C45 *)
Theorem C45_curve_counts :
  forall s y sw, valid_input s y sw -> exists D, distinct_desc s D /\
  _binary_clf_curve y (xs s) (xw sw) =
    Ok (map (fun w => xs (0 :: map (fun t => at_least false t s y w) D)) (weight_rows sw (length y)),
        map (fun w => xs (0 :: map (fun t => at_least true t s y w) D)) (weight_rows sw (length y)),
        PInf :: xs D).
Proof.
  intros s y sw V. exists (D s). split; [apply D_spec|]. unfold xw. rewrite clf_exact by auto. f_equal. f_equal. f_equal.
  - apply map_ext. intros w. unfold fcol. do 2 f_equal. apply map_ext. intros t. apply at_false.
  - apply map_ext. intros w. unfold tcol. do 2 f_equal. apply map_ext. intros t. apply at_true.
Qed.
Print Assumptions C45_curve_counts.

(** With both classes present there are no pseudo-points. *)
Theorem C45_two_class_counts :
  forall s y sw, valid_input s y sw -> two_class y -> exists D, distinct_desc s D /\
  _binary_clf_curve y (xs s) (xw sw) =
    Ok (map (fun w => xs (0 :: map (fun t => w_ge false t s y w) D)) (weight_rows sw (length y)),
        map (fun w => xs (0 :: map (fun t => w_ge true t s y w) D)) (weight_rows sw (length y)),
        PInf :: xs D).
Proof.
  intros s y sw V T. destruct (C45_curve_counts s y sw V) as (D & HD & E). exists D. split; [exact HD|]. rewrite E.
  f_equal. f_equal. f_equal; apply map_ext; intros w; do 2 f_equal; apply map_ext; intros t; now apply at_two.
Qed.
Print Assumptions C45_two_class_counts.

(** Without weights the doubles computed are exactly the sample counts. *)
Definition count_ge (c : bool) (t : f64) (s : list f64) (y : list bool) : Z :=
  Z.of_nat (length (filter (fun q => fleb t (fst q) && eqb (snd q) c) (combine s y))).
Definition finite (l : list f64) : Prop := Forall (fun x => fisfin x = true) l.
Definition distinct_desc64 (s D : list f64) : Prop :=
  StronglySorted (fun a b => fltb b a = true) D /\ (forall t, In t D -> In t s) /\
  (forall x, In x s -> exists t, In t D /\ feqb x t = true).

Lemma D64_spec s : finite s -> distinct_desc64 s (thr s).
Proof.
  intros F. split; [|split].
  - exact (thr_sorted (NT := f64_num) s F).
  - exact (thr_in (NT := f64_num) s).
  - intros x Hx. exact (thr_complete (NT := f64_num) s x F Hx).
Qed.

Lemma cntZ_ge (s : list f64) y t : cntZ s y negb t = count_ge false t s y /\ cntZ s y (fun b => b) t = count_ge true t s y.
Proof.
  split; unfold cntZ, count_ge; do 2 f_equal; apply filter_ext; intros [a b]; cbn [fst snd];
  change (nleb t a) with (fleb t a); destruct b; reflexivity.
Qed.

Theorem C45_counts_doubles :
  forall (s : list f64) y, finite s -> length s = length y -> (Z.of_nat (length y) <= 2 ^ 53)%Z -> two_class y ->
  exists D, distinct_desc64 s D /\
  _binary_clf_curve y s None =
    Ok ([f0 :: map (fun t => f_of_Z (count_ge false t s y)) D], [f0 :: map (fun t => f_of_Z (count_ge true t s y)) D], finf :: D).
Proof.
  intros s y F L B [HT HF]. assert (s <> []) as N by (destruct s, y; [destruct HT|discriminate|discriminate|discriminate]).
  exists (thr s). split; [now apply D64_spec|]. rewrite (clf_unweighted (NT := f64_num)) by auto.
  destruct (finish_good _ _ (thr s) (unweighted_raw s y F L N B)) as (f & t & E & G & _ & Ef & Et).
  assert (forall (p : bool -> bool) b, In b y -> p b = true -> feqb (last (map (fun t => f_of_Z (cntZ s y p t)) (thr s)) f0) f0 = false) as Z.
  { intros p b Hb Pb. rewrite (PerfProofs7.last_map _ _ f0 f0) by now apply thr_nonempty.
    rewrite (cntZ_last (NT := f64_num)) by auto. set (k := Z.of_nat (length (filter p y))).
    assert (1 <= k <= 2 ^ 53)%Z as K.
    { subst k. pose proof (filter_len_le p y). assert (length (filter p y) <> 0)%nat; [|lia]. intros Q.
      assert (In b (filter p y)) as I by (apply filter_In; auto). destruct (filter p y); [destruct I|discriminate]. }
    destruct (f_of_Z_nn k) as [Nk Vk]; [lia|]. destruct (feqb (f_of_Z k) f0) eqn:Q; auto. apply feqb_f0 in Q; auto. rewrite Vk in Q.
    apply eq_IZR in Q. lia. }
  change (@nofZ f64 f64_num) with f_of_Z. rewrite E. rewrite (Z negb false HF eq_refl) in Ef. rewrite (Z (fun b => b) true HT eq_refl) in Et.
  rewrite Ef, Et. do 2 f_equal; f_equal; do 2 f_equal; apply map_ext; intros u; f_equal; apply (cntZ_ge s y u).
Qed.
Print Assumptions C45_counts_doubles.

(** Five samples, one tie between the classes and one within a class. *)
Definition ints (l : list Z) : list f64 := map f_of_Z l.
Definition ex_y : list bool := [true; false; true; false; true].
Definition ex_s : list f64 := ints [3; 1; 2; 2; 1]%Z.
Definition milli (x : f64) : option Z := if fisfin x then Some (ftruncZ (fmul x (f_of_Z 1000))) else None.
Definition show_clf (r : res (list (list f64) * list (list f64) * list f64)) :=
  match r with Ok (F, T, th) => Some (map (map milli) F, map (map milli) T, map milli th) | _ => None end.
Definition show_curve (r : res (curve f64 * list f64)) :=
  match r with Ok (c, th) => Some (map (fun q => (map milli (fst q), map milli (snd q))) (fst c)) | _ => None end.
Definition show_area (r : res (curve f64 * list f64)) :=
  match (do p <- r; curve_area (fst p)) with Ok l => Some (map milli l) | _ => None end.

Example C45_example :
  show_clf (_binary_clf_curve ex_y ex_s None) =
    Some ([[Some 0; Some 0; Some 1000; Some 2000]], [[Some 0; Some 1000; Some 2000; Some 3000]], [None; Some 3000; Some 2000; Some 1000])%Z /\
  show_clf (_binary_clf_curve ex_y ex_s (Some [ints [1; 2; 3; 4; 5]%Z])) =
    Some ([[Some 0; Some 0; Some 4000; Some 6000]], [[Some 0; Some 1000; Some 4000; Some 9000]], [None; Some 3000; Some 2000; Some 1000])%Z.
Proof. vm_compute. split; reflexivity. Qed.
Example C45_hyp :
  valid_input [3; 1; 2; 2; 1] ex_y (Some [[1; 2; 3; 4; 1 / 5]]) /\ two_class ex_y /\ finite ex_s /\ length ex_s = length ex_y.
Proof.
  split; [|split; [split; cbn; auto|split; [|reflexivity]]].
  - split; [reflexivity|]. split; [discriminate|]. split; [discriminate|]. constructor; [|constructor]. split; [reflexivity|].
    repeat (apply Forall_cons; [lra|]). apply Forall_nil.
  - unfold finite, ex_s, ints. cbn [map]. repeat (apply Forall_cons; [vm_compute; reflexivity|]). apply Forall_nil.
Qed.

(** ** C46 *)
Theorem C46_roc_path :
  forall s y sw, valid_input s y sw -> exists rows th, roc_curve y (xs s) (xw sw) = Ok ((rows, Linear), th) /\
  length rows = length (weight_rows sw (length y)) /\
  Forall (fun c => exists X Y, c = (xs X, xs Y) /\ StronglySorted Rle X /\ StronglySorted Rle Y /\
    hd 1 X = 0 /\ hd 1 Y = 0 /\ last X 0 = 1 /\ last Y 0 = 1 /\ length X = length th /\ length Y = length th) rows.
Proof.
  intros s y sw V. do 2 eexists. split; [apply roc_exact; exact V|]. split; [apply map_length|]. apply Forall_forall.
  intros c Hc. apply in_map_iff in Hc as (w & <- & Hw). exists (fpr s y w), (tpr s y w). split; [reflexivity|].
  destruct (roc_shape s y w (weight_rows_ok _ _ _ _ V Hw)) as (A & B & C & E & F & G & H & I). cbn [length]. rewrite map_length. tauto.
Qed.
Print Assumptions C46_roc_path.

(** The points are the false and true positive rates at the distinct scores. *)
Theorem C46_roc_points :
  forall s y sw, valid_input s y sw -> exists D, distinct_desc s D /\
  roc_curve y (xs s) (xw sw) = Ok ((map (fun w =>
    (xs (0 :: map (fun t => at_least false t s y w / total false s y w) D),
     xs (0 :: map (fun t => at_least true t s y w / total true s y w) D))) (weight_rows sw (length y)), Linear), PInf :: xs D).
Proof.
  intros s y sw V. exists (D s). split; [apply D_spec|]. unfold xw. rewrite roc_exact by auto. do 3 f_equal. apply map_ext_in.
  intros w Hw. pose proof (weight_rows_ok _ _ _ _ V Hw) as R. pose proof (vrow_neg _ _ _ R). pose proof (vrow_pos _ _ _ R).
  unfold fpr, tpr, fcol, tcol. cbn [map]. rewrite !map_map. f_equal; f_equal; try (f_equal; unfold Rdiv; ring).
  - apply map_ext. intros t. now rewrite at_false, total_false.
  - apply map_ext. intros t. now rewrite at_true, total_true.
Qed.
Print Assumptions C46_roc_points.

(** The same shape for doubles: 0 to 1, non-decreasing, whatever the rounding. *)
Record path64 (l : list f64) : Prop := {
  p64_fin : finite l;
  p64_sorted : StronglySorted (fun a b => fleb a b = true) l;
  p64_hd : hd f0 l = f0;
  p64_last : last l f0 = f_of_Z 1 }.
Lemma path_of l : unit_axis l -> path64 l.
Proof. intros U. constructor; apply U. Qed.

Theorem C46_roc_doubles :
  forall (s : list f64) y, finite s -> length s = length y -> s <> [] -> (Z.of_nat (length y) <= 2 ^ 53)%Z ->
  exists X Y th, roc_curve y s None = Ok (([(X, Y)], Linear), th) /\ path64 X /\ path64 Y /\ length X = length th /\ length Y = length th.
Proof.
  intros s y F L N B. destruct (clf_unweighted_f64 s y F L N B) as (f & t & E & G).
  destruct (roc_f64 _ _ _ _ _ _ E G) as (rows & ER & LR & H). destruct rows as [|[X Y] [|r rows]]; try discriminate.
  inversion H as [|? ? (U & V & LX & LY) _]; subst. exists X, Y, (finf :: thr s).
  split; [exact ER|]. split; [now apply path_of|]. split; [now apply path_of|]. split; [exact LX|exact LY].
Qed.
Print Assumptions C46_roc_doubles.

Example C46_example :
  show_curve (roc_curve ex_y ex_s None) =
    Some [([Some 0; Some 0; Some 500; Some 1000], [Some 0; Some 333; Some 666; Some 1000])]%Z /\
  show_curve (roc_curve [true; true] (ints [1; 2]%Z) None) = Some [([Some 0; Some 500; Some 1000], [Some 0; Some 500; Some 1000])]%Z.
Proof. vm_compute. split; reflexivity. Qed.

(** ** C47 *)
Theorem C47_auc_mann_whitney :
  forall s y sw, valid_input s y sw -> two_class y -> exists c th, roc_curve y (xs s) (xw sw) = Ok (c, th) /\
  curve_area c = Ok (map (fun w => Fin (mann_whitney s y w)) (weight_rows sw (length y))) /\
  Forall (fun w => 0 <= mann_whitney s y w <= 1) (weight_rows sw (length y)).
Proof.
  intros s y sw V T. do 2 eexists. split; [apply roc_exact; exact V|]. split.
  - rewrite curve_rows_area with (n := S (length (D s))).
    + f_equal. apply map_ext_in. intros w Hw. f_equal. apply auc_mann_whitney; auto. eapply weight_rows_ok; eauto.
    + discriminate.
    + eapply weight_rows_ne; eauto.
    + apply D_two, V.
    + intros w Hw. destruct (roc_shape s y w (weight_rows_ok _ _ _ _ V Hw)) as (_ & _ & _ & _ & _ & _ & A & B). auto.
  - apply Forall_forall. intros w Hw. apply mann_whitney_range; auto. eapply weight_rows_ok; eauto.
Qed.
Print Assumptions C47_auc_mann_whitney.

(** 6 pairs: 3 won, 2 tied, 1 lost. *)
Example C47_example : show_area (roc_curve ex_y ex_s None) = Some [Some 666]%Z /\ mann_whitney [3; 1; 2; 2; 1] ex_y [1; 1; 1; 1; 1] = 4 / 6.
Proof.
  split; [vm_compute; reflexivity|]. unfold mann_whitney, pair_wins, w_all, ex_y. cbn [pair_wins_from pair_wins_against wt eqb].
  assert (forall a b, b < a -> Rltb b a = true) as L by (intros; now apply Rltb_spec).
  assert (forall a b, a <= b -> Rltb b a = false) as G.
  { intros a b H. destruct (Rltb b a) eqn:Q; auto. apply Rltb_spec in Q. lra. }
  assert (forall a b, a <> b -> Reqb b a = false) as N.
  { intros a b H. destruct (Reqb b a) eqn:Q; auto. apply Reqb_spec in Q. congruence. }
  assert (forall a, Reqb a a = true) as E by (intros; now apply Reqb_spec).
  rewrite (L 3 1), (L 3 2), (L 2 1), (G 2 2), (G 1 1), (G 1 2), !E, (N 1 2) by lra. lra.
Qed.

(** ** C48 *)

(** In doubles and for any weights: a transformation that keeps the order of
    the scores (strictly increasing on them) changes only the thresholds. *)
Theorem C48_increasing_transform :
  forall (g : f64 -> f64) (s : list f64) y sw, finite s -> finite (map g s) ->
  (forall a b, In a s -> In b s -> fleb (g a) (g b) = fleb a b) ->
  roc_curve y (map g s) sw = thr_map g (roc_curve y s sw) /\
  recall_precision_curve y (map g s) sw = thr_map g (recall_precision_curve y s sw) /\
  prg_curve y (map g s) sw = thr_map g (prg_curve y s sw).
Proof. intros g s y sw F G H. exact (curves_transform (NT := f64_num) g s y sw H F G). Qed.
Print Assumptions C48_increasing_transform.

(** Reordering the samples in doubles. *)
Theorem C48_reorder :
  forall (s : list f64) y s' y', length s = length y -> length s' = length y' -> Permutation (combine s y) (combine s' y') ->
  same_rows (roc_curve y s None) (roc_curve y' s' None) /\
  same_rows (recall_precision_curve y s None) (recall_precision_curve y' s' None) /\
  same_rows (prg_curve y s None) (prg_curve y' s' None).
Proof. intros s y s' y'. exact (curves_reorder (NT := f64_num) s y s' y'). Qed.
Print Assumptions C48_reorder.

(** The area under the ROC curve, if the calls succeed. *)
Definition auc (y : list bool) (s : list R) (sw : option (list (list R))) : res (list xr) :=
  do r <- roc_curve y (xs s) (xw sw); curve_area (fst r).
Lemma auc_eq s y sw : valid_input s y sw -> two_class y ->
  auc y s sw = Ok (map (fun w => Fin (mann_whitney s y w)) (weight_rows sw (length y))).
Proof. intros V T. destruct (C47_auc_mann_whitney s y sw V T) as (c & th & E & A & _). unfold auc. rewrite E. exact A. Qed.
Lemma valid_scores s s' y sw : length s = length s' -> valid_input s y sw -> valid_input s' y sw.
Proof.
  intros L (A & B & C). split; [congruence|]. split; [|exact C]. intros ->. destruct s; [congruence|discriminate].
Qed.
Definition flipped (r : res (list xr)) : res (list xr) := do l <- r; Ok (map (fun v => xsub (Fin 1) v) l).

Theorem C48_negated_scores :
  forall s y sw, valid_input s y sw -> two_class y -> auc y (map Ropp s) sw = flipped (auc y s sw).
Proof.
  intros s y sw V T. rewrite (auc_eq s) by auto. rewrite auc_eq; auto.
  - cbn [flipped bind]. rewrite map_map. f_equal. apply map_ext_in. intros w Hw. cbn [xsub xadd xopp]. f_equal.
    rewrite mann_whitney_neg by (auto; eapply weight_rows_ok; eauto). reflexivity.
  - apply (valid_scores s); auto. now rewrite map_length.
Qed.
Print Assumptions C48_negated_scores.

Theorem C48_swapped_classes :
  forall s y sw, valid_input s y sw -> two_class y -> auc (map negb y) s sw = flipped (auc y s sw).
Proof.
  intros s y sw V T. rewrite (auc_eq s y) by auto. rewrite auc_eq.
  - rewrite map_length. cbn [flipped bind]. rewrite map_map. f_equal. apply map_ext_in. intros w Hw. cbn [xsub xadd xopp]. f_equal.
    rewrite mann_whitney_swap by (auto; eapply weight_rows_ok; eauto). reflexivity.
  - destruct V as (A & B & C). split; [now rewrite map_length|]. split; auto. destruct sw; auto. now rewrite map_length.
  - destruct T as [A B]. split; apply in_map_iff; [exists false|exists true]; auto.
Qed.
Print Assumptions C48_swapped_classes.

(** Every positive above every negative: 1. All scores equal: 1/2. *)
Lemma in_pt (s : list R) (y : list bool) (w : list R) p : In p (combine s (combine y w)) -> exists i, nth_error s i = Some (fst p) /\ nth_error y i = Some (fst (snd p)).
Proof.
  revert y w. induction s as [|a s IH]; intros [|b y] [|c w] H; cbn in H; try contradiction. destruct H as [<-|H]; [exists 0%nat; auto|].
  destruct (IH _ _ H) as [i Hi]. now exists (Datatypes.S i).
Qed.

Theorem C48_separated_is_one :
  forall s y sw, valid_input s y sw -> two_class y ->
  (forall i j a b, nth_error s i = Some a -> nth_error s j = Some b -> nth_error y i = Some true -> nth_error y j = Some false -> b < a) ->
  auc y s sw = Ok (map (fun _ => Fin 1) (weight_rows sw (length y))).
Proof.
  intros s y sw V T H. rewrite auc_eq by auto. f_equal. apply map_ext_in. intros w Hw. f_equal.
  apply mann_whitney_const; auto; [eapply weight_rows_ok; eauto|]. intros p q Hp Hq Tp Fq.
  destruct (in_pt _ _ _ _ Hp) as (i & A & B). destruct (in_pt _ _ _ _ Hq) as (j & C & E). rewrite Tp in B. rewrite Fq in E.
  specialize (H i j _ _ A C B E). unfold kern. apply Rltb_spec in H. now rewrite H.
Qed.
Print Assumptions C48_separated_is_one.

Theorem C48_constant_is_half :
  forall s y sw c, valid_input s y sw -> two_class y -> (forall a, In a s -> a = c) ->
  auc y s sw = Ok (map (fun _ => Fin (1 / 2)) (weight_rows sw (length y))).
Proof.
  intros s y sw c V T H. rewrite auc_eq by auto. f_equal. apply map_ext_in. intros w Hw. f_equal.
  apply mann_whitney_const; auto; [eapply weight_rows_ok; eauto|]. intros p q Hp Hq _ _.
  rewrite (H (fst p)), (H (fst q)) by (eapply in_combine_fst; eauto). unfold kern.
  assert (Rltb c c = false) as -> by (destruct (Rltb c c) eqn:Q; auto; apply Rltb_spec in Q; lra).
  assert (Reqb c c = true) as -> by now apply Reqb_spec. reflexivity.
Qed.
Print Assumptions C48_constant_is_half.

(** Any reordering of the weighted samples keeps the area (exact). *)
Theorem C48_reorder_weighted :
  forall s y w s' y' w', valid_input s y (Some [w]) -> valid_input s' y' (Some [w']) -> two_class y ->
  Permutation (combine s (combine y w)) (combine s' (combine y' w')) ->
  auc y s (Some [w]) = auc y' s' (Some [w']).
Proof.
  intros s y w s' y' w' V V' T P. assert (two_class y') as T'.
  { assert (forall b, In b y -> In b y') as I; [|destruct T; split; auto]. intros b Hb.
    destruct V as (L & _ & _ & W). inversion W as [|? ? [Lw _] _]; subst. apply In_nth_error in Hb as [i Hi].
    assert (exists a, nth_error s i = Some a) as [a Ha].
    { destruct (nth_error s i) eqn:Q; eauto. apply nth_error_None in Q. assert (i < length y)%nat by (apply nth_error_Some; congruence). lia. }
    assert (exists c, nth_error w i = Some c) as [c Hc].
    { destruct (nth_error w i) eqn:Q; eauto. apply nth_error_None in Q. assert (i < length y)%nat by (apply nth_error_Some; congruence). lia. }
    assert (In (a, (b, c)) (combine s (combine y w))) as I.
    { clear -Ha Hi Hc. revert y w i Ha Hi Hc. induction s as [|a' s IH]; intros [|b' y] [|c' w] [|i] A B C; cbn in *; try discriminate.
      - injection A as ->. injection B as ->. injection C as ->. now left.
      - right. eapply IH; eauto. }
    eapply Permutation_in in I; [|exact P]. apply in_combine_r in I. now apply in_combine_l in I. }
  rewrite !auc_eq by auto. cbn [weight_rows map]. now rewrite (mann_whitney_perm _ _ _ _ _ _ P).
Qed.
Print Assumptions C48_reorder_weighted.

(** x -> 2x + 1 keeps the order; so does any table of increasing values. *)
Example C48_example :
  show_area (roc_curve ex_y (map (fun x => fadd (fmul (f_of_Z 2) x) (f_of_Z 1)) ex_s) None) = Some [Some 666]%Z /\
  show_area (roc_curve (rev ex_y) (rev ex_s) None) = Some [Some 666]%Z /\
  show_area (roc_curve (map negb ex_y) ex_s None) = Some [Some 333]%Z /\
  show_area (roc_curve ex_y (map (fsub f0) ex_s) None) = Some [Some 333]%Z /\
  show_area (roc_curve [true; false] (ints [2; 1]%Z) None) = Some [Some 1000]%Z /\
  show_area (roc_curve [true; false; true] (ints [2; 2; 2]%Z) None) = Some [Some 500]%Z.
Proof. vm_compute. repeat split. Qed.
Example C48_hyp : forallb (fun a => forallb (fun b =>
  eqb (fleb (fadd (fmul (f_of_Z 2) a) (f_of_Z 1)) (fadd (fmul (f_of_Z 2) b) (f_of_Z 1))) (fleb a b)) ex_s) ex_s = true.
Proof. vm_compute. reflexivity. Qed.

(** ** C49 *)
Definition single_class (y : list bool) : Prop := exists c, forall b, In b y -> b = c.
Lemma single_one y : single_class y -> one_class y.
Proof. intros [[|] H]; [right|left]; intros I; apply H in I; discriminate. Qed.

Theorem C49_single_class_auc :
  forall s y sw, valid_input s y sw -> single_class y ->
  exists rows th, roc_curve y (xs s) (xw sw) = Ok ((rows, Linear), th) /\ Forall (fun c => fst c = snd c) rows /\
  curve_area (rows, Linear) = Ok (map (fun _ => Fin (1 / 2)) (weight_rows sw (length y))).
Proof.
  intros s y sw V O. apply single_one in O. do 2 eexists. split; [apply roc_exact; exact V|]. split.
  - apply Forall_forall. intros c Hc. apply in_map_iff in Hc as (w & <- & Hw). cbn [fst snd].
    rewrite one_class_diag; auto. eapply weight_rows_ok; eauto.
  - rewrite curve_rows_area with (n := S (length (D s))).
    + f_equal. apply map_ext_in. intros w Hw. f_equal. apply one_class_auc; auto. eapply weight_rows_ok; eauto.
    + discriminate.
    + eapply weight_rows_ne; eauto.
    + apply D_two, V.
    + intros w Hw. destruct (roc_shape s y w (weight_rows_ok _ _ _ _ V Hw)) as (_ & _ & _ & _ & _ & _ & A & B). auto.
Qed.
Print Assumptions C49_single_class_auc.

Definition area_of (r : res (curve xr * list xr)) : res (list xr) := do p <- r; curve_area (fst p).

Lemma pcol_len s y w : length (pcol s y w) = S (length (D s)).
Proof. unfold pcol. cbn [length]. now rewrite map_length. Qed.
Lemma rgcol_len s y w : length (rgcol s y w) = S (length (D s)).
Proof. unfold rgcol. cbn [length]. now rewrite map_length. Qed.

Lemma rp_area_eq s y sw : valid_input s y sw ->
  area_of (recall_precision_curve y (xs s) (xw sw)) = Ok (map (fun w => Fin (rarea Previous (tpr s y w) (pcol s y w))) (weight_rows sw (length y))).
Proof.
  intros V. unfold area_of, xw. rewrite rp_exact by exact V. cbn [bind fst]. apply curve_rows_area with (n := S (length (D s))).
  - discriminate.
  - eapply weight_rows_ne; eauto.
  - apply D_two, V.
  - intros w Hw. destruct (roc_shape s y w (weight_rows_ok _ _ _ _ V Hw)) as (_ & _ & _ & _ & _ & _ & _ & B). split; auto. apply pcol_len.
Qed.

Theorem C49_single_class_recall_precision :
  forall s y sw b, valid_input s y sw -> (forall a, In a y -> a = b) ->
  area_of (recall_precision_curve y (xs s) (xw sw)) =
    Ok (map (fun _ => Fin ((if b then 1 else / 10 ^ 10) / (1 + / 10 ^ 10))) (weight_rows sw (length y))).
Proof.
  intros s y sw b V O. assert (one_class y) as OC by (apply single_one; now exists b). rewrite rp_area_eq by auto. f_equal.
  apply map_ext_in. intros w Hw. pose proof (weight_rows_ok _ _ _ _ V Hw) as R. f_equal. rewrite one_class_rp by auto.
  destruct (one_class_base_rate s y w R) as [P Q]. assert (eps = / 10 ^ 10) as Ee by (unfold eps; rewrite (pow_IZR 10 10); change (10 ^ Z.of_nat 10)%Z with (10 ^ 10)%Z; unfold Rdiv; apply Rmult_1_l). rewrite <- Ee.
  destruct b; [rewrite P|rewrite Q]; auto; intros I; apply O in I; discriminate.
Qed.
Print Assumptions C49_single_class_recall_precision.

Lemma prg_area_rows s y sw : valid_input s y sw -> exists V, area_of (prg_curve y (xs s) (xw sw)) = Ok V /\
  Forall2 (fun w v => area (length (rgcol s y w)) [(xs (rgcol s y w), pgcol s y w)] Previous = Ok [v]) (weight_rows sw (length y)) V.
Proof.
  intros V. unfold area_of, xw. rewrite prg_exact by exact V. cbn [bind fst]. set (ws := weight_rows sw (length y)).
  assert (ws <> []) as Ne by (eapply weight_rows_ne; eauto).
  assert (exists V, Forall2 (fun w v => area (length (rgcol s y w)) [(xs (rgcol s y w), pgcol s y w)] Previous = Ok [v]) ws V) as [vs F].
  { assert (forall w, In w ws -> vrow s y w) as R by (intros; eapply weight_rows_ok; eauto). clear Ne. clearbody ws.
    induction ws as [|w l IH]; [exists []; constructor|]. destruct IH as [vs F]; [intros; apply R; now right|].
    destruct (prg_area s y w (R w (or_introl eq_refl))) as (v & E & _). exists (v :: vs). constructor; auto. }
  exists vs. split; [|exact F]. unfold curve_area. cbn [fst snd]. destruct ws as [|w0 l]; [congruence|]. cbn [map fst].
  rewrite map_length. apply area_rows; [|discriminate].
  change (Forall2 (fun c v => area (length (rgcol s y w0)) [c] Previous = Ok [v]) (map (fun w => (xs (rgcol s y w), pgcol s y w)) (w0 :: l)) vs).
  rewrite rgcol_len. clear -F. induction F as [|w v ? ? H _ IH]; constructor; [|exact IH]. now rewrite rgcol_len in H.
Qed.

Theorem C49_single_class_prg :
  forall s y sw, valid_input s y sw -> single_class y ->
  area_of (prg_curve y (xs s) (xw sw)) = Ok (map (fun _ => Fin 0) (weight_rows sw (length y))).
Proof.
  intros s y sw V O. apply single_one in O. destruct (prg_area_rows s y sw V) as (vs & -> & F). f_equal.
  assert (forall w, In w (weight_rows sw (length y)) -> vrow s y w) as R by (intros; eapply weight_rows_ok; eauto).
  induction F as [|w v ? ? H _ IH]; [reflexivity|]. cbn [map]. f_equal; [|apply IH; intros; apply R; now right].
  rewrite one_class_prg_area in H; auto; [|apply R; now left]. apply Ok_inj in H. now injection H.
Qed.
Print Assumptions C49_single_class_prg.

(** (With three distinct scores the double computed is an ulp below 1/2.) *)
Example C49_example :
  show_area (roc_curve [true; true] (ints [3; 1]%Z) None) = Some [Some 500]%Z /\
  show_area (roc_curve [false; false] (ints [3; 3]%Z) (Some [ints [2; 1]%Z])) = Some [Some 500]%Z /\
  show_area (recall_precision_curve [true; true; true] (ints [3; 1; 2]%Z) None) = Some [Some 999]%Z /\
  show_area (prg_curve [true; true; true] (ints [3; 1; 2]%Z) None) = Some [Some 0]%Z.
Proof. vm_compute. repeat split. Qed.

(** ** C50 *)
Definition precision_at (t : R) s y w : R := at_least true t s y w / (at_least true t s y w + at_least false t s y w).

Theorem C50_recall_precision :
  forall s y sw, valid_input s y sw -> exists D, distinct_desc s D /\
  recall_precision_curve y (xs s) (xw sw) = Ok ((map (fun w =>
    (xs (0 :: map (fun t => at_least true t s y w / total true s y w) D),
     xs (precision_at (hd 0 D) s y w :: map (fun t => precision_at t s y w) D))) (weight_rows sw (length y)), Previous), PInf :: xs D).
Proof.
  intros s y sw V. exists (D s). split; [apply D_spec|]. unfold xw. rewrite rp_exact by auto. do 3 f_equal. apply map_ext_in.
  intros w Hw. pose proof (weight_rows_ok _ _ _ _ V Hw) as R. pose proof (vrow_pos _ _ _ R).
  unfold tpr, tcol, pcol. cbn [map]. rewrite !map_map. f_equal; f_equal.
  - f_equal. unfold Rdiv; ring.
  - apply map_ext. intros t. now rewrite at_true, total_true.
  - unfold prc, precision_at. now rewrite at_true, at_false.
  - apply map_ext. intros t. unfold prc, precision_at. now rewrite at_true, at_false.
Qed.
Print Assumptions C50_recall_precision.

Theorem C50_recall_precision_shape :
  forall s y sw, valid_input s y sw -> exists rows th, recall_precision_curve y (xs s) (xw sw) = Ok ((rows, Previous), th) /\
  Forall2 (fun w c => exists X Y, c = (xs X, xs Y) /\ StronglySorted Rle X /\ hd 1 X = 0 /\ last X 0 = 1 /\
    Forall (fun p => 0 <= p <= 1) Y /\ last Y 0 = total true s y w / (total true s y w + total false s y w) /\
    length X = length th /\ length Y = length th) (weight_rows sw (length y)) rows /\
  exists V, curve_area (rows, Previous) = Ok V /\ Forall (fun v => exists r, v = Fin r /\ 0 <= r <= 1) V.
Proof.
  intros s y sw V. do 2 eexists. split; [apply rp_exact; exact V|].
  assert (forall w, In w (weight_rows sw (length y)) -> vrow s y w) as R by (intros; eapply weight_rows_ok; eauto). split.
  - cbn [length]. rewrite map_length. clear V. induction (weight_rows sw (length y)) as [|w l IH]; constructor; [|apply IH; intros; apply R; now right].
    pose proof (R w (or_introl eq_refl)) as Rw. destruct (roc_shape s y w Rw) as (_ & A & _ & B & _ & C & _ & E).
    exists (tpr s y w), (pcol s y w). split; [reflexivity|]. split; [exact A|]. split; [exact B|]. split; [exact C|].
    split; [apply Forall_forall; intros x Hx; eapply pcol_range; eauto|]. split; [rewrite pcol_last by auto; now rewrite total_true, total_false|].
    split; [exact E|apply pcol_len].
  - pose proof (rp_area_eq s y sw V) as E. unfold area_of, xw in E. rewrite rp_exact in E by exact V. cbn [bind fst] in E.
    eexists. split; [exact E|]. apply Forall_forall. intros v Hv. apply in_map_iff in Hv as (w & <- & Hw). eexists. split; [reflexivity|].
    apply rp_area_range. auto.
Qed.
Print Assumptions C50_recall_precision_shape.

Theorem C50_recall_precision_doubles :
  forall (s : list f64) y, finite s -> length s = length y -> s <> [] -> (Z.of_nat (length y) <= 2 ^ 53)%Z ->
  exists X Y th, recall_precision_curve y s None = Ok (([(X, Y)], Previous), th) /\ path64 X /\
  Forall (fun p => fleb f0 p = true /\ fleb p (f_of_Z 1) = true) Y /\ length X = length th /\ length Y = length th.
Proof.
  intros s y F L N B. destruct (clf_unweighted_f64 s y F L N B) as (f & t & E & G).
  destruct (rp_f64 _ _ _ _ _ _ E G) as (rows & ER & LR & H). destruct rows as [|[X Y] [|r rows]]; try discriminate.
  inversion H as [|? ? (U & V & LX & LY) _]; subst. exists X, Y, (finf :: thr s).
  split; [exact ER|]. split; [now apply path_of|]. split; [|split; [exact LX|exact LY]]. cbn [snd] in V.
  apply Forall_forall. intros p Hp. rewrite Forall_forall in V. apply in01_leb. auto.
Qed.
Print Assumptions C50_recall_precision_doubles.

(** With weights the doubles can fail: a weight that vanishes in the rounding
    of the running sum leaves 0/0, and an assertion fires although all weights
    are positive and finite. *)
Definition tiny_y : list bool := [false; true].
Definition tiny_s : list f64 := [f_of_Z 2; f_of_Z 1].
Definition tiny_w : option (list (list f64)) := Some [[f_lit 1 (10 ^ 10); f_of_Z (2 ^ 21)]].
Definition raises {A} (r : res A) : bool := match r with Err AssertionError => true | _ => false end.

Theorem C50_weighted_doubles_refuted :
  exists (y : list bool) (s : list f64) (sw : list (list f64)), length s = length y /\ forallb fisfin s = true /\
  forallb (fun w => (length w =? length y)%nat && forallb (fun c => fisfin c && fltb f0 c) w) sw = true /\
  raises (recall_precision_curve y s (Some sw)) = true.
Proof. exists tiny_y, tiny_s, [[f_lit 1 (10 ^ 10); f_of_Z (2 ^ 21)]]. vm_compute. auto. Qed.
Print Assumptions C50_weighted_doubles_refuted.

Example C50_example :
  show_curve (recall_precision_curve ex_y ex_s None) =
    Some [([Some 0; Some 333; Some 666; Some 1000], [Some 1000; Some 1000; Some 666; Some 600])]%Z /\
  show_area (recall_precision_curve ex_y ex_s None) = Some [Some 888]%Z.
Proof. vm_compute. split; reflexivity. Qed.

(** ** C51 *)
Definition rec_gain_at (t : R) s y w : R :=
  let tp := at_least true t s y w in
  if Reqb tp 0 then 0 else Rmax 0 (1 - total true s y w * (total true s y w - tp) / (total false s y w * tp)).
Definition prec_gain_at (t : R) s y w : xr :=
  let tp := at_least true t s y w in
  if Reqb tp 0 then NInf else Fin (1 - total true s y w * at_least false t s y w / (total false s y w * tp)).

Theorem C51_prg :
  forall s y sw, valid_input s y sw -> exists D, distinct_desc s D /\
  prg_curve y (xs s) (xw sw) = Ok ((map (fun w =>
    (xs (0 :: map (fun t => rec_gain_at t s y w) D),
     prec_gain_at (hd 0 D) s y w :: map (fun t => prec_gain_at t s y w) D)) (weight_rows sw (length y)), Previous), PInf :: xs D).
Proof.
  intros s y sw V. exists (D s). split; [apply D_spec|]. unfold xw. rewrite prg_exact by auto. do 3 f_equal. apply map_ext.
  intros w. unfold rgcol, pgcol. do 2 f_equal.
  - f_equal. apply map_ext. intros t. unfold recg, rec_gain_at, rgain. now rewrite at_true, total_true, total_false.
  - unfold precg, prec_gain_at. now rewrite at_true, at_false, total_true, total_false.
  - apply map_ext. intros t. unfold precg, prec_gain_at. now rewrite at_true, at_false, total_true, total_false.
Qed.
Print Assumptions C51_prg.

Theorem C51_prg_shape :
  forall s y sw, valid_input s y sw -> exists rows th, prg_curve y (xs s) (xw sw) = Ok ((rows, Previous), th) /\
  length rows = length (weight_rows sw (length y)) /\
  Forall (fun c => exists X, fst c = xs X /\ StronglySorted Rle X /\ hd 1 X = 0 /\ last X 0 = 1 /\
    Forall (fun v => v = NInf \/ exists r, v = Fin r /\ r <= 1) (snd c) /\ last (snd c) NaN = Fin 0 /\
    length X = length th /\ length (snd c) = length th) rows /\
  exists V, curve_area (rows, Previous) = Ok V /\ Forall (fun v => v = NInf \/ exists r, v = Fin r /\ r <= 1) V.
Proof.
  intros s y sw V. do 2 eexists. split; [apply prg_exact; exact V|]. split; [apply map_length|].
  assert (forall w, In w (weight_rows sw (length y)) -> vrow s y w) as R by (intros; eapply weight_rows_ok; eauto). split.
  - apply Forall_forall. intros c Hc. apply in_map_iff in Hc as (w & <- & Hw). specialize (R w Hw). exists (rgcol s y w). cbn [fst snd length].
    rewrite map_length. split; [reflexivity|]. split; [now apply rgcol_sorted|]. split; [reflexivity|]. split; [now apply rgcol_last|].
    split; [|split; [now apply pgcol_last|split; [apply rgcol_len|unfold pgcol; cbn [length]; now rewrite map_length]]].
    apply Forall_forall. intros v Hv. pose proof (pgcol_le1 s y w v R Hv) as L. destruct (pgcol_value s y w v Hv) as [->|[r ->]]; [now left|right].
    exists r. split; auto. now apply Rleb_spec in L.
  - destruct (prg_area_rows s y sw V) as (vs & E & F). unfold area_of, xw in E. rewrite prg_exact in E by exact V. cbn [bind fst] in E.
    exists vs. split; [exact E|]. clear E. induction F as [|w v ? ? H _ IH]; constructor; [|apply IH; intros; apply R; now right].
    destruct (prg_area s y w (R w (or_introl eq_refl))) as (v' & E & P). rewrite E in H. apply Ok_inj in H. injection H as <-. exact P.
Qed.
Print Assumptions C51_prg_shape.

Theorem C51_prg_doubles :
  forall (s : list f64) y, finite s -> length s = length y -> s <> [] -> (Z.of_nat (length y) <= 2 ^ 53)%Z ->
  exists X Y th, prg_curve y s None = Ok (([(X, Y)], Previous), th) /\ path64 X /\
  Forall (fun p => fleb p (f_of_Z 1) = true) Y /\ last Y f0 = f0 /\ length X = length th /\ length Y = length th.
Proof.
  intros s y F L N B. destruct (clf_unweighted_f64 s y F L N B) as (f & t & E & G).
  destruct (prg_f64 _ _ _ _ _ _ E G) as (rows & ER & LR & H). destruct rows as [|[X Y] [|r rows]]; try discriminate.
  inversion H as [|? ? (U & V & Z & LX & LY) _]; subst. exists X, Y, (finf :: thr s).
  split; [exact ER|]. split; [now apply path_of|]. split; [|split; [exact Z|split; [exact LX|exact LY]]]. cbn [snd] in V.
  apply Forall_forall. intros p Hp. rewrite Forall_forall in V. apply pgain_le1. auto.
Qed.
Print Assumptions C51_prg_doubles.

(** The same tiny weight gives a NaN precision gain, which check_curve rejects. *)
Theorem C51_weighted_doubles_refuted :
  exists (y : list bool) (s : list f64) (sw : list (list f64)), length s = length y /\ forallb fisfin s = true /\
  forallb (fun w => (length w =? length y)%nat && forallb (fun c => fisfin c && fltb f0 c) w) sw = true /\
  (match prg_curve y s (Some sw) with Ok (([(_, p)], _), _) => existsb fisnan p | _ => false end) = true /\
  raises (do r <- prg_curve y s (Some sw); check_curve r None) = true.
Proof. exists tiny_y, tiny_s, [[f_lit 1 (10 ^ 10); f_of_Z (2 ^ 21)]]. vm_compute. auto. Qed.
Print Assumptions C51_weighted_doubles_refuted.

Example C51_example :
  show_curve (prg_curve ex_y ex_s None) =
    Some [([Some 0; Some 0; Some 250; Some 1000], [Some 1000; Some 1000; Some 250; Some 0])]%Z /\
  show_area (prg_curve [false; true] (ints [2; 1]%Z) None) = Some [None].
Proof. vm_compute. split; reflexivity. Qed.

(** ** C52 *)
Theorem C52_integer_weights :
  forall s y ks, valid_input s y None -> length ks = length y -> Forall (fun k => (1 <= k)%nat) ks ->
  let w := Some [map (fun k => Fin (INR k)) ks] in
  roc_curve y (xs s) w = roc_curve (replicate ks y) (xs (replicate ks s)) None /\
  recall_precision_curve y (xs s) w = recall_precision_curve (replicate ks y) (xs (replicate ks s)) None /\
  prg_curve y (xs s) w = prg_curve (replicate ks y) (xs (replicate ks s)) None.
Proof.
  intros s y ks V L P w. pose proof (clf_replicate s y ks V L P) as E. unfold roc_curve, recall_precision_curve, prg_curve, w.
  rewrite E. auto.
Qed.
Print Assumptions C52_integer_weights.

(** In doubles, as long as the total weight is at most 2^53. *)
Theorem C52_integer_weights_doubles :
  forall (s : list f64) y ks, finite s -> length s = length y -> s <> [] -> length ks = length y -> Forall (fun k => (1 <= k)%nat) ks ->
  (Zsum (map Z.of_nat ks) <= 2 ^ 53)%Z ->
  let w := Some [map (fun k => f_of_Z (Z.of_nat k)) ks] in
  same_rows (roc_curve y s w) (roc_curve (replicate ks y) (replicate ks s) None) /\
  same_rows (recall_precision_curve y s w) (recall_precision_curve (replicate ks y) (replicate ks s) None) /\
  same_rows (prg_curve y s w) (prg_curve (replicate ks y) (replicate ks s) None).
Proof.
  intros s y ks F L N Lk P S w. destruct (clf_replicate_f64 s y ks F L N Lk P S) as (G & T & th & th' & E & E' & Q & H).
  assert (length th = length th') as LT by (eapply Forall2_len; exact Q).
  assert (good_rows G T (length (finf :: th'))) as H' by (cbn [length] in *; now rewrite <- LT).
  unfold w. split; [|split].
  - unfold roc_curve. rewrite E, E'. cbn [bind same_rows tl]. split; [reflexivity|exact Q].
  - destruct (rp_f64 _ _ _ _ _ _ E H) as (rows & R & _). destruct (rp_f64 _ _ _ _ _ _ E' H') as (rows' & R' & _). rewrite R, R'.
    unfold recall_precision_curve in R, R'. rewrite E in R. rewrite E' in R'. cbn [bind] in R, R'.
    destruct (py_assert _) in R, R'; cbn [bind] in R, R'; [|discriminate].
    apply Ok_inj in R. apply Ok_inj in R'. assert ((rows, Previous) = (rows', Previous)) as -> by congruence. split; [reflexivity|exact Q].
  - destruct (prg_f64 _ _ _ _ _ _ E H) as (rows & R & _). destruct (prg_f64 _ _ _ _ _ _ E' H') as (rows' & R' & _). rewrite R, R'.
    unfold prg_curve in R, R'. rewrite E in R. rewrite E' in R'. cbn [bind] in R, R'.
    repeat (match type of R with context [py_assert ?b] => destruct (py_assert b); cbn [bind] in R, R'; [|discriminate] end).
    apply Ok_inj in R. apply Ok_inj in R'. assert ((rows, Previous) = (rows', Previous)) as -> by congruence. split; [reflexivity|exact Q].
Qed.
Print Assumptions C52_integer_weights_doubles.

Example C52_example :
  replicate [2; 1; 3; 1; 1]%nat ex_y = [true; true; false; true; true; true; false; true] /\
  show_curve (prg_curve ex_y ex_s (Some [ints [2; 1; 3; 1; 1]%Z])) =
  show_curve (prg_curve (replicate [2; 1; 3; 1; 1]%nat ex_y) (replicate [2; 1; 3; 1; 1]%nat ex_s) None) /\
  show_curve (prg_curve ex_y ex_s (Some [ints [2; 1; 3; 1; 1]%Z])) <> None.
Proof. split; [reflexivity|]. split; [vm_compute; reflexivity|]. vm_compute. discriminate. Qed.

(** ** C53 *)
Definition in_unit (v : xr) : Prop := exists r, v = Fin r /\ 0 <= r <= 1.
Definition at_most_one (v : xr) : Prop := v = NInf \/ exists r, v = Fin r /\ r <= 1.

(** [f] can be checked, integrated and evaluated on a grid in [0,1]; every value is in [Q]. *)
Definition usable (Q : xr -> Prop) (f : curve_fun xr) : Prop :=
  forall s y sw g, valid_input s y sw -> g <> [] -> (forall x, In x g -> 0 <= x <= 1) ->
  exists rows k th areas vals, f y (xs s) (xw sw) = Ok ((rows, k), th) /\
    check_curve ((rows, k), th) (Some (xs g)) = Ok (rows, k) /\ check_curve ((rows, k), th) None = Ok (rows, k) /\
    curve_area (rows, k) = Ok areas /\ length areas = length rows /\ Forall Q areas /\
    interp1d (xs g) rows k = Ok vals /\ length vals = length rows /\ Forall (fun v => length v = length g /\ Forall Q v) vals /\
    length rows = length (weight_rows sw (length y)).

Lemma usable_of Q f : sound_curve Q f -> usable Q f.
Proof.
  intros H s y sw g V Ng G. destruct (H s y sw V) as (rows & k & th & areas & E & K & L & Nr & A & LA & FA & W).
  destruct (W g G) as (NI & vals & EV & LV & FV). exists rows, k, th, areas, vals.
  split; [exact E|]. split; [apply check_nice; auto; intros Q0; apply map_eq_nil in Q0; contradiction|].
  split; [apply check_nice_none; eapply Forall_impl; [|exact NI]; intros c; apply nice_nil|].
  split; [exact A|]. split; [exact LA|]. split; [exact FA|]. split; [exact EV|]. split; [exact LV|]. split; [exact FV|exact L].
Qed.

Theorem C53_curves_usable : usable in_unit roc_curve /\ usable in_unit recall_precision_curve /\ usable at_most_one prg_curve.
Proof.
  split; [|split]; apply usable_of; [exact roc_sound|exact rp_sound|exact prg_sound].
Qed.
Print Assumptions C53_curves_usable.

Lemma mask_le {A} m (l : list A) : (length (mask m l) <= length l)%nat.
Proof. revert l. induction m as [|[|] m IH]; intros [|a l]; cbn [mask length]; try lia; specialize (IH l); lia. Qed.

(** In doubles, without weights. *)
Definition usable64 (f : curve_fun f64) y s sw : Prop :=
  forall g, g <> [] -> (forall x, In x g -> fleb f0 x = true /\ fleb x (f_of_Z 1) = true) ->
  exists rows k th areas vals, f y s sw = Ok ((rows, k), th) /\ check_curve ((rows, k), th) (Some g) = Ok (rows, k) /\
    curve_area (rows, k) = Ok areas /\ Forall (fun a => fisnan a = false) areas /\ length areas = length rows /\
    interp1d g rows k = Ok vals /\ Forall (fun v => length v = length g) vals /\ length vals = length rows.

Theorem C53_curves_usable_doubles :
  forall (s : list f64) y, finite s -> length s = length y -> s <> [] -> (Z.of_nat (length y) < 2 ^ 53)%Z ->
  usable64 roc_curve y s None /\ usable64 recall_precision_curve y s None /\ usable64 prg_curve y s None.
Proof.
  intros s y F L N B. destruct (clf_unweighted_f64 s y F L N) as (f & t & E & G); [lia|].
  assert (thr s <> []) as NT by now apply thr_nonempty.
  apply (curves_work _ _ _ _ _ _ E G); [discriminate| |].
  - destruct (thr s); [congruence|cbn [length]; lia].
  - cbn [length]. assert (length (thr s) <= length s)%nat; [|lia].
    unfold thr. eapply Nat.le_trans; [apply (mask_le)|]. now rewrite sorted_scores_length.
Qed.
Print Assumptions C53_curves_usable_doubles.

Example C53_example :
  (do r <- roc_curve ex_y ex_s None; do c <- check_curve r (Some [f0; f_lit 1 2; f_of_Z 1]);
   do v <- interp1d [f0; f_lit 1 2; f_of_Z 1] (fst c) (snd c); Ok (map (map milli) v)) = Ok [[Some 333; Some 666; Some 1000]]%Z.
Proof. vm_compute. reflexivity. Qed.

(** ** C54 *)
Definition boot_result (Q : xr -> Prop) (r : res ((xr * xr * xr) * list (xr * xr * xr * xr))) (grid : list R) : Prop :=
  exists auc EB p rows, r = Ok ((auc, EB, Fin p), rows) /\ Q auc /\ 0 <= p <= 1 /\
  map (fun r => fst (fst (fst r))) rows = map Fin grid /\
  Forall (fun r => Q (snd (fst (fst r))) /\ Q (snd (fst r)) /\ Q (snd r) /\ xleb (snd (fst r)) (snd r) = true) rows.

Lemma fin_not_nan v : in_unit v -> nisnan v = false.
Proof. intros (r & -> & _). reflexivity. Qed.
Lemma gain_not_nan v : at_most_one v -> nisnan v = false.
Proof. intros [->|(r & -> & _)]; reflexivity. Qed.

Theorem C54_curve_boot_roc_rp :
  forall f kd y preds counts n_boot ref g pairwise c, f = roc_curve \/ f = recall_precision_curve ->
  curve_boot_input kd y preds counts n_boot -> valid_ref_arg ref (length y) -> valid_grid g -> 0 < c < 1 ->
  boot_result in_unit (curve_boot counts kd y (fin_matrix preds) 2 (to_ref ref) f (option_map (map Fin) g) n_boot pairwise (Fin c)) (grid_of g).
Proof.
  intros f kd y preds counts n_boot ref g pw c Hf I VR VG C.
  assert (sound_curve in_unit f) as S by (destruct Hf as [->| ->]; [exact roc_sound|exact rp_sound]).
  apply (curve_boot_total in_unit f S fin_not_nan); auto. intros _ a b (r & -> & _) Hb. destruct ref; [subst b|destruct Hb as (q & -> & _)]; reflexivity.
Qed.
Print Assumptions C54_curve_boot_roc_rp.

Theorem C54_curve_boot_prg :
  forall kd y preds counts n_boot ref g pairwise c,
  curve_boot_input kd y preds counts n_boot -> valid_ref_arg ref (length y) -> valid_grid g -> 0 < c < 1 ->
  (pairwise = true -> exists r, ref = ScalarRef r) ->
  boot_result at_most_one (curve_boot counts kd y (fin_matrix preds) 2 (to_ref ref) prg_curve (option_map (map Fin) g) n_boot pairwise (Fin c)) (grid_of g).
Proof.
  intros kd y preds counts n_boot ref g pw c I VR VG C P.
  apply (curve_boot_total at_most_one prg_curve prg_sound gain_not_nan); auto. intros Hp a b Ha Hb. destruct (P Hp) as [r ->]. subst b.
  destruct Ha as [->|(q & -> & _)]; reflexivity.
Qed.
Print Assumptions C54_curve_boot_prg.

(** The pairwise comparison of precision-recall-gain areas can fail: if a
    replicate has area -inf for both methods the difference is NaN.  Here the
    reference is compared with itself, as curve_summary_table does for the
    reference row. *)
Theorem C54_pairwise_prg_refuted :
  exists (y : list Z) (preds : list (list f64)) (counts : list (list Z)), two_class (map (fun v => negb (v =? 0)%Z) y) /\
  length preds = length y /\ forallb (fun r => (length r =? 2)%nat && forallb fisfin r) preds = true /\
  counts = [[1; 1]]%Z /\
  raises (curve_boot counts Ki y preds 2 (RefPred preds) prg_curve None 1 true (f_lit 95 100)) = true /\
  raises (curve_boot counts Ki y preds 2 (RefPred preds) prg_curve None 1 false (f_lit 95 100)) = false.
Proof.
  exists [0; 1]%Z, [ints [0; 2]%Z; ints [0; 1]%Z], [[1; 1]]%Z. split; [split; cbn; auto|]. split; [reflexivity|]. vm_compute. auto.
Qed.
Print Assumptions C54_pairwise_prg_refuted.

Definition boot_cells (r : res ((f64 * f64 * f64) * list (f64 * f64 * f64 * f64))) :=
  match r with
  | Ok ((a, e, p), rows) => Some ((milli a, milli e, milli p), map (fun q => (milli (snd (fst q)), milli (snd q))) rows)
  | Err _ => None
  end.
Example C54_example :
  boot_cells (curve_boot [[2; 1; 0; 1; 1]; [1; 1; 1; 1; 1]; [0; 1; 2; 2; 0]]%Z Ki [1; 0; 1; 0; 1]%Z
    (map (fun v => [f0; v]) ex_s) 2 (RefScalar (f_lit 1 2)) roc_curve (Some [f0; f_lit 1 2; f_of_Z 1]) 3 true (f_lit 95 100)) =
  Some ((Some 666, Some 83, Some 0), [(Some 0, Some 666); (Some 666, Some 749); (Some 1000, Some 1000)])%Z.
Proof. vm_compute. reflexivity. Qed.
Example C54_hyp :
  curve_boot_input Ki [1; 0; 1]%Z [[0; 3]; [0; 1]; [0; 2]] [[2; 0; 1]; [0; 3; 0]]%Z 2 /\ valid_ref_arg (MatrixRef [[0; 1]; [0; 0]; [1; 1]]) 3 /\
  valid_grid None.
Proof.
  split; [|split; [split; [reflexivity|repeat constructor]|exact I]].
  constructor; auto; try discriminate; try lia; repeat (constructor; auto).
  all: try lia.
Qed.
