(** Property theorems C28-C35 about util.py.  Model: Util.v. *)
From Coq Require Import Reals Lra Permutation Sorted.
From Coquelicot Require Import Coquelicot.
From Verif Require Import PyBase F64 F64Lemmas Num NumOk Util UtilProofs ListLemmas UtilProofs2 UtilProofs3.
Open Scope Z_scope.
Open Scope list_scope.

(** ** Vocabulary *)

Definition notnan (l : list f64) : Prop := Forall (fun x => fisnan x = false) l.
Definition finite (l : list f64) : Prop := Forall (fun x => fisfin x = true) l.
Definition increasing (l : list f64) : Prop := StronglySorted (fun a b => fltb a b = true) l.
Definition nondecreasing (l : list f64) : Prop := StronglySorted (fun a b => fleb a b = true) l.
Definition below (a b : list f64) : Prop := Forall2 (fun x y => fleb x y = true) a b.

(** ** C28 *)
Theorem C28_one_hot :
  forall kd y L m, one_hot kd y L = Ok m ->
  length m = length y /\
  forall i v row, nth_error y i = Some v -> nth_error m i = Some row ->
    Z.of_nat (length row) = L /\
    forall j, 0 <= j < L -> nth_error row (Z.to_nat j) = Some (j =? v).
Proof.
  intros kd y L m H. rewrite one_hot_ok in H.
  destruct (_ && _) eqn:E in H; [|discriminate]. apply Ok_inj in H. subst m.
  apply andb_true_iff in E as [E F]. apply andb_true_iff in E as [E _]. apply Z.leb_le in E.
  split; [apply map_length|]. intros i v row Hv Hr. rewrite nth_error_map, Hv in Hr. cbn in Hr. inversion Hr; subst.
  rewrite forallb_forall in F. specialize (F v (nth_error_In _ _ Hv)). apply andb_true_iff in F as [F1 F2].
  apply Z.leb_le in F1. apply Z.ltb_lt in F2.
  rewrite set_true_length, repeat_length. split; [lia|]. intros j Hj.
  rewrite set_true_nth by lia. f_equal. apply eq_true_iff_eq. rewrite Nat.eqb_eq, Z.eqb_eq. lia.
Qed.
Print Assumptions C28_one_hot.

Theorem C28_one_hot_raises_iff :
  forall kd y L, is_ok (one_hot kd y L) = false <->
  (L < 1 \/ kd <> Ki \/ exists v, In v y /\ ~ (0 <= v < L)).
Proof.
  intros kd y L. rewrite one_hot_ok.
  assert (dkind_eqb kd Ki = true <-> kd = Ki) as K by (destruct kd; cbn; split; congruence).
  destruct (1 <=? L) eqn:E1; [|cbn; apply Z.leb_gt in E1; split; auto].
  apply Z.leb_le in E1. destruct (dkind_eqb kd Ki) eqn:E2.
  2:{ cbn. split; auto. intros _. right. left. intros ->. discriminate. }
  cbn [andb]. destruct (forallb _ y) eqn:E3; cbn; split; intros H; try discriminate; auto.
  - exfalso. destruct H as [H|[H|(v & Hv & Hn)]]; [lia|apply H, K; reflexivity|].
    rewrite forallb_forall in E3. specialize (E3 v Hv). apply Hn. lia.
  - right. right. clear -E3. induction y as [|a y IH]; [discriminate|]. cbn in E3. apply andb_false_iff in E3 as [E|E].
    + exists a. split; [now left|lia]. + destruct (IH E) as (v & ? & ?). exists v. split; [now right|auto].
Qed.
Print Assumptions C28_one_hot_raises_iff.

Example C28_example :
  one_hot Ki [2; 0] 3 = Ok [[false; false; true]; [true; false; false]] /\
  one_hot Ki [3] 3 = Err AssertionError /\ one_hot Kb [0] 3 = Err AssertionError.
Proof. repeat split. Qed.

(** ** C29.  [pr a] is the probability exp(a), with exp(-inf) = 0. *)
Definition logprob_row (row : list xr) : Prop := Forall logp row /\ Exists is_fin row.

Theorem C29_normalize :
  forall ncol m, (1 <= ncol)%nat -> Forall logprob_row m ->
  exists out, normalize ncol m = Ok out /\
  Forall2 (fun row o =>
    length o = length row /\ logprob_row o /\ Rsum (map pr o) = 1%R /\
    exists c, forall i, nth_error o i =
      match nth_error row i with Some (Fin x) => Some (Fin (x - c)) | r => r end) m out.
Proof.
  intros ncol m Hn F. unfold normalize. assert (1 <=? Z.of_nat ncol = true) as -> by (apply Z.leb_le; lia).
  cbn [py_assert bind]. eexists. split; [reflexivity|].
  induction F as [|row m [F E] Fm IH]; cbn [map]; constructor; auto.
  pose proof (normalize_row_sum row F E) as S. rewrite normalize_row_spec in * by auto.
  repeat split; auto using shift_logp, shift_fin.
  - apply map_length.
  - eexists. intros i. rewrite nth_error_map. destruct (nth_error row i) as [[]|]; reflexivity.
Qed.
Print Assumptions C29_normalize.

Theorem C29_offset :
  forall ncol m cs, Forall logprob_row m -> length cs = length m ->
  normalize ncol (map2 (fun c row => map (nadd (Fin c)) row) cs m) = normalize ncol m.
Proof.
  intros ncol m cs F L. unfold normalize. destruct (1 <=? Z.of_nat ncol); [|reflexivity]. cbn [py_assert bind].
  f_equal. revert cs L. induction F as [|row m [F1 E] Fm IH]; intros [|c cs] L; try discriminate; auto.
  cbn [map2 map]. rewrite IH by (cbn in L; lia). now rewrite normalize_row_offset.
Qed.
Print Assumptions C29_offset.

Theorem C29_idempotent :
  forall ncol m out, Forall logprob_row m -> normalize ncol m = Ok out -> normalize ncol out = Ok out.
Proof.
  intros ncol m out F. unfold normalize. destruct (1 <=? Z.of_nat ncol); [|discriminate]. cbn [py_assert bind].
  intros H. apply Ok_inj in H. subst out. f_equal. induction F as [|row m [F1 E] Fm IH]; cbn [map]; auto.
  rewrite IH. f_equal. now apply normalize_row_idem.
Qed.
Print Assumptions C29_idempotent.

(** A row without any finite entry is turned into NaN, not into an error. *)
Theorem C29_all_zero_row_is_nan :
  forall ncol k, (1 <= ncol)%nat -> normalize ncol [repeat NInf k] = Ok [repeat NaN k].
Proof.
  intros ncol k Hn. unfold normalize. assert (1 <=? Z.of_nat ncol = true) as -> by (apply Z.leb_le; lia).
  cbn [py_assert bind map]. do 2 f_equal. unfold normalize_row.
  assert (forall k, fold_left nmax (repeat NInf k) NInf = NInf) as M by (induction k0; cbn; auto).
  assert (k = O \/ logsumexp (repeat NInf k) = NInf) as [->|E].
  { destruct k as [|k]; [now left|right]. unfold logsumexp, amax. cbn [repeat]. rewrite M.
    cbn [nisfin xr_num xisfin n0].
    assert (forall k, Rsum (repeat 0%R k) = 0%R) as Z0.
    { induction k0; cbn [repeat]; [reflexivity|]. rewrite Rsum_cons, IHk0. lra. }
    change (NInf :: repeat NInf k) with (repeat NInf (S k)).
    assert (forall k, map (fun a => xexp (nsub a (Fin 0))) (repeat NInf k) = map Fin (repeat 0%R k)) as ->.
    { induction k0; cbn; auto. f_equal; auto. }
    rewrite nsum_fin, Z0. cbn. destruct (Rltb 0 0) eqn:L; [apply Rltb_spec in L; lra|].
    destruct (Reqb 0 0) eqn:Q; [reflexivity|]. exfalso. assert (Reqb 0 0 = true) by (now apply Reqb_spec). congruence. }
  - reflexivity.
  - rewrite E. clear. induction k; cbn [repeat map]; auto. f_equal; auto.
Qed.
Print Assumptions C29_all_zero_row_is_nan.

Example C29_example : logprob_row [Fin 0; NInf; Fin (ln 3)] /\
  normalize_row [Fin 0; NInf; Fin (ln 3)] = [Fin (0 - ln 4); NInf; Fin (ln 3 - ln 4)].
Proof.
  assert (logprob_row [Fin 0; NInf; Fin (ln 3)]) as H.
  { split; [repeat constructor|]. left. exact I. }
  split; [exact H|]. destruct H. rewrite normalize_row_spec by auto.
  assert (Rsum (map pr [Fin 0; NInf; Fin (ln 3)]) = 4%R) as ->; [|reflexivity].
  unfold Rsum. cbn [map pr fold_right]. rewrite exp_0, exp_ln by lra. lra.
Qed.

(** ** C30 *)
Theorem C30_epsilon_noise :
  forall (u x : list R) d m, length u = length x -> Forall (fun v => 0 <= v < 1)%R u -> (0 < d)%R -> (0 < m)%R ->
  exists out : list R, epsilon_noise (map Fin u) (map Fin x) (Fin d) (Fin m) = Ok (map Fin out) /\
  length out = length x /\
  (forall i a o, nth_error x i = Some a -> nth_error out i = Some o -> Rabs (o - a) <= m / 2)%R /\
  forall i j a b o o', nth_error x i = Some a -> nth_error x j = Some b ->
    nth_error out i = Some o -> nth_error out j = Some o' ->
    (a < b -> o < o')%R /\
    (i <> j -> o = o' -> a = b /\ nth_error u i = nth_error u j).
Proof.
  intros u x d m L U Hd Hm. destruct (epsilon_noise_exact u x d m L Hd Hm) as (delta & [D0 D1] & G & E).
  eexists. split; [exact E|]. rewrite map_length, combine_length, L, Nat.min_id. split; [reflexivity|].
  assert (forall i a o, nth_error x i = Some a ->
    nth_error (map (fun '(a, v) => a + delta * (v - 1 / 2)) (combine x u))%R i = Some o ->
    exists v, nth_error u i = Some v /\ (0 <= v < 1)%R /\ o = (a + delta * (v - 1 / 2))%R) as K.
  { intros i a o Ha Ho. rewrite nth_error_map, nth_combine, Ha in Ho. destruct (nth_error u i) as [v|] eqn:Ev; [|discriminate].
    cbn in Ho. inversion Ho. exists v. repeat split; auto; eapply Forall_forall in U; try (eapply nth_error_In; eauto); lra. }
  split.
  - intros i a o Ha Ho. destruct (K i a o Ha Ho) as (v & _ & Hv & ->).
    replace (a + delta * (v - 1 / 2) - a)%R with (delta * (v - 1 / 2))%R by ring.
    apply Rabs_le. split; nra.
  - intros i j a b o o' Ha Hb Ho Ho'. destruct (K i a o Ha Ho) as (v & Ev & Hv & ->).
    destruct (K j b o' Hb Ho') as (w & Ew & Hw & ->).
    assert (forall a b v w, In a x -> In b x -> 0 <= v < 1 -> 0 <= w < 1 -> a < b ->
      a + delta * (v - 1 / 2) < b + delta * (w - 1 / 2))%R as M.
    { clear -G D0. intros a b v w Ia Ib Hv Hw Lab. specialize (G a b Ia Ib Lab). nra. }
    apply nth_error_In in Ha, Hb. split; [now apply M|].
    intros Hij Eo. destruct (Rtotal_order a b) as [Lt|[->|Lt]].
    + specialize (M a b v w Ha Hb Hv Hw Lt). lra.
    + split; auto. rewrite Ev, Ew. f_equal. nra.
    + specialize (M b a w v Hb Ha Hw Hv Lt). lra.
Qed.
Print Assumptions C30_epsilon_noise.

Example C30_example : exists out : list R,
  epsilon_noise (map Fin [0; 1 / 2]%R) (map Fin [3; 3]%R) (Fin 1) (Fin 1) = Ok (map Fin out) /\ length out = 2%nat.
Proof.
  destruct (C30_epsilon_noise [0; 1 / 2]%R [3; 3]%R 1 1) as (out & H & L & _); try lra.
  - reflexivity. - repeat constructor; lra. - eauto.
Qed.

(** With rounding the order is only weakly preserved: two neighbouring doubles
    1 and 1 + 2^-52 collide for draws that [np.random.rand] can return. *)
Theorem C30_order_in_doubles_refuted :
  exists x u : list f64,
    forallb (fun v => fleb f0 v && fltb v (f_of_Z 1)) u = true /\
    match x with [a; b] => fltb a b | _ => false end = true /\
    match epsilon_noise u x (f_lit 1 10000000000) (f_of_Z 1) with
    | Ok [o; o'] => feqb o o' | _ => false end = true.
Proof.
  exists [f_of_Z 1; f_of_me (2 ^ 52 + 1) (-52)], [f_of_me (2 ^ 53 - 1) (-53); f0].
  repeat split; vm_compute; reflexivity.
Qed.
Print Assumptions C30_order_in_doubles_refuted.

(** ** C31 *)
Theorem C31_unique_take_last :
  forall (A : Type) (xp : list f64) (yp : list A) r, unique_take_last xp (Some yp) = Ok r ->
  exists xs ys, r = (xs, Some ys) /\ length xs = length ys /\ nondecreasing xp /\ increasing xs /\
  (* every kept pair is the last one with its x *)
  (forall k x y, nth_error xs k = Some x -> nth_error ys k = Some y ->
     exists i, nth_error xp i = Some x /\ nth_error yp i = Some y /\
     forall j x', (i < j)%nat -> nth_error xp j = Some x' -> fltb x x' = true) /\
  (* and every x is kept *)
  (forall x, In x xp -> exists x', In x' xs /\ feqb x x' = true).
Proof.
  intros A xp yp r H. apply unique_take_last_ok in H as (O & S & L & ->).
  exists (mask (utl_idx xp) xp), (mask (utl_idx xp) yp). repeat split; auto.
  - now apply utl_mask_length.
  - exact (utl_sorted (NT := f64_num) xp O S).
  - intros k x y Hx Hy. exact (utl_last xp yp O S L k x y Hx Hy).
  - intros x Hx. exact (utl_complete xp x O S Hx).
Qed.
Print Assumptions C31_unique_take_last.

Theorem C31_accepts_iff_sorted :
  forall (A : Type) (xp : list f64) (yp : list A), finite xp -> length xp = length yp ->
  (is_ok (unique_take_last xp (Some yp)) = true <-> nondecreasing xp).
Proof.
  intros A xp yp F L. split; intros H.
  - destruct (unique_take_last xp (Some yp)) as [r|] eqn:E; [|discriminate].
    apply unique_take_last_ok in E as (_ & S & _). exact S.
  - rewrite unique_take_last_succ by auto. reflexivity.
Qed.
Print Assumptions C31_accepts_iff_sorted.

Example C31_example :
  match unique_take_last (map f_of_Z [1; 1; 2; 3; 3]) (Some [10; 11; 12; 13; 14]) with
  | Ok (xs, ys) => Some (map ftruncZ xs, ys) | Err _ => None end
  = Some ([1; 2; 3], Some [11; 12; 14]) /\
  unique_take_last (map f_of_Z [2; 1]) (Some [10; 11]) = Err AssertionError.
Proof. split; vm_compute; reflexivity. Qed.

(** ** C32 *)
Theorem C32_cummax_strict :
  forall x r, notnan x -> cummax_strict x = Ok r ->
  increasing r /\ below x r /\ forall v, increasing v -> below x v -> below r v.
Proof.
  intros x r N H. destruct (cummax_strict_ok x r N H) as [S B]. repeat split; auto.
  intros v Hv Bv. destruct (cummax_strict_least x v N Hv Bv) as (r' & E & B'). rewrite E in H. apply Ok_inj in H. now subst.
Qed.
Print Assumptions C32_cummax_strict.

(** It returns exactly when some strictly increasing majorant exists. *)
Theorem C32_returns_iff :
  forall x, notnan x ->
  (is_ok (cummax_strict x) = true <-> exists v, increasing v /\ below x v).
Proof.
  intros x N. split; intros H.
  - destruct (cummax_strict x) as [r|] eqn:E; [|discriminate]. exists r. now apply cummax_strict_ok.
  - destruct H as (v & Hv & B). destruct (cummax_strict_least x v N Hv B) as (r & -> & _). reflexivity.
Qed.
Print Assumptions C32_returns_iff.

Theorem C32_increasing_unchanged :
  forall x, notnan x -> increasing x ->
  exists r, cummax_strict x = Ok r /\ Forall2 (fun a b => feqb a b = true) x r.
Proof.
  intros x N S.
  assert (below x x) as B by (unfold below; clear S; induction N; constructor; auto; now apply fleb_refl).
  destruct (cummax_strict_least x x N S B) as (r & E & B'). exists r. split; auto.
  destruct (cummax_strict_ok x r N E) as [_ B2]. apply Forall2_intro; [now apply Forall2_len in B2|].
  intros i a b Ha Hb. rewrite (eqb_leb_ (NT := f64_num) a b : feqb a b = fleb a b && fleb b a). apply andb_true_iff. split.
  - exact (Forall2_nth _ _ _ _ _ _ B2 Ha Hb). - exact (Forall2_nth _ _ _ _ _ _ B' Hb Ha).
Qed.
Print Assumptions C32_increasing_unchanged.

Example C32_example :
  cummax_strict (map f_of_Z [1; 1; 5]) = Ok [f_of_Z 1; f_of_me (2 ^ 52 + 1) (-52); f_of_Z 5] /\
  cummax_strict [finf; finf] = Err AssertionError.
Proof.
  assert (forall a b : res (list f64), match a, b with
            | Ok x, Ok y => map (@B2SF prec64 emax64) x = map (@B2SF prec64 emax64) y | Err e, Err e' => e = e' | _, _ => False end -> a = b) as X.
  { intros [x|] [y|] H; try contradiction; [|congruence]. f_equal. revert y H. induction x as [|a x IH]; intros [|b y] H; try discriminate; auto.
    cbn [map] in H. f_equal; [apply B2SF_inj; congruence|apply IH; congruence]. }
  split; apply X; vm_compute; reflexivity.
Qed.

(** ** C33.  Steps are an unordered collection of pairs (x, y). *)
Definition step_value {A} (steps : list (f64 * A)) (g : f64) (v : A) : Prop :=
  exists x, In (x, v) steps /\ fleb x g = true /\
  forall x' v', In (x', v') steps -> fleb x' g = true -> fleb x' x = true.
Definition before_first (xp : list f64) (g : f64) : Prop := forall x, In x xp -> fleb x g = false.
Definition all_distinct (xp : list f64) : Prop := ForallOrdPairs (fun a b => feqb a b = false) xp.
Definition sorts (argsort : list f64 -> list nat) : Prop :=
  forall l, notnan l -> Permutation (argsort l) (seq 0 (length l)) /\ nondecreasing (take l (argsort l)).

Lemma sorts_spec a : sorts a -> argsort_spec (NT := f64_num) a.
Proof. exact (fun H => H). Qed.

Theorem C33_step_with_ival :
  forall (A : Type) argsort grid xp (yp : list A) v0 skip,
  sorts argsort -> notnan xp -> notnan grid -> length xp = length yp -> all_distinct xp ->
  exists out, eval_step_func argsort grid xp yp (Some v0) false skip = Ok out /\
  Forall2 (fun g v => step_value (combine xp yp) g v \/ (before_first xp g /\ v = v0)) grid out.
Proof.
  intros A argsort grid xp yp v0 skip S N G L D. apply sorts_spec in S.
  destruct (step_ok argsort grid xp yp (Some v0) skip S N L G D) as (out & E & F); [discriminate|].
  exists out. split; auto. eapply Forall2_and_in; [exact F|]. intros g v _ [H|[H1 H2]]; [left; exact H|right].
  split; [exact H1|congruence].
Qed.
Print Assumptions C33_step_with_ival.

Theorem C33_step_without_ival :
  forall (A : Type) argsort grid xp (yp : list A) out,
  sorts argsort -> notnan xp -> notnan grid -> length xp = length yp ->
  eval_step_func argsort grid xp yp None false false = Ok out ->
  Forall2 (fun g v => step_value (combine xp yp) g v) grid out.
Proof.
  intros A argsort grid xp yp out S N G L H. apply sorts_spec in S.
  destruct (distinct_dec xp) as [D|D]; [|rewrite (step_not_distinct argsort grid xp yp None S N L D) in H; discriminate].
  destruct (grid_dec grid xp) as [Hg|(g & Hg & B)].
  - destruct (step_ok argsort grid xp yp None false S N L G D) as (out' & E & F); [intros _; exact Hg|].
    rewrite E in H. apply Ok_inj in H. subst. eapply Forall2_and_in; [exact F|]. intros g v _ [K|[_ K]]; [exact K|discriminate].
  - rewrite (step_before argsort grid xp yp false g S N L D Hg B) in H. discriminate.
Qed.
Print Assumptions C33_step_without_ival.

Theorem C33_raises_iff :
  forall (A : Type) argsort grid xp (yp : list A),
  sorts argsort -> notnan xp -> notnan grid -> length xp = length yp ->
  (is_ok (eval_step_func argsort grid xp yp None false false) = false <->
   ~ all_distinct xp \/ exists g, In g grid /\ before_first xp g).
Proof.
  intros A argsort grid xp yp S N G L. apply sorts_spec in S.
  destruct (distinct_dec xp) as [D|D].
  2:{ rewrite (step_not_distinct argsort grid xp yp None S N L D). split; [intros _; left; exact D|reflexivity]. }
  destruct (grid_dec grid xp) as [Hg|(g & Hg & B)].
  - destruct (step_ok argsort grid xp yp None false S N L G D) as (out' & -> & F); [intros _; exact Hg|].
    split; [discriminate|]. intros [C|(g & Hgi & B)]; [contradiction (C D)|].
    destruct (Hg g Hgi) as (x & Hx & Lx). specialize (B x Hx). unfold le in Lx. cbn in Lx. congruence.
  - rewrite (step_before argsort grid xp yp false g S N L D Hg B). split; [intros _; right; exists g; auto|reflexivity].
Qed.
Print Assumptions C33_raises_iff.

Theorem C33_order_irrelevant :
  forall (A : Type) argsort argsort' grid xp (yp : list A) xp' yp' ival,
  sorts argsort -> sorts argsort' -> notnan xp -> notnan grid ->
  length xp = length yp -> length xp' = length yp' -> Permutation (combine xp yp) (combine xp' yp') ->
  eval_step_func argsort grid xp yp ival false false = eval_step_func argsort' grid xp' yp' ival false false.
Proof. intros. apply (step_order (NT := f64_num)); auto. Qed.
Print Assumptions C33_order_irrelevant.

(** The hint [assume_sorted] changes nothing when it is true. *)
Theorem C33_assume_sorted_hint :
  forall (A : Type) argsort grid xp (yp : list A) ival,
  sorts argsort -> notnan xp -> increasing xp -> notnan grid -> length xp = length yp ->
  eval_step_func argsort grid xp yp ival true false = eval_step_func argsort grid xp yp ival false false.
Proof.
  intros A argsort grid xp yp ival S N I G L. apply sorts_spec in S.
  assert (nondecreasing xp) as I' by exact (lt_sorted_le (NT := f64_num) xp I).
  assert (all_distinct xp) as D by (apply (sorted_distinct (NT := f64_num)); auto).
  assert ((ival = None -> forall g, In g grid -> exists x, In x xp /\ fleb x g = true) \/
          (ival = None /\ exists g, In g grid /\ forall x, In x xp -> fleb x g = false)) as [Hi|[-> (g & Gi & B)]].
  { destruct ival; [left; discriminate|]. destruct (grid_dec grid xp); [left|right]; auto. }
  - destruct (step_ok argsort grid xp yp ival false S N L G D Hi) as (out & -> & F).
    destruct (eval_sorted (NT := f64_num) argsort grid xp yp ival false L N I G Hi) as (out' & -> & F').
    f_equal. revert out' F'. induction F as [|g v gs out H F IH]; intros out' F';
      inversion F' as [|? v' ? out2 H' F2]; subst; auto.
    inversion G; subst. f_equal; [|apply IH; auto; intros E g' Hg'; apply (Hi E); now right].
    destruct H as [H|[Nx ->]], H' as [(i & K1 & K2)|[Nx' E]].
    + apply (step_at_fun (NT := f64_num) (combine xp yp) g); [now rewrite map_fst_combine| |exact H].
      apply (last_step (NT := f64_num)) with (i := i); auto.
    + exfalso. destruct H as (x & Hin & Lx & _). apply in_combine_l in Hin. unfold le in Lx. rewrite Nx' in Lx; [discriminate|auto].
    + exfalso. destruct K1 as (x & Hx & Lx & _). apply nth_error_In in Hx. unfold le in Lx. rewrite Nx in Lx; [discriminate|auto].
    + congruence.
  - rewrite (step_before argsort grid xp yp false g S N L D Gi B). exact (eval_before (NT := f64_num) argsort grid xp yp false g L N I Gi B).
Qed.
Print Assumptions C33_assume_sorted_hint.

Example C33_example : sorts argsort_isort /\
  eval_step_func argsort_isort (map f_of_Z [0; 5; 2]) (map f_of_Z [3; 1]) [30; 10] (Some (-1)) false false
  = Ok [-1; 30; 10] /\
  eval_step_func argsort_isort (map f_of_Z [0]) (map f_of_Z [3; 1]) [30; 10] None false false = Err AssertionError.
Proof. split; [exact (argsort_isort_spec (NT := f64_num))|]. split; vm_compute; reflexivity. Qed.

(** ** C34.  The curve is given point by point. *)
Definition last_point_below (xp yp : list f64) (g v : f64) : Prop :=
  exists i x, nth_error xp i = Some x /\ nth_error yp i = Some v /\ fleb x g = true /\
  forall j x', (i < j)%nat -> nth_error xp j = Some x' -> fleb x' g = false.

Theorem C34_previous :
  forall grid xp yp x0, finite xp -> nondecreasing xp -> length xp = length yp -> (2 <= length xp)%nat ->
  nth_error xp 0 = Some x0 -> Forall (fun g => fleb x0 g = true) grid ->
  exists out, _interp1d grid xp yp Previous = Ok out /\ Forall2 (last_point_below xp yp) grid out.
Proof.
  intros grid xp yp x0 F S L L2 H0 G.
  destruct (interp1d_previous (NT := f64_num) xp yp grid F S L L2) as (out & E & R).
  - eapply Forall_impl; [|exact G]. intros g Hg. destruct (fleb_notnan _ _ Hg). auto.
  - intros g Hg. eapply Forall_forall in G; eauto. exists x0. split; [eapply nth_error_In; eauto|exact G].
  - exists out. split; auto. eapply Forall2_and_in; [exact R|]. cbv beta. intros g v _ (i & (x & H1 & H2 & H3) & Hv).
    exists i, x. repeat split; auto.
Qed.
Print Assumptions C34_previous.

Theorem C34_before_first_raises :
  forall grid xp yp x0 g, finite xp -> nondecreasing xp -> length xp = length yp -> (2 <= length xp)%nat ->
  nth_error xp 0 = Some x0 -> In g grid -> fltb g x0 = true ->
  _interp1d grid xp yp Previous = Err AssertionError.
Proof.
  intros grid xp yp x0 g F S L L2 H0 Hg Lt.
  apply (interp1d_previous_before (NT := f64_num) xp yp grid g F S L L2 Hg).
  intros x Hx. apply (lt_not_le (NT := f64_num) g x). apply (lt_le_trans (NT := f64_num) g x0 x); [exact Lt|].
  destruct xp as [|a l]; [discriminate|]. inversion H0; subst. destruct Hx as [->|Hx].
  - destruct (fltb_notnan _ _ Lt). now apply fleb_refl.
  - inversion S as [|? ? _ Fa]; subst. eapply Forall_forall in Fa; eauto.
Qed.
Print Assumptions C34_before_first_raises.

Example C34_example :
  option_map (map (@B2SF prec64 emax64))
    (match _interp1d (map f_of_Z [1; 2; 3]) (map f_of_Z [1; 1; 3]) (map f_of_Z [7; 8; 9]) Previous with Ok l => Some l | Err _ => None end)
  = Some (map (@B2SF prec64 emax64) (map f_of_Z [8; 8; 9])).
Proof. vm_compute; reflexivity. Qed.

(** ** C35.  [f] is the function drawn by interp1d. *)
Theorem C35_area_is_integral :
  forall kd (xs ys : list R) (f : R -> R) x0 xn,
  kd <> Next -> StronglySorted Rle xs -> length xs = length ys -> (2 <= length xs)%nat ->
  nth_error xs 0 = Some x0 -> nth_error xs (length xs - 1) = Some xn ->
  (forall g, x0 <= g <= xn -> _interp1d [Fin g] (map Fin xs) (map Fin ys) kd = Ok [Fin (f g)])%R ->
  ex_RInt f x0 xn /\ area (length xs) [(map Fin xs, map Fin ys)] kd = Ok [Fin (RInt f x0 xn)].
Proof.
  intros kd xs ys f x0 xn K S L L2 H0 Hn Hf.
  assert (is_RInt f x0 xn (rarea kd xs ys)) as I.
  { apply rarea_integral; auto. intros g Hg.
    destruct (interp1d_draws kd xs ys g x0 xn K S L L2 H0 Hn Hg) as (v & E & D).
    rewrite (Hf g Hg) in E. apply Ok_inj in E. inversion E. subst. exact D. }
  split; [eexists; exact I|]. rewrite area_exact by auto. rewrite (is_RInt_unique _ _ _ _ I). reflexivity.
Qed.
Print Assumptions C35_area_is_integral.

(** Such a function exists: interp1d returns a finite value everywhere on
    [x_first, x_last]. *)
Theorem C35_interp1d_total :
  forall kd (xs ys : list R) x0 xn g,
  kd <> Next -> StronglySorted Rle xs -> length xs = length ys -> (2 <= length xs)%nat ->
  nth_error xs 0 = Some x0 -> nth_error xs (length xs - 1) = Some xn -> (x0 <= g <= xn)%R ->
  exists v, _interp1d [Fin g] (map Fin xs) (map Fin ys) kd = Ok [Fin v].
Proof.
  intros kd xs ys x0 xn g K S L L2 H0 Hn Hg.
  destruct (interp1d_draws kd xs ys g x0 xn K S L L2 H0 Hn Hg) as (v & E & _). eauto.
Qed.
Print Assumptions C35_interp1d_total.

Example C35_example : area 3 [(map Fin [0; 1; 1]%R, map Fin [2; 4; 9]%R)] Linear = Ok [Fin 3] /\
  area 3 [(map Fin [0; 1; 1]%R, map Fin [2; 4; 9]%R)] Previous = Ok [Fin 2].
Proof.
  split; rewrite (area_exact _ [0; 1; 1]%R [2; 4; 9]%R) by (cbn; try discriminate; lia); do 3 f_equal; cbn [rarea]; lra.
Qed.
