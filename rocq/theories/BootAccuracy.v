(** How far bootstrap intervals, error bars and p-values in doubles are from
    those of exact arithmetic with the same draw. *)
From Coq Require Import Reals Lra Lia Permutation Sorted.
From Flocq Require Import Core BinarySingleNaN.
From Verif Require Import PyBase ListLemmas F64 Num F64Lemmas NumOk SumProofs Util UtilProofs BootUtil BootProofs BootProofs2 BootProofs3 PerfCurves MLPaper MLProofs CompareProofs
  SwapProofs MeanProofs DoublesProofs DoublesProofs2 AccuracyProofs.
Open Scope R_scope.

(** ** Order statistics *)
(** entry [k] of [l] in increasing order *)
Definition kth (l : list R) (k : nat) (v : R) : Prop := exists s, Permutation l s /\ Sorted Rle s /\ nth_error s k = Some v.
Definition cnt (f : R -> bool) (l : list R) : nat := length (filter f l).

Lemma Rle_StronglySorted s : Sorted Rle s -> StronglySorted Rle s.
Proof. apply Sorted_StronglySorted. intros a b c. apply Rle_trans. Qed.
Lemma cnt_le_sorted s k v : StronglySorted Rle s -> nth_error s k = Some v -> (k < cnt (fun x => Rleb x v) s)%nat.
Proof.
  intros S. revert k. induction S as [|a s S IH F]; intros [|k] E; try discriminate; cbn [nth_error] in E; unfold cnt; cbn [filter].
  - injection E as ->. replace (Rleb v v) with true by (symmetry; apply Rleb_spec; lra). cbn [length]. lia.
  - rewrite Forall_forall in F. specialize (F v (nth_error_In _ _ E)). replace (Rleb a v) with true by (symmetry; now apply Rleb_spec).
    cbn [length]. specialize (IH k E). unfold cnt in IH. lia.
Qed.
Lemma cnt_lt_sorted s k v : StronglySorted Rle s -> nth_error s k = Some v -> (cnt (fun x => negb (Rleb v x)) s <= k)%nat.
Proof.
  intros S. revert k. induction S as [|a s S IH F]; intros [|k] E; try discriminate; cbn [nth_error] in E; unfold cnt; cbn [filter].
  - injection E as ->. replace (Rleb v v) with true by (symmetry; apply Rleb_spec; lra). cbn [negb].
    assert (filter (fun x => negb (Rleb v x)) s = []) as ->; [|cbn; lia].
    clear - F. induction F as [|b s B F IH]; cbn [filter]; [reflexivity|]. replace (Rleb v b) with true by (symmetry; now apply Rleb_spec). exact IH.
  - specialize (IH k E). unfold cnt in IH. destruct (negb (Rleb v a)); cbn [length]; lia.
Qed.
Lemma kth_le l k v : kth l k v -> (k < cnt (fun x => Rleb x v) l)%nat.
Proof. intros (s & P & S & E). unfold cnt. rewrite (perm_filter_length _ _ _ P). apply cnt_le_sorted; [now apply Rle_StronglySorted|exact E]. Qed.
Lemma kth_lt l k v : kth l k v -> (cnt (fun x => negb (Rleb v x)) l <= k)%nat.
Proof. intros (s & P & S & E). unfold cnt. rewrite (perm_filter_length _ _ _ P). apply cnt_lt_sorted; [now apply Rle_StronglySorted|exact E]. Qed.
Lemma cnt_F2 (f g h : R -> bool) (Q : R -> R -> Prop) a b : Forall2 Q a b -> (forall x y, Q x y -> f x = true -> g y = true \/ h y = true) -> (cnt f a <= cnt g b + cnt h b)%nat.
Proof.
  intros F H. induction F as [|x y a b K F IH]; [cbn; lia|]. unfold cnt in *. cbn [filter]. specialize (H x y K).
  destruct (f x); [|destruct (g y), (h y); cbn [length]; lia]. destruct (H eq_refl) as [-> | ->]; [destruct (h y)|destruct (g y)]; cbn [length]; lia.
Qed.
Lemma cnt_none l : cnt (fun _ => false) l = 0%nat.
Proof. induction l; [reflexivity|assumption]. Qed.

Lemma kth_exists l k : (k < length l)%nat -> exists v, kth l k v.
Proof.
  intros K. assert (exists s, Permutation l s /\ StronglySorted Rle s) as (s & P & S).
  { clear K. induction l as [|a l (s & P & S)]; [exists []; split; [apply perm_nil|constructor]|].
    assert (exists s', Permutation (a :: s) s' /\ StronglySorted Rle s') as (s' & P' & S').
    { clear - S. induction S as [|b s S (s' & P & S') F]; [exists [a]; split; [apply Permutation_refl|repeat constructor]|].
      destruct (Rle_dec a b) as [L|L].
      - exists (a :: b :: s). split; [apply Permutation_refl|]. constructor; [constructor; assumption|]. constructor; [exact L|]. eapply Forall_impl; [|exact F]. intros c C. lra.
      - exists (b :: s'). split; [eapply perm_trans; [apply perm_swap|now constructor]|]. constructor; [exact S'|].
        eapply Permutation_Forall; [exact P|]. constructor; [lra|exact F]. }
    exists s'. split; [eapply perm_trans; [constructor; exact P|exact P']|exact S']. }
  destruct (nth_error s k) as [v|] eqn:E; [exists v, s; split; [exact P|]; split; [now apply StronglySorted_Sorted|exact E]|].
  apply nth_error_None in E. rewrite <- (Permutation_length P) in E. lia.
Qed.
Lemma kth_mono l i j v w : (i <= j)%nat -> kth l i v -> kth l j w -> v <= w.
Proof.
  intros L I J. apply Rnot_lt_le. intros C. pose proof (kth_lt _ _ _ I) as A. pose proof (kth_le _ _ _ J) as B.
  assert (cnt (fun x => Rleb x w) l <= cnt (fun x => negb (Rleb v x)) l)%nat as D; [|lia].
  clear - C. unfold cnt. induction l as [|a l IH]; [cbn; lia|]. cbn [filter]. destruct (Rleb a w) eqn:E; [|destruct (negb _); cbn [length]; lia].
  apply Rleb_spec in E. replace (Rleb v a) with false by (symmetry; apply Rleb_false; lra). cbn [negb length]. lia.
Qed.
Lemma F2_length {A B} (Q : A -> B -> Prop) a b : Forall2 Q a b -> length a = length b.
Proof. induction 1; cbn; congruence. Qed.
(** the order statistics move no further than the entries *)
Lemma kth_perturb e a b k v : Forall2 (fun x y => Rabs (x - y) <= e) a b -> kth a k v -> exists w, kth b k w /\ Rabs (v - w) <= e.
Proof.
  intros F K. assert (k < length b)%nat as L.
  { rewrite <- (F2_length _ _ _ F). destruct K as (s & P & _ & E). rewrite (Permutation_length P). apply nth_error_Some. congruence. }
  destruct (kth_exists b k L) as [w W]. exists w. split; [exact W|].
  pose proof (kth_le _ _ _ K) as A1. pose proof (kth_lt _ _ _ K) as A2. pose proof (kth_le _ _ _ W) as B1. pose proof (kth_lt _ _ _ W) as B2.
  assert (v <= w + e) as U.
  { apply Rnot_lt_le. intros C. assert (Forall2 (fun y x => Rabs (x - y) <= e) b a) as F'.
    { clear - F. induction F; constructor; auto. }
    pose proof (cnt_F2 (fun x => Rleb x w) (fun x => negb (Rleb v x)) (fun _ => false) _ b a F') as Q. rewrite cnt_none in Q.
    assert (forall y x, Rabs (x - y) <= e -> Rleb y w = true -> negb (Rleb v x) = true \/ false = true) as H.
    { intros y x D E. left. apply Rleb_spec in E. apply Rabs_le_inv in D. apply negb_true_iff, Rleb_false. lra. }
    specialize (Q H). lia. }
  assert (w <= v + e) as D.
  { apply Rnot_lt_le. intros C. pose proof (cnt_F2 (fun x => Rleb x v) (fun x => negb (Rleb w x)) (fun _ => false) _ a b F) as Q. rewrite cnt_none in Q.
    assert (forall x y, Rabs (x - y) <= e -> Rleb x v = true -> negb (Rleb w y) = true \/ false = true) as H.
    { intros x y D E. left. apply Rleb_spec in E. apply Rabs_le_inv in D. apply negb_true_iff, Rleb_false. lra. }
    specialize (Q H). lia. }
  apply Rabs_le. lra.
Qed.
(** entry [k] of the sorted doubles *)
Lemma sort_kth (b : list f64) k v : Forall (fun a => fisfin a = true) b -> nth_error (sort b) k = Some v -> kth (map B2R b) k (B2R v).
Proof.
  intros F E. exists (map B2R (sort (b : list f64) : list f64)). split; [apply Permutation_map, sort_perm|]. split; [|exact (map_nth_error B2R _ _ E)].
  assert (Forall (fun a => fisfin a = true) (sort b)) as F' by (eapply Permutation_Forall; [apply sort_perm|exact F]).
  assert (okl b) as O. { eapply Forall_impl; [|exact F]. intros a A. now apply fisfin_notnan. }
  pose proof (sort_sorted b O) as S. apply StronglySorted_Sorted. clear - S F'. induction S as [|a s S IH G]; cbn [map]; [constructor|].
  inversion F' as [|? ? Fa Fs]; subst. constructor; [now apply IH|]. clear - G Fa Fs. induction G as [|c s C G IH]; cbn [map]; [constructor|]. inversion Fs as [|? ? Fc Fs']; subst. constructor; [|now apply IH].
  now apply (fleb_fin a c Fa Fc).
Qed.

(** ** The ranks *)
Definition away (n : Z) (t : R) : Prop := forall z : Z, IZR n * P2 (-50) < Rabs (t - IZR z).
Lemma floor_near n t t' : away n t -> Rabs (t' - t) <= IZR n * P2 (-50) -> Zfloor t' = Zfloor t.
Proof.
  intros A D. apply Zfloor_imp. pose proof (A (Zfloor t)) as A1. pose proof (A (Zfloor t + 1)%Z) as A2. rewrite plus_IZR in *.
  pose proof (Zfloor_lb t). pose proof (Zfloor_ub t). rewrite Rabs_pos_eq in A1 by lra. rewrite Rabs_left1 in A2 by lra. apply Rabs_le_inv in D. lra.
Qed.
Lemma ranks (c : f64) n : in01 c = true -> (1 <= n <= 2 ^ 53)%Z -> away n ((1 - B2R c) / 2 * (IZR n - 1)) ->
  kL c n = Zfloor ((1 - B2R c) / 2 * (IZR n - 1)) /\ kU c n = (n - 1 - Zfloor ((1 - B2R c) / 2 * (IZR n - 1)))%Z.
Proof.
  intros C N A. pose proof (xlo_err c n C N) as E1. pose proof (xhi_err c n C N) as E2. destruct (sub1_val c C) as (V & _ & D). cbv zeta in *.
  assert (1 <= IZR n) as N1 by (apply IZR_le; lia). pose proof C as C'. apply in01_f64 in C' as (_ & L1 & L2).
  pose proof (rnd64_err_pos (1 - B2R c) ltac:(lra)) as E0. rewrite <- V in E0. set (d := B2R (nsub n1 c : f64)) in *.
  assert (0 < BootProofs2.u64 /\ 7 * BootProofs2.u64 <= P2 (-50) /\ tiny <= BootProofs2.u64 / 10) as (U1 & U2 & U3).
  { unfold BootProofs2.u64, tiny. split; [lra|]. split; [cbn; lra|]. lra. }
  assert (Rabs (d - (1 - B2R c)) <= 11 / 10 * BootProofs2.u64) as E3.
  { assert (BootProofs2.u64 * (1 - B2R c) <= BootProofs2.u64 * 1) by (apply Rmult_le_compat_l; lra). apply Rabs_le. lra. }
  assert (forall r, Rabs (r - d / 2 * (IZR n - 1)) <= 6 * BootProofs2.u64 * IZR n -> Rabs (r - (1 - B2R c) / 2 * (IZR n - 1)) <= IZR n * P2 (-50)) as K.
  { intros r R. replace (r - (1 - B2R c) / 2 * (IZR n - 1)) with ((r - d / 2 * (IZR n - 1)) + (d - (1 - B2R c)) * ((IZR n - 1) / 2)) by field.
    eapply Rle_trans; [apply Rabs_triang|]. rewrite Rabs_mult, (Rabs_pos_eq ((IZR n - 1) / 2)) by lra.
    assert (Rabs (d - (1 - B2R c)) * ((IZR n - 1) / 2) <= 11 / 10 * BootProofs2.u64 * (IZR n / 2)) as B by (apply Rmult_le_compat; try apply Rabs_pos; lra).
    assert (IZR n * (7 * BootProofs2.u64) <= IZR n * P2 (-50)) by (apply Rmult_le_compat_l; lra).
    assert (0 <= BootProofs2.u64 * IZR n) by (apply Rmult_le_pos; lra). lra. }
  rewrite kL_val, kU_val by auto. fold d. split; [apply (floor_near n); [exact A|now apply K]|].
  set (y := rnd64 (Qhi d * (IZR n - 1))) in *. assert (Zfloor (IZR (n - 1) - y) = Zfloor ((1 - B2R c) / 2 * (IZR n - 1))) as E.
  { apply (floor_near n); [exact A|]. apply K. rewrite minus_IZR. replace (IZR n - 1 - y - d / 2 * (IZR n - 1)) with (- (y - (1 - d / 2) * (IZR n - 1))) by ring. now rewrite Rabs_Ropp. }
  rewrite <- E. apply Zceil_imp. pose proof (Zfloor_lb (IZR (n - 1) - y)). pose proof (Zfloor_ub (IZR (n - 1) - y)). rewrite !minus_IZR in *. lra.
Qed.

(** the interval of some finite replicates *)
Lemma percentile_exact (b : list f64) c lb ub : Forall (fun a => fisfin a = true) b -> (Z.of_nat (length b) <= 2 ^ 53)%Z -> percentile b c = Ok (lb, ub) ->
  let n := length b in let t := (1 - B2R c) / 2 * (INR n - 1) in
  away (Z.of_nat n) t ->
  (Z.to_nat (Zfloor t) < n)%nat /\ (Z.to_nat (Zfloor t) <= n - 1 - Z.to_nat (Zfloor t))%nat /\
  kth (map B2R b) (Z.to_nat (Zfloor t)) (B2R lb) /\ kth (map B2R b) (n - 1 - Z.to_nat (Zfloor t)) (B2R ub) /\ In lb b /\ In ub b.
Proof.
  intros F N H n t A. destruct (percentile_unfold _ _ _ _ H) as (O & C & _).
  assert (1 <= n)%nat as N1 by (unfold n; eapply percentile_nonempty; exact H). assert (1 <= Z.of_nat n <= 2 ^ 53)%Z as NN by (unfold n in *; lia).
  destruct (percentile_inv _ _ _ _ H (idx_ok_f64 c (Z.of_nat (length b)) C NN)) as (_ & _ & i & j & L & Lj & Zi & Zj & Ei & Ej). fold n in Lj, Zi, Zj.
  unfold t in *. rewrite INR_IZR_INZ in *. destruct (ranks c (Z.of_nat n) C NN A) as [K1 K2]. set (z := Zfloor _) in *.
  assert (Z.to_nat z = i) as -> by lia. assert (n - 1 - i = j)%nat as -> by lia.
  split; [lia|]. split; [exact L|]. split; [now apply sort_kth|]. split; [now apply sort_kth|]. split; eapply sort_nth_in; eauto.
Qed.

(** ** The replicates *)
Definition wmean (x : list f64) (row : list Z) : R := Rsum (map2 (fun v k => IZR k * B2R v) x row) / INR (length x).
Definition wslack (n K : R) : R := (n + 3) * P2 (-52) * K + P2 (-1070).
Lemma weight_val k : (0 <= k <= 2 ^ 30)%Z -> v64 (nmax (n0 : f64) (nofZ k)) = Fin (IZR k).
Proof.
  intros K. unfold nmax. cbn [nofZ n0 nleb nisnan f64_num]. destruct (f_of_Z_correct k) as [V F]; [lia|]. destruct (fleb (f_of_Z k) f0 || fisnan f0) eqn:E; [|apply v64_ofZ; lia].
  change (fisnan f0) with false in E. rewrite orb_false_r in E. apply (fleb_fin (f_of_Z k) f0 F eq_refl) in E. rewrite V in E. change (B2R f0) with 0 in E. apply le_IZR in E. assert (k = 0%Z) as -> by lia. reflexivity.
Qed.
(** one product *)
Lemma prod_err (a : f64) k : bdd 400 a -> (0 <= k <= 2 ^ 30)%Z ->
  let p := fmul a (nmax (n0 : f64) (nofZ k)) in
  fisfin p = true /\ Rabs (B2R p - IZR k * B2R a) <= u64 * (IZR k * Rabs (B2R a)) + P2 (-1075).
Proof.
  intros (r & E & B) K p. pose proof E as E'. apply v64_Fin in E' as [_ ->]. assert (0 <= IZR k <= P2 30) as KB by (split; [apply IZR_le; lia|change (P2 30) with (IZR (2 ^ 30)); apply IZR_le; lia]).
  assert (v64 p = Fin (rnd64 (r * IZR k))) as Ep.
  { unfold p. rewrite v64_mul, E, weight_val by exact K. cbn [xr2]. apply xround_ok. rewrite Rabs_mult, (Rabs_pos_eq (IZR k)) by lra.
    apply Rle_trans with (P2 400 * P2 30); [apply Rmult_le_compat; try apply Rabs_pos; lra|]. rewrite <- bpow_plus. apply bpow_le. lia. }
  apply v64_Fin in Ep as [F ->]. split; [exact F|]. rewrite (Rmult_comm (IZR k) r). eapply Rle_trans; [apply rnd_err|]. rewrite Rabs_mult, (Rabs_pos_eq (IZR k)) by lra. lra.
Qed.
Lemma row_sum_pos row : Forall (fun k => (0 <= k)%Z) row -> (0 <= fold_right Z.add 0%Z row)%Z.
Proof. induction 1; cbn; lia. Qed.
Lemma products_err x row : Forall (bdd 400) x -> length row = length x -> Forall (fun k => (0 <= k <= 2 ^ 30)%Z) row ->
  let p := map2 fmul x (map (fun k => nmax (n0 : f64) (nofZ k)) row) in let A := Rsum (map2 (fun v k => IZR k * Rabs (B2R v)) x row) in
  length p = length x /\ Forall (fun a => fisfin a = true) p /\ 0 <= A /\
  Rabs (Rsum (vals p) - Rsum (map2 (fun v k => IZR k * B2R v) x row)) <= u64 * A + INR (length x) * P2 (-1075) /\
  abs_sum p <= (1 + u64) * A + INR (length x) * P2 (-1075).
Proof.
  intros F. revert row. induction F as [|a x Ba F IH]; intros [|k row] L G; try discriminate; cbv zeta.
  - unfold abs_sum. cbn. rewrite Rminus_0_r, Rabs_R0. repeat split; try constructor; lra.
  - inversion G as [|? ? Gk G']; subst. destruct (IH row ltac:(cbn in L; lia) G') as (L1 & F1 & P1 & E1 & E2). cbv zeta in *. destruct (prod_err a k Ba Gk) as [Fp Ep]. cbv zeta in Fp, Ep.
    cbn [map map2 length]. unfold abs_sum, vals in *. cbn [map]. rewrite !Rsum_cons, S_INR. set (p := fmul a _) in *. assert (0 <= IZR k * Rabs (B2R a)) as Pk by (apply Rmult_le_pos; [apply IZR_le; lia|apply Rabs_pos]).
    split; [now rewrite L1|]. split; [now constructor|]. split; [lra|]. split.
    + match goal with |- Rabs (?s + ?t - (?q + ?w)) <= _ => replace (s + t - (q + w)) with ((s - q) + (t - w)) by ring end. eapply Rle_trans; [apply Rabs_triang|]. lra.
    + assert (Rabs (B2R p) <= (1 + u64) * (IZR k * Rabs (B2R a)) + P2 (-1075)).
      { replace (B2R p) with ((B2R p - IZR k * B2R a) + IZR k * B2R a) by ring. eapply Rle_trans; [apply Rabs_triang|]. rewrite (Rabs_mult (IZR k)), (Rabs_pos_eq (IZR k)) by (apply IZR_le; lia). lra. }
      lra.
Qed.
Lemma wsum_le K (x : list f64) row : Forall (fun v => Rabs (B2R v) <= K) x -> length row = length x -> Forall (fun k => (0 <= k)%Z) row ->
  Rsum (map2 (fun v k => IZR k * Rabs (B2R v)) x row) <= IZR (fold_right Z.add 0%Z row) * K.
Proof.
  intros F. revert row. induction F as [|a x A F IH]; intros [|k row] L G; try discriminate; [cbn; lra|]. inversion G as [|? ? Gk G']; subst. cbn [map2 fold_right]. rewrite Rsum_cons, plus_IZR.
  specialize (IH row ltac:(cbn in L; lia) G'). assert (IZR k * Rabs (B2R a) <= IZR k * K) by (apply Rmult_le_compat_l; [apply IZR_le; lia|exact A]). lra.
Qed.
Lemma replicate_err (x : list f64) row K : (1 <= length x)%nat -> INR (length x) <= MAXN -> Forall (fun v => fisfin v = true /\ Rabs (B2R v) <= K) x -> K <= P2 400 ->
  Z.of_nat (length row) = Z.of_nat (length x) -> Forall (fun k => (0 <= k)%Z) row -> fold_right Z.add 0%Z row = Z.of_nat (length x) ->
  let m := weighted_mean x (map (fun k => nmax (n0 : f64) (nofZ k)) row) in
  fisfin m = true /\ Rabs (B2R m - wmean x row) <= wslack (INR (length x)) K /\ Rabs (wmean x row) <= K.
Proof.
  intros N M F KB L P S m. assert (length row = length x) as L' by lia. pose proof (maxn_Z _ M) as MZ.
  assert (Forall (bdd 400) x) as B. { eapply Forall_impl; [|exact F]. intros a [Fa Ka]. apply bdd_iff. split; [exact Fa|lra]. }
  assert (Forall (fun k => (0 <= k <= 2 ^ 30)%Z) row) as G.
  { apply Forall_forall. intros k I. pose proof (count_le row k P I). rewrite Forall_forall in P. specialize (P k I). lia. }
  destruct (products_err x row B L' G) as (Lp & Fp & PA & E1 & E2). cbv zeta in *.
  assert (Forall (fun v => Rabs (B2R v) <= K) x) as FK by (eapply Forall_impl; [|exact F]; now intros a [_ Ka]).
  pose proof (wsum_le K x row FK L' P) as AK. rewrite S, <- INR_IZR_INZ in AK.
  unfold weighted_mean in m. cbn [nmul f64_num] in m. set (p := map2 fmul x _) in *. set (A := Rsum (map2 (fun v k => IZR k * Rabs (B2R v)) x row)) in *.
  set (n := INR (length x)) in *. assert (1 <= n) as N1 by (apply (le_INR 1); exact N). pose proof u64_pos as U. pose proof u64_small as U'.
  assert (0 <= K) as K0. { destruct F as [|a l [_ Ka] _]; [cbn in N; lia|]. pose proof (Rabs_pos (B2R a)). lra. }
  assert (A <= P2 430) as A430. { eapply Rle_trans; [exact AK|]. replace (P2 430) with (P2 30 * P2 400) by (now rewrite <- bpow_plus). apply Rmult_le_compat; [lra|exact K0|exact M|exact KB]. }
  pose proof (bpow_gt_0 radix2 (-1075)) as T0.
  assert (n * P2 (-1075) <= P2 (-1045)) as T1. { replace (P2 (-1045)) with (P2 30 * P2 (-1075)) by (now rewrite <- bpow_plus). apply Rmult_le_compat_r; [lra|exact M]. }
  assert (abs_sum p <= P2 990) as AP.
  { eapply Rle_trans; [exact E2|]. assert (u64 * A <= 1 * A) by (apply Rmult_le_compat_r; lra). assert (P2 (-1045) <= P2 430) by (apply bpow_le; lia). assert (P2 990 >= 4 * P2 430); [|lra].
    change 4 with (P2 2). rewrite <- bpow_plus. apply Rle_ge, bpow_le. lia. }
  destruct (mean_err p ltac:(rewrite Lp; exact N) ltac:(rewrite Lp; exact M) Fp AP) as [Fm Em]. cbv zeta in Em. rewrite Lp in Em. fold n in Em. fold m in Fm, Em. split; [exact Fm|].
  assert (0 < / n <= 1) as IN by (split; [apply Rinv_0_lt_compat; lra|rewrite <- Rinv_1; apply Rinv_le; lra]).
  assert (A / n <= K) as AnK. { apply (Rmult_le_reg_r n); [lra|]. unfold Rdiv. rewrite Rmult_assoc, Rinv_l by lra. lra. }
  assert (0 <= A / n) as An0 by (apply Rmult_le_pos; lra).
  split.
  - unfold wmean, wslack. fold n. set (X := Rsum (map2 (fun v k => IZR k * B2R v) x row)) in *.
    assert (Rabs (Rsum (vals p) / n - X / n) <= u64 * K + P2 (-1075)) as D1.
    { replace (Rsum (vals p) / n - X / n) with ((Rsum (vals p) - X) * / n) by (unfold Rdiv; ring). rewrite Rabs_mult, (Rabs_pos_eq (/ n)) by lra.
      apply Rle_trans with ((u64 * A + n * P2 (-1075)) * / n); [apply Rmult_le_compat_r; lra|]. replace ((u64 * A + n * P2 (-1075)) * / n) with (u64 * (A / n) + P2 (-1075)) by (field; lra).
      assert (u64 * (A / n) <= u64 * K) by (apply Rmult_le_compat_l; lra). lra. }
    assert (abs_sum p / n <= (1 + u64) * K + P2 (-1075)) as D2.
    { apply Rle_trans with (((1 + u64) * A + n * P2 (-1075)) * / n); [apply Rmult_le_compat_r; lra|]. replace (((1 + u64) * A + n * P2 (-1075)) * / n) with ((1 + u64) * (A / n) + P2 (-1075)) by (field; lra).
      assert ((1 + u64) * (A / n) <= (1 + u64) * K) by (apply Rmult_le_compat_l; lra). lra. }
    assert ((n + 1) * P2 (-52) * (abs_sum p / n) <= (n + 1) * P2 (-52) * ((1 + u64) * K + P2 (-1075))) as D3 by (apply Rmult_le_compat_l; [apply Rmult_le_pos; [lra|apply bpow_ge_0]|exact D2]).
    assert (P2 (-52) = 2 * u64) as Q by (unfold u64; change 2 with (P2 1); now rewrite <- bpow_plus).
    assert ((n + 1) * P2 (-52) <= 1) as Q2.
    { apply Rle_trans with (P2 31 * P2 (-52)); [apply Rmult_le_compat_r; [apply bpow_ge_0|]; unfold MAXN in M; assert (P2 31 = P2 30 + P2 30) by (cbn; lra); assert (1 <= P2 30) by (cbn; lra); lra|]. rewrite <- bpow_plus. change 1 with (P2 0). apply bpow_le. lia. }
    replace (B2R m - X / n) with ((B2R m - Rsum (vals p) / n) + (Rsum (vals p) / n - X / n)) by ring. eapply Rle_trans; [apply Rabs_triang|].
    assert (0 <= u64 * K) as UK by (apply Rmult_le_pos; lra).
    assert ((n + 1) * P2 (-52) * (u64 * K) <= 1 * (u64 * K)) as D4 by (apply Rmult_le_compat_r; assumption).
    assert ((n + 1) * P2 (-52) * P2 (-1075) <= 1 * P2 (-1075)) as D5 by (apply Rmult_le_compat_r; lra).
    assert (P2 (-1070) = 32 * P2 (-1075)) as -> by (change 32 with (P2 5); now rewrite <- bpow_plus).
    replace ((n + 3) * P2 (-52) * K) with ((n + 1) * P2 (-52) * K + 4 * (u64 * K)) by (rewrite Q; ring). lra.
  - unfold wmean, Rdiv. rewrite Rabs_mult, (Rabs_pos_eq (/ INR (length x))) by (fold n; lra). fold n. apply Rle_trans with (A * / n); [|exact AnK]. apply Rmult_le_compat_r; [lra|].
    clear - G L'. unfold A. clear A. revert row L' G. induction x as [|a x IH]; intros [|k row] L G; try discriminate; [cbn; rewrite Rabs_R0; lra|]. inversion G as [|? ? Gk G']; subst.
    cbn [map2]. rewrite !Rsum_cons. eapply Rle_trans; [apply Rabs_triang|]. specialize (IH row ltac:(cbn in L; lia) G'). rewrite Rabs_mult, (Rabs_pos_eq (IZR k)) by (apply IZR_le; lia). lra.
Qed.
Lemma replicates_err (x : list f64) counts K : (1 <= length x)%nat -> INR (length x) <= MAXN -> Forall (fun v => fisfin v = true /\ Rabs (B2R v) <= K) x -> K <= P2 400 ->
  multinomial_outcome (Z.of_nat (length x)) 1000 counts ->
  let ms := map (weighted_mean x) (map (map (fun k => nmax (n0 : f64) (nofZ k))) counts) in
  length ms = 1000%nat /\ Forall (fun a => fisfin a = true) ms /\ Forall (fun r => Rabs r <= K) (map (wmean x) counts) /\
  Forall2 (fun a r => Rabs (a - r) <= wslack (INR (length x)) K) (map B2R ms) (map (wmean x) counts).
Proof.
  intros N M F KB [LC MO] ms. split; [unfold ms; rewrite !map_length; lia|]. unfold ms. rewrite !map_map. clear ms LC.
  induction MO as [|row counts (L & P & S) MO (F1 & F2 & F3)]; cbn [map]; [repeat split; constructor|].
  destruct (replicate_err x row K N M F KB L P S) as (A & B & C). repeat split; constructor; assumption.
Qed.

(** ** The error bar *)
Lemma Forall2_in_l {A B} (Q : A -> B -> Prop) a b x : Forall2 Q a b -> In x a -> exists y, In y b /\ Q x y.
Proof. induction 1 as [|u v a b H F IH]; intros I; [destruct I|]. destruct I as [->|I]; [exists v; split; [now left|exact H]|]. destruct (IH I) as (y & Y & R). exists y. split; [now right|exact R]. Qed.
Lemma kth_in l k v : kth l k v -> In v l.
Proof. intros (s & P & _ & E). eapply Permutation_in; [apply Permutation_sym, P|]. eapply nth_error_In. exact E. Qed.
Lemma error_bar_err (ms : list f64) (ex : list R) (e0 c e : f64) (m K eps : R) :
  Forall (fun a => fisfin a = true) ms -> (Z.of_nat (length ms) <= 2 ^ 53)%Z -> Forall2 (fun a r => Rabs (a - r) <= eps) (map B2R ms) ex -> Forall (fun r => Rabs r <= K) ex ->
  fisfin e0 = true -> Rabs (B2R e0 - m) <= eps -> Rabs m <= K -> K <= P2 400 -> 0 <= eps <= P2 400 ->
  let n := length ms in let t := (1 - B2R c) / 2 * (INR n - 1) in
  away (Z.of_nat n) t -> error_bar ms e0 c = Ok e ->
  exists lo hi, kth ex (Z.to_nat (Zfloor t)) lo /\ kth ex (n - 1 - Z.to_nat (Zfloor t)) hi /\ lo <= hi /\ fisfin e = true /\
    Rabs (B2R e - Rmax (hi - m) (m - lo)) <= 2 * eps + u64 * (2 * K + 2 * eps).
Proof.
  intros F N F2 FK Fe Ee Km KB EB n t A H. unfold error_bar in H. apply bind_ok in H as ([lb ub] & P & H). cbn [fst snd] in H. apply assert_ok in H as [_ H]. apply assert_ok in H as [_ H]. apply Ok_inj in H.
  destruct (percentile_exact ms c lb ub F N P A) as (R1 & R2 & K1 & K2 & I1 & I2). fold n in R1, R2, K1, K2. fold t in R1, R2, K1, K2.
  destruct (kth_perturb eps _ _ _ _ F2 K1) as (lo & L1 & L2). destruct (kth_perturb eps _ _ _ _ F2 K2) as (hi & H1 & H2).
  exists lo, hi. split; [exact L1|]. split; [exact H1|]. split; [exact (kth_mono _ _ _ _ _ R2 L1 H1)|].
  rewrite Forall_forall in FK, F. pose proof (FK _ (kth_in _ _ _ L1)) as KL. pose proof (FK _ (kth_in _ _ _ H1)) as KH.
  apply Rabs_le_inv in L2, H2, Ee, Km, KL, KH. assert (P2 402 = 4 * P2 400) as P4 by (change 4 with (P2 2); now rewrite <- bpow_plus).
  assert (bdd 402 lb) as Bl by (apply bdd_iff; split; [now apply F|apply Rabs_le; lra]). assert (bdd 402 ub) as Bu by (apply bdd_iff; split; [now apply F|apply Rabs_le; lra]).
  assert (bdd 402 e0) as B0 by (apply bdd_iff; split; [exact Fe|apply Rabs_le; lra]).
  destruct (sub_err 402 ub e0 Bu B0 ltac:(lia)) as [FA EA]. destruct (sub_err 402 e0 lb B0 Bl ltac:(lia)) as [FB EB']. cbn [nsub f64_num] in H.
  destruct (nfmax_val _ _ FA FB) as [FT ET]. rewrite H in FT, ET. split; [exact FT|]. rewrite ET. pose proof u64_pos as U.
  assert (u64 * Rabs (B2R ub - B2R e0) <= u64 * (2 * K + 2 * eps)) as U1 by (apply Rmult_le_compat_l; [lra|]; apply Rabs_le; lra).
  assert (u64 * Rabs (B2R e0 - B2R lb) <= u64 * (2 * K + 2 * eps)) as U2 by (apply Rmult_le_compat_l; [lra|]; apply Rabs_le; lra).
  apply Rabs_le_inv in EA, EB'. apply Rmax_lip; apply Rabs_le; lra.
Qed.

(** ** The p-value *)
Lemma cnt_map {A} (f : R -> bool) (g : A -> R) l : cnt f (map g l) = length (filter (fun a => f (g a)) l).
Proof. unfold cnt. induction l as [|a l IH]; [reflexivity|]. cbn [map filter]. destruct (f (g a)); cbn [length]; lia. Qed.
Lemma cnt_len f l : (cnt f l <= length l)%nat.
Proof. unfold cnt. induction l as [|a l IH]; [cbn; lia|]. cbn [filter length]. destruct (f a); cbn [length]; lia. Qed.
Lemma tails (ms : list f64) : Forall (fun a => fisfin a = true) ms ->
  let pairs := combine ms (repeat f0 (length ms)) in
  length (filter (fun q => fleb (fst q) (snd q)) pairs) = cnt (fun r => Rleb r 0) (map B2R ms) /\
  length (filter (fun q => fleb (snd q) (fst q)) pairs) = cnt (fun r => Rleb 0 r) (map B2R ms).
Proof.
  intros F. cbv zeta. induction F as [|a ms Fa F [IH1 IH2]]; [split; reflexivity|]. unfold cnt in *. cbn [length repeat combine map filter fst snd].
  assert (fleb a f0 = Rleb (B2R a) 0) as -> by (apply Bool.eq_iff_eq_true; rewrite (fleb_fin a f0 Fa eq_refl), Rleb_spec; reflexivity).
  assert (fleb f0 a = Rleb 0 (B2R a)) as -> by (apply Bool.eq_iff_eq_true; rewrite (fleb_fin f0 a eq_refl Fa), Rleb_spec; reflexivity).
  destruct (Rleb (B2R a) 0), (Rleb 0 (B2R a)); cbn [length]; lia.
Qed.
Lemma min_close a b a' b' d : (a <= a' + d)%nat -> (a' <= a + d)%nat -> (b <= b' + d)%nat -> (b' <= b + d)%nat -> (Nat.min a b <= Nat.min a' b' + d /\ Nat.min a' b' <= Nat.min a b + d)%nat.
Proof. lia. Qed.
Lemma p_value_err (ms : list f64) (ex : list R) eps : Forall (fun a => fisfin a = true) ms -> Forall2 (fun a r => Rabs (a - r) <= eps) (map B2R ms) ex -> (1 <= length ms)%nat ->
  let B := INR (length ms) in
  let k := Nat.min (cnt (fun r => Rleb r 0) (map B2R ms)) (cnt (fun r => Rleb 0 r) (map B2R ms)) in
  let k' := Nat.min (cnt (fun r => Rleb r 0) ex) (cnt (fun r => Rleb 0 r) ex) in
  Rabs (Rmin 1 (2 * rnd64 (INR k / B)) - Rmin 1 (2 * (INR k' / B))) <= 2 * (INR (cnt (fun r => Rleb (Rabs r) eps) ex) / B) + P2 (-51).
Proof.
  intros F F2 N B k k'. set (d := cnt (fun r => Rleb (Rabs r) eps) ex).
  assert (1 <= B) as B1 by (apply (le_INR 1); exact N). assert (0 < / B) as IB by (apply Rinv_0_lt_compat; lra).
  assert (k <= k' + d /\ k' <= k + d)%nat as [D1 D2].
  { assert (Forall2 (fun r a => Rabs (a - r) <= eps) ex (map B2R ms)) as F2' by (clear - F2; induction F2; constructor; auto).
    apply min_close.
    - eapply cnt_F2; [exact F2|]. cbv beta. intros a r Q H. apply Rleb_spec in H. apply Rabs_le_inv in Q. destruct (Rle_lt_dec r 0); [left; now apply Rleb_spec|right]. apply Rleb_spec. rewrite Rabs_pos_eq; lra.
    - assert (forall h : list R, Forall2 (fun a r => Rabs (a - r) <= eps) h ex -> (cnt (fun r => Rleb r 0) ex <= cnt (fun r => Rleb r 0) h + d)%nat) as Q; [|now apply Q].
      intros h G. unfold d. clear - G. induction G as [|a r h ex Q G IH]; [cbn; lia|]. unfold cnt in *. cbn [filter]. destruct (Rleb r 0) eqn:E; [|destruct (Rleb a 0), (Rleb (Rabs r) eps); cbn [length]; lia].
      apply Rleb_spec in E. apply Rabs_le_inv in Q. destruct (Rle_lt_dec a 0) as [L|L]; [apply Rleb_spec in L; rewrite L; destruct (Rleb (Rabs r) eps); cbn [length]; lia|].
      replace (Rleb (Rabs r) eps) with true by (symmetry; apply Rleb_spec; rewrite Rabs_left1; lra). destruct (Rleb a 0); cbn [length]; lia.
    - eapply cnt_F2; [exact F2|]. cbv beta. intros a r Q H. apply Rleb_spec in H. apply Rabs_le_inv in Q. destruct (Rle_lt_dec 0 r); [left; now apply Rleb_spec|right]. apply Rleb_spec. rewrite Rabs_left1; lra.
    - assert (forall h : list R, Forall2 (fun a r => Rabs (a - r) <= eps) h ex -> (cnt (fun r => Rleb 0 r) ex <= cnt (fun r => Rleb 0 r) h + d)%nat) as Q; [|now apply Q].
      intros h G. unfold d. clear - G. induction G as [|a r h ex Q G IH]; [cbn; lia|]. unfold cnt in *. cbn [filter]. destruct (Rleb 0 r) eqn:E; [|destruct (Rleb 0 a), (Rleb (Rabs r) eps); cbn [length]; lia].
      apply Rleb_spec in E. apply Rabs_le_inv in Q. destruct (Rle_lt_dec 0 a) as [L|L]; [apply Rleb_spec in L; rewrite L; destruct (Rleb (Rabs r) eps); cbn [length]; lia|].
      replace (Rleb (Rabs r) eps) with true by (symmetry; apply Rleb_spec; rewrite Rabs_pos_eq; lra). destruct (Rleb 0 a); cbn [length]; lia. }
  assert (0 <= INR k / B <= 1) as KB.
  { assert (INR k <= B) as LK by (apply le_INR; eapply Nat.le_trans; [apply Nat.le_min_l|]; eapply Nat.le_trans; [apply cnt_len|]; rewrite map_length; apply Nat.le_refl). pose proof (pos_INR k). split; [apply Rmult_le_pos; lra|]. apply (Rmult_le_reg_r B); [lra|]. unfold Rdiv. rewrite Rmult_assoc, Rinv_l by lra. lra. }
  pose proof (rnd_err (INR k / B)) as E. rewrite (Rabs_pos_eq (INR k / B)) in E by lra. pose proof u64_pos as U. assert (u64 * (INR k / B) <= u64 * 1) as E' by (apply Rmult_le_compat_l; lra).
  assert (P2 (-1075) <= u64) as T by (unfold u64; apply bpow_le; lia). assert (P2 (-51) = 4 * u64) as -> by (unfold u64; change 4 with (P2 2); now rewrite <- bpow_plus).
  clearbody k k' d. apply Rabs_le_inv in E. apply le_INR in D1. apply le_INR in D2. rewrite plus_INR in D1. rewrite plus_INR in D2.
  assert (INR k / B <= INR k' / B + INR d / B) as G1 by (unfold Rdiv; rewrite <- Rmult_plus_distr_r; apply Rmult_le_compat_r; lra).
  assert (INR k' / B <= INR k / B + INR d / B) as G2 by (unfold Rdiv; rewrite <- Rmult_plus_distr_r; apply Rmult_le_compat_r; lra).
  assert (0 <= INR d / B) as G3 by (apply Rmult_le_pos; [apply pos_INR|lra]). apply Rmin_lip; apply Rabs_le; lra.
Qed.

(** ** Replicates of numbers that are off themselves *)
Definition rmean (v : list R) (row : list Z) : R := Rsum (map2 (fun a k => IZR k * a) v row) / INR (length v).
Lemma wmean_rmean x row : wmean x row = rmean (map B2R x) row.
Proof.
  unfold wmean, rmean. rewrite map_length. f_equal. f_equal. revert row. induction x as [|a x IH]; intros [|k row]; try reflexivity. cbn [map map2]. now rewrite IH.
Qed.
Lemma rmean_close d v w row : Forall2 (fun a b => Rabs (a - b) <= d) v w -> (1 <= length v)%nat -> length row = length v -> Forall (fun k => (0 <= k)%Z) row -> fold_right Z.add 0%Z row = Z.of_nat (length v) ->
  Rabs (rmean v row - rmean w row) <= d.
Proof.
  intros F N L P S. unfold rmean. rewrite <- (F2_length _ _ _ F). assert (1 <= INR (length v)) as N1 by (apply (le_INR 1); exact N).
  assert (Rabs (Rsum (map2 (fun a k => IZR k * a) v row) - Rsum (map2 (fun a k => IZR k * a) w row)) <= IZR (fold_right Z.add 0%Z row) * d) as E.
  { clear - F L P. revert row L P. induction F as [|a b v w D F IH]; intros [|k row] L P; try discriminate; [cbn; rewrite Rminus_0_r, Rabs_R0; lra|]. inversion P as [|? ? Pk P']; subst.
    cbn [map2 fold_right]. rewrite !Rsum_cons, plus_IZR. specialize (IH row ltac:(cbn in L; lia) P').
    match goal with |- Rabs (?s + ?t - (?q + ?r)) <= _ => replace (s + t - (q + r)) with (IZR k * (a - b) + (t - r)) by ring end. eapply Rle_trans; [apply Rabs_triang|]. rewrite Rabs_mult, (Rabs_pos_eq (IZR k)) by (apply IZR_le; lia).
    assert (IZR k * Rabs (a - b) <= IZR k * d) by (apply Rmult_le_compat_l; [apply IZR_le; lia|exact D]). lra. }
  rewrite S, <- INR_IZR_INZ in E. set (n := INR (length v)) in *. match goal with |- Rabs (?s / n - ?t / n) <= _ => replace (s / n - t / n) with ((s - t) * / n) by (unfold Rdiv; ring) end.
  rewrite Rabs_mult, (Rabs_pos_eq (/ n)) by (apply Rlt_le, Rinv_0_lt_compat; lra). apply (Rmult_le_reg_r n); [lra|]. rewrite Rmult_assoc, Rinv_l by lra. lra.
Qed.
Lemma F2_widen e d a b c : Forall2 (fun x y => Rabs (x - y) <= e) a b -> Forall2 (fun x y => Rabs (x - y) <= d) b c -> Forall2 (fun x y => Rabs (x - y) <= e + d) a c.
Proof.
  intros F. revert c. induction F as [|x y a b E F IH]; intros c G; inversion G as [|? z ? c' D G']; subst; constructor; [|now apply IH]. replace (x - z) with ((x - y) + (y - z)) by ring. eapply Rle_trans; [apply Rabs_triang|]. lra.
Qed.
Lemma rmean_bound K v row : Forall (fun a => Rabs a <= K) v -> (1 <= length v)%nat -> length row = length v -> Forall (fun k => (0 <= k)%Z) row -> fold_right Z.add 0%Z row = Z.of_nat (length v) ->
  Rabs (rmean v row) <= K.
Proof.
  intros F N L P S. pose proof (rmean_close K v (map (fun _ => 0) v) row) as H. replace (rmean (map (fun _ => 0) v) row) with 0 in H.
  - rewrite Rminus_0_r in H. apply H; auto. clear - F. induction F; cbn [map]; constructor; auto. now rewrite Rminus_0_r.
  - unfold rmean. replace (Rsum (map2 (fun a k => IZR k * a) (map (fun _ : R => 0) v) row)) with 0; [unfold Rdiv; ring|].
    clear. revert row. induction v as [|a v IH]; intros [|k row]; try reflexivity. cbn [map map2]. rewrite Rsum_cons, <- IH. ring.
Qed.
Lemma mean_close d (v w : list R) : Forall2 (fun a b => Rabs (a - b) <= d) v w -> (1 <= length v)%nat -> Rabs (Rsum v / INR (length v) - Rsum w / INR (length w)) <= d.
Proof.
  intros F N. rewrite <- (F2_length _ _ _ F). assert (1 <= INR (length v)) as N1 by (apply (le_INR 1); exact N).
  assert (Rabs (Rsum v - Rsum w) <= INR (length v) * d) as E.
  { clear N N1. induction F as [|a b v w D F IH]; [cbn; rewrite Rminus_0_r, Rabs_R0; lra|]. cbn [length]. rewrite !Rsum_cons, S_INR.
    match goal with |- Rabs (?s + ?t - (?q + ?r)) <= _ => replace (s + t - (q + r)) with ((s - q) + (t - r)) by ring end. eapply Rle_trans; [apply Rabs_triang|]. lra. }
  set (n := INR (length v)) in *. match goal with |- Rabs (?s / n - ?t / n) <= _ => replace (s / n - t / n) with ((s - t) * / n) by (unfold Rdiv; ring) end.
  rewrite Rabs_mult, (Rabs_pos_eq (/ n)) by (apply Rlt_le, Rinv_0_lt_compat; lra). apply (Rmult_le_reg_r n); [lra|]. rewrite Rmult_assoc, Rinv_l by lra. lra.
Qed.
