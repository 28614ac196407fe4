(** Proofs about get_shift_range, find_shift, padding. *)
From Coq Require Import Reals Lra ZifyBool ZifyNat ZifyN Permutation Sorted.
From Verif Require Import PyBase F64 Dec Sciprint Spec_Sciprint DecProofs DecRound FormatProofs EstimateProofs DecimalizeProofs.
Open Scope Z_scope.

Arguments Z.pow : simpl never.

(** ** floor_mod, ceil_mod *)

Lemma floor_mod_spec x md : 1 <= md ->
  (md | floor_mod x md) /\ floor_mod x md <= x < floor_mod x md + md.
Proof.
  intros H. unfold floor_mod. split; [exists (x / md); reflexivity|].
  pose proof (Z.div_mod x md). pose proof (Z.mod_pos_bound x md). lia.
Qed.

Lemma ceil_mod_spec x md : 1 <= md ->
  (md | ceil_mod x md) /\ ceil_mod x md - md < x <= ceil_mod x md.
Proof.
  intros H. unfold ceil_mod, floor_mod. split.
  - exists (- (x / - md)). lia.
  - pose proof (Z.div_mod x (- md)). pose proof (Z.mod_neg_bound x (- md)). lia.
Qed.

Lemma divide_mod0 a b : b <> 0 -> (b | a) -> a mod b =? 0 = true.
Proof. intros Hb H. apply Z.mod_divide in H; lia. Qed.

Lemma multiple_le_floor s x md : 1 <= md -> (md | s) -> (s <= x <-> s <= floor_mod x md).
Proof.
  intros Hm [k ->]. destruct (floor_mod_spec x md Hm) as [[j Hj] Hb]. rewrite Hj in *.
  split; intros H; [|lia]. assert (k < j + 1) by nia. nia.
Qed.

Lemma multiple_ge_ceil s x md : 1 <= md -> (md | s) -> (x <= s <-> ceil_mod x md <= s).
Proof.
  intros Hm [k ->]. destruct (ceil_mod_spec x md Hm) as [[j Hj] Hb]. rewrite Hj in *.
  split; intros H; [|lia]. assert (j - 1 < k) by nia. nia.
Qed.

(** ** min / max of a list *)

Lemma fold_min_spec l : forall a,
  (fold_left Z.min l a <= a) /\ (forall x, In x l -> fold_left Z.min l a <= x)
  /\ (fold_left Z.min l a = a \/ In (fold_left Z.min l a) l).
Proof.
  induction l as [|b l IH]; intros a; cbn [fold_left].
  - repeat split; try lia. intros x [].
  - destruct (IH (Z.min a b)) as (H1 & H2 & H3). repeat split; try lia.
    + intros x [<-|Hx]; [lia|auto].
    + cbn [In]. destruct H3 as [H3|H3]; [|auto]. lia.
Qed.

Lemma fold_max_spec l : forall a,
  (a <= fold_left Z.max l a) /\ (forall x, In x l -> x <= fold_left Z.max l a)
  /\ (fold_left Z.max l a = a \/ In (fold_left Z.max l a) l).
Proof.
  induction l as [|b l IH]; intros a; cbn [fold_left].
  - repeat split; try lia. intros x [].
  - destruct (IH (Z.max a b)) as (H1 & H2 & H3). repeat split; try lia.
    + intros x [<-|Hx]; [lia|auto].
    + cbn [In]. destruct H3 as [H3|H3]; [|auto]. lia.
Qed.

Lemma py_min_spec l : l <> [] -> exists m, py_min l = Ok m /\ In m l /\ forall x, In x l -> m <= x.
Proof.
  destruct l as [|a l]; [contradiction|]. intros _. eexists. split; [reflexivity|].
  destruct (fold_min_spec l a) as (H1 & H2 & H3). split.
  - destruct H3 as [H3|H3]; cbn; auto.
  - intros x [<-|Hx]; auto.
Qed.

Lemma py_max_spec l : l <> [] -> exists m, py_max l = Ok m /\ In m l /\ forall x, In x l -> x <= m.
Proof.
  destruct l as [|a l]; [contradiction|]. intros _. eexists. split; [reflexivity|].
  destruct (fold_max_spec l a) as (H1 & H2 & H3). split.
  - destruct H3 as [H3|H3]; cbn; auto.
  - intros x [<-|Hx]; auto.
Qed.

(** ** adjusted *)

Lemma adjusted_reaches s c e sh : 0 <= d_adjusted (DFin s c e) + sh <-> reaches_units (DFin s c e) sh.
Proof.
  cbn [d_adjusted reaches_units]. destruct (N.eqb_spec c 0) as [->|Hc].
  - rewrite ndig_0. lia.
  - rewrite dR_abs. rewrite Rmult_assoc, <- p10_plus.
    pose proof (ndig_lower c Hc) as Hl. pose proof (ndig_upper c) as Hu. pose proof (ndig_pos c).
    apply IZR_le in Hl. apply IZR_lt in Hu. rewrite IZR_pow10 in Hl by lia. rewrite IZR_pow10 in Hu by lia.
    pose proof (p10_pos (e + sh)) as Hp. split; intros H'.
    + assert (Hb : (p10 0 <= p10 (ndig c - 1 + (e + sh)))%R) by (apply bpow_le; lia).
      rewrite p10_0, p10_plus in Hb. nra.
    + destruct (Z_le_gt_dec 0 (e + ndig c - 1 + sh)) as [|Hn]; [assumption|exfalso].
      assert (Hb : (p10 (ndig c + (e + sh)) <= p10 0)%R) by (apply bpow_le; lia).
      rewrite p10_0, p10_plus in Hb. nra.
Qed.

(** ** zrange *)

Lemma in_zrange a b x : In x (zrange a b) <-> a <= x <= b.
Proof.
  unfold zrange. rewrite in_map_iff. split.
  - intros (i & <- & Hi). apply in_seq in Hi. lia.
  - intros H. exists (Z.to_nat (x - a)). split; [lia|]. apply in_seq. lia.
Qed.

Lemma zrange_length a b : length (zrange a b) = Z.to_nat (b - a + 1).
Proof. unfold zrange. rewrite map_length, seq_length. reflexivity. Qed.

(** ** C09 *)

Definition shift_range_spec (xs : list dec) (md mn mx : Z) (small : bool) : Prop :=
  (md | mn) /\ (md | mx) /\ mn <= mx /\
  (forall s, (md | s) -> ((forall x, In x xs -> known_to_dot x s) <-> s <= mx)) /\
  (small = false -> forall s, (md | s) -> ((exists x, In x xs /\ reaches_units x s) <-> mn <= s)) /\
  (small = true -> mn = mx /\
     forall s, (md | s) -> ~ ((forall x, In x xs -> known_to_dot x s) /\ exists x, In x xs /\ reaches_units x s)).

Lemma get_shift_range_spec xs md : xs <> [] -> 1 <= md -> forallb d_is_finite xs = true ->
  exists mn mx small, get_shift_range xs md = Ok (mn, mx, small) /\ shift_range_spec xs md mn mx small.
Proof.
  intros Hne Hmd Hfin. unfold get_shift_range.
  assert (Hlen : (1 <=? Z.of_nat (length xs)) = true) by (destruct xs; [contradiction|cbn [length]; lia]).
  rewrite Hlen, Hfin. destruct (Z.leb_spec 1 md); [|lia]. cbn [py_assert bind].
  destruct (py_min_spec (map (fun mu => - fin_exponent mu) xs)) as (M & HM & HMin & HMle);
    [destruct xs; [contradiction|discriminate]|].
  destruct (py_min_spec (map (fun mu => - d_adjusted mu) xs)) as (m & Hm & Hmin & Hmle);
    [destruct xs; [contradiction|discriminate]|].
  rewrite HM. cbn [bind].
  destruct (floor_mod_spec M md Hmd) as [Hfd Hfb]. destruct (ceil_mod_spec m md Hmd) as [Hcd Hcb].
  assert (Ha1 : ((floor_mod M md mod md =? 0) && (floor_mod M md <=? M))%bool = true).
  { rewrite divide_mod0 by (lia || exact Hfd). lia. }
  rewrite Ha1. cbn [py_assert bind]. rewrite Hm. cbn [bind].
  assert (Ha2 : ((ceil_mod m md mod md =? 0) && (m <=? ceil_mod m md))%bool = true).
  { rewrite divide_mod0 by (lia || exact Hcd). lia. }
  rewrite Ha2. cbn [py_assert bind].
  set (mx := floor_mod M md) in *. set (mn0 := ceil_mod m md) in *.
  rewrite forallb_forall in Hfin.
  assert (Hdot : forall s, (md | s) -> ((forall x, In x xs -> known_to_dot x s) <-> s <= mx)).
  { intros s Hs. unfold mx. rewrite <- (multiple_le_floor s M md Hmd Hs). split.
    - intros Hk. apply in_map_iff in HMin. destruct HMin as (x & Hx & Hin).
      specialize (Hk x Hin). pose proof (Hfin x Hin). destruct x; try discriminate. cbn in *. lia.
    - intros Hs' x Hin. pose proof (Hfin x Hin). destruct x as [sx cx ex| |]; try discriminate.
      pose proof (HMle (- ex)) as Hle. cbn. assert (M <= - ex); [|lia]. apply Hle. apply in_map_iff.
      exists (DFin sx cx ex). split; [reflexivity|assumption]. }
  assert (Hunit : forall s, (md | s) -> ((exists x, In x xs /\ reaches_units x s) <-> mn0 <= s)).
  { intros s Hs. unfold mn0. rewrite <- (multiple_ge_ceil s m md Hmd Hs). split.
    - intros (x & Hin & Hr). pose proof (Hfin x Hin). destruct x as [sx cx ex| |]; try discriminate.
      apply adjusted_reaches in Hr. assert (m <= - d_adjusted (DFin sx cx ex)); [|lia].
      apply Hmle. apply in_map_iff. exists (DFin sx cx ex). auto.
    - intros Hs'. apply in_map_iff in Hmin. destruct Hmin as (x & Hx & Hin).
      exists x. split; [assumption|]. pose proof (Hfin x Hin). destruct x as [sx cx ex| |]; try discriminate.
      apply adjusted_reaches. lia. }
  destruct (Z.ltb_spec mx mn0) as [Hsm|Hsm].
  - rewrite Z.leb_refl. cbn [py_assert bind].
    assert (He : existsb (fun k => k mod md =? 0) (zrange mx mx) = true).
    { apply existsb_exists. exists mx. split; [apply in_zrange; lia|]. apply divide_mod0; [lia|assumption]. }
    rewrite He. cbn [py_assert bind]. exists mx, mx, true. split; [reflexivity|].
    split; [assumption|]. split; [assumption|]. split; [lia|]. split; [exact Hdot|]. split; [discriminate|].
    intros _. split; [reflexivity|]. intros s Hs [Hk Hr]. apply Hdot in Hk; [|assumption].
    apply Hunit in Hr; [|assumption]. lia.
  - destruct (Z.leb_spec mn0 mx); [|lia]. cbn [py_assert bind].
    assert (He : existsb (fun k => k mod md =? 0) (zrange mn0 mx) = true).
    { apply existsb_exists. exists mx. split; [apply in_zrange; lia|]. apply divide_mod0; [lia|assumption]. }
    rewrite He. cbn [py_assert bind]. exists mn0, mx, false. split; [reflexivity|].
    split; [assumption|]. split; [assumption|]. split; [lia|]. split; [exact Hdot|]. split; [intros _; exact Hunit|discriminate].
Qed.

(** ** C11 *)

Lemma str_print_len_visible s : str_print_len s = visible_width s.
Proof.
  unfold str_print_len, visible_width, strlen, remove_chars. do 2 f_equal.
  apply filter_ext. intros a. cbn [str list_ascii_of_string mem_char existsb].
  rewrite orb_false_r. reflexivity.
Qed.

(** The column of texts printed at a shift and their largest width. *)
Definition col_width (pairs : list (dec * dec)) (sh w : Z) : Prop :=
  exists texts,
    Forall2 (fun p t => print_estimate (fst p) (snd p) sh (DInf true) (DInf false) [] = Ok t) pairs texts
    /\ (forall t, In t texts -> visible_width t <= w)
    /\ (exists t, In t texts /\ visible_width t = w).

Lemma max_print_len_width pairs sh w : max_print_len pairs sh = Ok w -> col_width pairs sh w.
Proof.
  unfold max_print_len. intros H.
  destruct (mapM _ pairs) as [ls|] eqn:E; [|discriminate]. cbn [bind] in H.
  apply mapM_Forall2 in E.
  assert (Hex : exists texts,
    Forall2 (fun p t => print_estimate (fst p) (snd p) sh (DInf true) (DInf false) [] = Ok t) pairs texts
    /\ ls = map visible_width texts).
  { clear H. induction E as [|[mu EB] l pairs ls Hl _ IH]; [exists []; auto|].
    destruct IH as (texts & Ht & ->).
    unfold D_NINF, D_INF in Hl. destruct (print_estimate mu EB sh (DInf true) (DInf false) []) as [t|] eqn:Ep; [|discriminate].
    cbn [bind] in Hl. inversion Hl; subst. exists (t :: texts). split; [constructor; auto|].
    cbn [map]. rewrite str_print_len_visible. reflexivity. }
  destruct Hex as (texts & Ht & ->). exists texts. split; [exact Ht|].
  assert (Hne : map visible_width texts <> []) by (intros En; rewrite En in H; discriminate).
  destruct (py_max_spec _ Hne) as (m & Hm & Hin & Hle). rewrite Hm in H. inversion H; subst.
  split.
  - intros t Hi. apply Hle. apply in_map. exact Hi.
  - apply in_map_iff in Hin. destruct Hin as (t & <- & Hi). eauto.
Qed.

Lemma col_width_unique pairs sh w w' : col_width pairs sh w -> col_width pairs sh w' -> w = w'.
Proof.
  intros (ts & H1 & H2 & t & H3 & H4) (ts' & H1' & H2' & t' & H3' & H4').
  assert (ts = ts').
  { clear -H1 H1'. revert ts' H1'. induction H1 as [|p t ps ts Hp _ IH]; intros ts' H'; inversion H'; subst; [reflexivity|].
    f_equal; [congruence|auto]. }
  subst ts'. pose proof (H2 _ H3'). pose proof (H2' _ H3). lia.
Qed.

Definition pairs_ok (pairs : list (dec * dec)) : Prop :=
  Forall (fun p => exists s c e, fst p = DFin s c e /\ Z.of_N c < 10 ^ 28 /\ err_ok (snd p) e) pairs.

Lemma max_print_len_ok pairs sh : pairs <> [] -> pairs_ok pairs ->
  (forall p, In p pairs -> known_to_dot (fst p) sh) -> exists w, max_print_len pairs sh = Ok w.
Proof.
  intros Hne Hok Hdot. unfold max_print_len.
  destruct (mapM_ok (fun '(mu, EB) => do s <- print_estimate mu EB sh D_NINF D_INF [];
                   Ok (str_print_len s)) pairs) as [ls Hls].
  - intros [mu EB] Hin. unfold pairs_ok in Hok. rewrite Forall_forall in Hok.
    destruct (Hok _ Hin) as (s & c & e & Hmu & Hc & He). cbn [fst snd] in *. subst mu.
    specialize (Hdot _ Hin). cbn in Hdot.
    destruct (print_estimate_error_iff s c e EB sh D_NINF D_INF [] Hc He clip_default) as [_ H];
      [cbn; discriminate|cbn; discriminate|].
    destruct (H Hdot) as (out & Hout & _). rewrite Hout. cbn [bind]. eauto.
  - rewrite Hls. cbn [bind]. destruct (py_max_spec ls) as (w & Hw & _); [|eauto].
    apply mapM_Forall2 in Hls. intros ->. inversion Hls. subst. contradiction.
Qed.

(** The loop returns the first minimum in list order. *)
Lemma find_shift_loop_spec pairs md L :
  (forall s, In s L -> (md | s) -> exists w, max_print_len pairs s = Ok w) -> 1 <= md ->
  forall pre best,
  (match best with
   | None => forall s, In s pre -> ~ (md | s)
   | Some (b, w) => exists l1 l2, pre = l1 ++ b :: l2 /\ (md | b) /\ max_print_len pairs b = Ok w
        /\ (forall s w', In s l1 -> (md | s) -> max_print_len pairs s = Ok w' -> w < w')
        /\ (forall s w', In s l2 -> (md | s) -> max_print_len pairs s = Ok w' -> w <= w')
   end) ->
  exists best', find_shift_loop pairs md L best = Ok best' /\
  (match best' with
   | None => forall s, In s (pre ++ L) -> ~ (md | s)
   | Some (b, w) => exists l1 l2, pre ++ L = l1 ++ b :: l2 /\ (md | b) /\ max_print_len pairs b = Ok w
        /\ (forall s w', In s l1 -> (md | s) -> max_print_len pairs s = Ok w' -> w < w')
        /\ (forall s w', In s l2 -> (md | s) -> max_print_len pairs s = Ok w' -> w <= w')
   end).
Proof.
  intros Hw Hmd. induction L as [|sh L IH]; intros pre best Hb.
  - cbn [find_shift_loop]. exists best. split; [reflexivity|]. rewrite app_nil_r. exact Hb.
  - cbn [find_shift_loop].
    assert (HwL : forall s, In s L -> (md | s) -> exists w, max_print_len pairs s = Ok w)
      by (intros; apply Hw; [right; assumption|assumption]).
    specialize (IH HwL (pre ++ [sh])). rewrite <- app_assoc in IH. cbn [app] in IH.
    destruct (Z.eqb_spec (sh mod md) 0) as [Hd|Hd]; cbn [negb].
    + assert (Hdv : (md | sh)) by (apply Z.mod_divide; lia).
      destruct (Hw sh) as [w Hws]; [left; reflexivity|assumption|]. rewrite Hws. cbn [bind]. cbn zeta.
      apply IH. destruct best as [[b wb]|].
      * destruct Hb as (l1 & l2 & -> & Hbd & Hbw & H1 & H2).
        destruct (Z.ltb_spec w wb) as [Hlt|Hge].
        -- exists (l1 ++ b :: l2), []. split; [reflexivity|]. split; [assumption|]. split; [assumption|].
           split; [|intros s w' []].
           intros s w' Hin Hds Hws'. apply in_app_or in Hin. destruct Hin as [Hin|[<-|Hin]].
           ++ pose proof (H1 _ _ Hin Hds Hws'). lia.
           ++ rewrite Hbw in Hws'. inversion Hws'; subst. exact Hlt.
           ++ pose proof (H2 _ _ Hin Hds Hws'). lia.
        -- exists l1, (l2 ++ [sh]). split; [rewrite <- app_assoc; reflexivity|].
           split; [assumption|]. split; [assumption|]. split; [assumption|].
           intros s w' Hin Hds Hws'. apply in_app_or in Hin. destruct Hin as [Hin|[<-|[]]]; [eauto|].
           rewrite Hws in Hws'. inversion Hws'; subst. exact Hge.
      * exists pre, []. split; [reflexivity|]. split; [assumption|]. split; [assumption|].
        split; [|intros s w' []]. intros s w' Hin Hds. exfalso. eapply Hb; eauto.
    + apply IH. destruct best as [[b wb]|].
      * destruct Hb as (l1 & l2 & -> & Hbd & Hbw & H1 & H2).
        exists l1, (l2 ++ [sh]). split; [rewrite <- app_assoc; reflexivity|].
        split; [assumption|]. split; [assumption|]. split; [assumption|].
        intros s w' Hin Hds Hws'. apply in_app_or in Hin. destruct Hin as [Hin|[<-|[]]]; [eauto|].
        exfalso. apply Hd. apply Z.mod_divide; [lia|assumption].
      * intros s Hin. apply in_app_or in Hin. destruct Hin as [Hin|[<-|[]]]; [auto|].
        intros Hds. apply Hd. apply Z.mod_divide; [lia|assumption].
Qed.

Lemma StronglySorted_app_inv {A} (R : A -> A -> Prop) l1 b l2 :
  StronglySorted R (l1 ++ b :: l2) -> Forall (R b) l2.
Proof.
  induction l1 as [|a l1 IH]; cbn [app]; intros H; inversion H; subst; auto.
Qed.

Lemma StronglySorted_map {A B} (f : A -> B) (R : B -> B -> Prop) l :
  StronglySorted (fun a b => R (f a) (f b)) l -> StronglySorted R (map f l).
Proof.
  induction 1 as [|a l Hs IH Hf]; cbn; constructor; auto.
  rewrite Forall_map. exact Hf.
Qed.

Lemma StronglySorted_ext_in {A} (R R' : A -> A -> Prop) l :
  (forall a b, In a l -> In b l -> R a b -> R' a b) -> StronglySorted R l -> StronglySorted R' l.
Proof.
  intros H Hs. induction Hs as [|a l Hs IH Hf]; constructor.
  - apply IH. intros; apply H; try (right; assumption). assumption.
  - rewrite Forall_forall in *. intros x Hx. apply H; [left; reflexivity|right; assumption|auto].
Qed.

(** The ordered list L of line 610. *)
Lemma argsorted_list argsort L : argsort_ok argsort ->
  let L' := map (fun i => nth i L 0) (argsort (map Z.abs L)) in
  (forall x, In x L' <-> In x L) /\ StronglySorted (fun a b => Z.abs a <= Z.abs b) L'.
Proof.
  intros Hok. cbn zeta. destruct (Hok (map Z.abs L)) as [Hp Hs]. rewrite map_length in Hp. split.
  - intros x. rewrite in_map_iff. split.
    + intros (i & <- & Hi). apply (Permutation_in _ Hp) in Hi. apply in_seq in Hi. apply nth_In. lia.
    + intros Hin. destruct (In_nth _ _ 0 Hin) as (i & Hi & <-). exists i. split; [reflexivity|].
      apply (Permutation_in _ (Permutation_sym Hp)). apply in_seq. lia.
  - apply StronglySorted_map. eapply StronglySorted_ext_in; [|exact Hs].
    intros a b Ha Hb Hab. cbn beta in Hab.
    assert (Hk : forall i, nth i (map Z.abs L) 0 = Z.abs (nth i L 0)) by (intros i; exact (map_nth Z.abs L 0 i)).
    rewrite !Hk in Hab. exact Hab.
Qed.

Lemma pairs_ok_finite means errs : length means = length errs -> pairs_ok (combine means errs) ->
  forallb d_is_finite means = true.
Proof.
  revert errs. induction means as [|m means IH]; intros [|e errs] Hl Hok; try discriminate; [reflexivity|].
  cbn in Hok. inversion Hok as [|? ? Hm Hok']; subst. destruct Hm as (s & c & ex & Hm & _). cbn in Hm. subst m.
  cbn. apply (IH errs); [cbn in Hl; lia|exact Hok'].
Qed.

Lemma find_shift_nonempty argsort means errs md : means <> [] ->
  find_shift argsort means errs md =
  (assert! (Nat.eqb (length means) (length errs));
  assert! (forallb d_is_finite means);
  assert! (1 <=? md);
  do '(min_shift, max_shift, _) <- get_shift_range means md;
  let L := zrange min_shift max_shift in
  let idx := argsort (map Z.abs L) in
  let L := map (fun i => nth i L 0) idx in
  do best <- find_shift_loop (combine means errs) md L None;
  match best with
  | None => Err AssertionError
  | Some (best_shift, _) => Ok best_shift
  end).
Proof. destruct means; [contradiction|reflexivity]. Qed.

Lemma find_shift_spec argsort means errs md : argsort_ok argsort ->
  length means = length errs -> means <> [] -> pairs_ok (combine means errs) -> 1 <= md ->
  exists mn mx small b w,
    get_shift_range means md = Ok (mn, mx, small) /\
    find_shift argsort means errs md = Ok b /\
    (md | b) /\ mn <= b <= mx /\ col_width (combine means errs) b w /\
    (forall s, (md | s) -> mn <= s <= mx ->
       exists w', col_width (combine means errs) s w' /\ (w < w' \/ (w = w' /\ Z.abs b <= Z.abs s))).
Proof.
  intros Hsort Hlen Hne Hok Hmd.
  pose proof (pairs_ok_finite _ _ Hlen Hok) as Hfin.
  destruct (get_shift_range_spec means md Hne Hmd Hfin) as (mn & mx & small & Hgr & Hspec).
  set (pairs := combine means errs) in *.
  assert (Hpne : pairs <> []).
  { unfold pairs. destruct means; [contradiction|]. destruct errs; discriminate. }
  assert (Hw : forall s, (md | s) -> s <= mx -> exists w, max_print_len pairs s = Ok w).
  { intros s Hds Hs. apply max_print_len_ok; auto. intros [mu EB] Hin.
    destruct Hspec as (_ & _ & _ & Hdot & _). apply (Hdot s Hds); [assumption|].
    apply in_combine_l in Hin. exact Hin. }
  rewrite find_shift_nonempty by exact Hne. rewrite Hlen, Nat.eqb_refl, Hfin. destruct (Z.leb_spec 1 md); [|lia].
  cbn [py_assert bind].
  rewrite Hgr. cbn [bind]. cbn zeta.
  destruct (argsorted_list argsort (zrange mn mx) Hsort) as [Hin Hss]. cbn zeta in Hin, Hss.
  set (L := map (fun i => nth i (zrange mn mx) 0) (argsort (map Z.abs (zrange mn mx)))) in *.
  destruct (find_shift_loop_spec pairs md L) with (pre := @nil Z) (best := @None (Z * Z))
    as (best & Hloop & Hbest).
  - intros s Hs Hds. apply Hw; [assumption|]. apply Hin in Hs. apply in_zrange in Hs. lia.
  - exact Hmd.
  - intros s [].
  - fold pairs. rewrite Hloop. cbn [bind]. cbn [app] in Hbest.
    destruct best as [[b w]|].
    + destruct Hbest as (l1 & l2 & HL & Hbd & Hbw & H1 & H2).
      assert (HbL : In b L) by (rewrite HL; apply in_elt).
      apply Hin, in_zrange in HbL.
      exists mn, mx, small, b, w. split; [reflexivity|]. split; [reflexivity|]. split; [exact Hbd|].
      split; [exact HbL|]. split; [apply max_print_len_width; exact Hbw|].
      intros s Hds Hs. destruct (Hw s Hds) as [w' Hw']; [lia|]. exists w'.
      split; [apply max_print_len_width; exact Hw'|].
      assert (HsL : In s L) by (apply Hin, in_zrange; lia).
      rewrite HL in HsL. apply in_app_or in HsL. destruct HsL as [Hi|[<-|Hi]].
      * left. eapply H1; eauto.
      * right. rewrite Hbw in Hw'. inversion Hw'; subst. split; [reflexivity|lia].
      * pose proof (H2 _ _ Hi Hds Hw') as Hle. rewrite HL in Hss. apply StronglySorted_app_inv in Hss.
        rewrite Forall_forall in Hss. specialize (Hss _ Hi). lia.
    + exfalso. destruct Hspec as (_ & Hdm & Hle & _). eapply Hbest; [|exact Hdm].
      apply Hin, in_zrange. lia.
Qed.

(** ** C12: padding *)

Lemma find_char_index c s : find_char c s = if mem_char c s then Z.of_nat (index_or_end c s) else -1.
Proof.
  unfold mem_char. induction s as [|a s IH]; cbn [find_char index_or_end existsb]; [reflexivity|].
  rewrite (Ascii.eqb_sym c a). destruct (Ascii.eqb a c); cbn [orb]; [reflexivity|].
  rewrite IH. destruct (existsb (Ascii.eqb c) s); cbn; [|reflexivity].
  destruct (Z.ltb_spec (Z.of_nat (index_or_end c s)) 0); lia.
Qed.

Lemma index_or_end_absent c s : mem_char c s = false -> index_or_end c s = length s.
Proof.
  unfold mem_char. induction s as [|a s IH]; cbn [index_or_end existsb length]; intros H; [reflexivity|].
  apply orb_false_iff in H. destruct H as [Ha Hs]. rewrite Ascii.eqb_sym in Ha. rewrite Ha, IH by exact Hs. reflexivity.
Qed.

Lemma find_last_dig_spec s :
  find_last_dig s = if Nat.eqb (point_pos s) 0 then Err AssertionError
                    else Ok (Z.of_nat (point_pos s) - 1).
Proof.
  unfold find_last_dig, point_pos. rewrite !find_char_index.
  destruct (mem_char "." s) eqn:E1.
  - destruct (Nat.eqb_spec (index_or_end "." s) 0) as [E|E].
    + rewrite E. reflexivity.
    + destruct (Z.eqb_spec (Z.of_nat (index_or_end "." s)) 0); [lia|]. cbn [negb py_assert bind].
      destruct (Z.ltb_spec (Z.of_nat (index_or_end "." s)) 0); [lia|]. cbn [bind].
      destruct (Z.ltb_spec (Z.of_nat (index_or_end "." s)) 0); [lia|]. reflexivity.
  - cbn [Z.eqb negb py_assert bind Z.ltb Z.compare].
    destruct (mem_char "(" s) eqn:E2.
    + destruct (Nat.eqb_spec (index_or_end "(" s) 0) as [E|E].
      * rewrite E. reflexivity.
      * destruct (Z.eqb_spec (Z.of_nat (index_or_end "(" s)) 0); [lia|]. cbn [negb py_assert bind].
        destruct (Z.ltb_spec (Z.of_nat (index_or_end "(" s)) 0); [lia|]. reflexivity.
    + rewrite index_or_end_absent by exact E2. cbn [Z.eqb negb py_assert bind Z.ltb Z.compare].
      unfold strlen. destruct (Nat.eqb_spec (length s) 0) as [E|E].
      * rewrite E. reflexivity.
      * destruct (Z.eqb_spec (Z.of_nat (length s)) 0); [lia|]. reflexivity.
Qed.

Lemma index_or_end_le c s : (index_or_end c s <= length s)%nat.
Proof. induction s as [|a s IH]; cbn; [lia|]. destruct (Ascii.eqb a c); lia. Qed.

Lemma point_pos_le s : (point_pos s <= length s)%nat.
Proof. unfold point_pos. destruct (mem_char "." s); apply index_or_end_le. Qed.

(** Characters from the one before the point to the end. *)
Definition right_len (s : pystr) : Z := Z.of_nat (length s) - Z.of_nat (point_pos s).

Lemma mapM_ext_in {A B} (f g : A -> res B) l :
  (forall a, In a l -> f a = g a) -> mapM f l = mapM g l.
Proof.
  induction l as [|a l IH]; intros H; cbn [mapM]; [reflexivity|].
  rewrite (H a) by (left; reflexivity). rewrite IH by (intros; apply H; right; assumption). reflexivity.
Qed.

Lemma mapM_Ok {A B} (f : A -> B) l : mapM (fun a => Ok (f a)) l = Ok (map f l).
Proof. induction l as [|a l IH]; cbn [mapM map]; [reflexivity|]. rewrite IH. reflexivity. Qed.

Lemma pad_num_str_ok l pad : l <> [] -> Forall (fun s => point_pos s <> O) l ->
  exists w, (exists s, In s l /\ right_len s = w) /\ (forall s, In s l -> right_len s <= w) /\
  pad_num_str l pad = Ok (map (fun s => s ++ repeat pad (Z.to_nat (w - right_len s))) l).
Proof.
  intros Hne Hp. rewrite Forall_forall in Hp. unfold pad_num_str.
  rewrite (mapM_ext_in _ (fun s => Ok (right_len s + 1))).
  2:{ intros s Hs. rewrite find_last_dig_spec. specialize (Hp _ Hs). apply Nat.eqb_neq in Hp. rewrite Hp.
      cbn [bind]. unfold strlen, right_len. f_equal. lia. }
  rewrite mapM_Ok. cbn [bind].
  destruct (py_max_spec (map (fun s => right_len s + 1) l)) as (w & Hw & Hin & Hle); [destruct l; [contradiction|discriminate]|].
  rewrite Hw. cbn [bind]. exists (w - 1). split; [|split].
  - apply in_map_iff in Hin. destruct Hin as (s & Hs & Hi). exists s. split; [assumption|lia].
  - intros s Hs. pose proof (Hle (right_len s + 1)). assert (right_len s + 1 <= w); [|lia].
    apply H. apply in_map_iff. eauto.
  - rewrite (mapM_ext_in _ (fun s => Ok (s ++ repeat pad (Z.to_nat (w - 1 - right_len s))))).
    + apply mapM_Ok.
    + intros s Hs. rewrite find_last_dig_spec. specialize (Hp _ Hs). apply Nat.eqb_neq in Hp. rewrite Hp.
      cbn [bind]. unfold rep_char, strlen, right_len. do 4 f_equal. lia.
Qed.

Lemma pad_num_str_err l pad : pad_num_str l pad = Err ValueError /\ l = [] \/
  (exists out, pad_num_str l pad = Ok out) /\ l <> [] /\ Forall (fun s => point_pos s <> O) l \/
  pad_num_str l pad = Err AssertionError /\ exists s, In s l /\ point_pos s = O.
Proof.
  destruct l as [|s0 l0].
  - left. split; reflexivity.
  - right. destruct (Forall_Exists_dec (fun s => point_pos s <> O)) with (l := s0 :: l0) as [H|H].
    + intros s. destruct (Nat.eq_dec (point_pos s) 0); [right; lia|left; assumption].
    + left. destruct (pad_num_str_ok (s0 :: l0) pad) as (w & _ & _ & Hw); [discriminate|assumption|].
      split; [eauto|]. split; [discriminate|assumption].
    + right. apply Exists_exists in H. destruct H as (s & Hin & Hs).
      split; [|exists s; split; [assumption|destruct (point_pos s); [reflexivity|exfalso; apply Hs; discriminate]]].
      assert (Hs' : point_pos s = O) by (destruct (point_pos s); [reflexivity|exfalso; apply Hs; discriminate]).
      unfold pad_num_str.
      assert (Hm : forall l, In s l -> mapM (fun ss => do p <- find_last_dig ss; Ok (strlen ss - p)) l = Err AssertionError).
      { clear -Hs'. induction l as [|a l IH]; intros Hi; [destruct Hi|]. cbn [mapM].
        rewrite find_last_dig_spec. destruct (Nat.eqb_spec (point_pos a) 0) as [E|E]; [reflexivity|].
        cbn [bind]. destruct Hi as [->|Hi]; [contradiction|]. rewrite IH by exact Hi. reflexivity. }
      rewrite Hm by exact Hin. reflexivity.
Qed.
