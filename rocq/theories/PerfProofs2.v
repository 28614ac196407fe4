(** _binary_clf_curve in terms of sums over the samples at or above each
    threshold, for any number type with the order laws. *)
From Coq Require Import Permutation Sorted.
From Verif Require Import PyBase F64 Num NumOk Util UtilProofs ListLemmas UtilProofs2 PerfCurves PerfProofs.
Open Scope Z_scope.

Section Clf.
  Context {T : Type} {NT : num T} {OK : num_ok NT}.
  Notation fins := (Forall (fun x : T => nisfin x = true)).

  (** Scores in the order of line 93, and the thresholds. *)
  Definition sorted_scores (s : list T) : list T := take s (rev (argsort_stable s)).
  Definition thr (s : list T) : list T := let ss := sorted_scores s in mask (keepm ss) ss.

  Lemma sorted_scores_perm s : Permutation (sorted_scores s) s.
  Proof. apply take_perm, desc_perm. Qed.
  Lemma sorted_scores_fin s : fins s -> fins (sorted_scores s).
  Proof. intros F. eapply Permutation_Forall; [apply Permutation_sym, sorted_scores_perm|auto]. Qed.
  Lemma sorted_scores_ge s : fins s -> StronglySorted ge (sorted_scores s).
  Proof. intros F. apply desc_sorted. now apply fin_okl. Qed.
  Lemma sorted_scores_length s : length (sorted_scores s) = length s.
  Proof. apply Permutation_length, sorted_scores_perm. Qed.

  Lemma thr_sorted s : fins s -> StronglySorted gt (thr s).
  Proof. intros F. apply keep_sorted; auto using sorted_scores_fin, sorted_scores_ge. Qed.
  Lemma thr_in s t : In t (thr s) -> In t s.
  Proof. intros H. apply mask_incl in H. eapply Permutation_in; [apply sorted_scores_perm|auto]. Qed.
  Lemma thr_complete s x : fins s -> In x s -> exists t, In t (thr s) /\ neqb x t = true.
  Proof.
    intros F H. apply keep_complete; auto using sorted_scores_fin.
    eapply Permutation_in; [apply Permutation_sym, sorted_scores_perm|auto].
  Qed.
  Lemma thr_nonempty s : s <> [] -> thr s <> [].
  Proof.
    intros N. apply keep_nonempty. intros E. apply N. apply (f_equal (@length T)) in E.
    rewrite sorted_scores_length in E. now destruct s.
  Qed.

  Lemma take_desc_length {A} (s : list T) (l : list A) : length l = length s ->
    length (take l (rev (argsort_stable s))) = length s.
  Proof. intros L. rewrite <- L. apply take_length. rewrite L. apply desc_perm. Qed.

  (** ** Samples *)
  Definition at_or_above {A} (t : T) (P : list (T * A)) : list (T * A) := filter (fun p => nleb t (fst p)) P.

  Lemma thr_prefixes {A} s (z : list A) : fins s -> length z = length s ->
    mask (keepm (sorted_scores s)) (prefixes (take (combine s z) (rev (argsort_stable s)))) =
    map (fun t => at_or_above t (take (combine s z) (rev (argsort_stable s)))) (thr s).
  Proof.
    intros F L. rewrite take_combine by auto. fold (sorted_scores s). unfold prefixes.
    rewrite (keep_prefixes _ (sorted_scores s) []).
    - reflexivity.
    - rewrite sorted_scores_length. symmetry. apply take_desc_length; auto.
    - cbn. now apply sorted_scores_fin.
    - cbn. now apply sorted_scores_ge.
  Qed.

  Definition tidx (s : list T) : list nat :=
    where_ (map (fun d => negb (neqb d n0)) (diff (sorted_scores s))) ++ [(length s - 1)%nat].

  Lemma take_tidx_mask {A} s (l : list A) : s <> [] -> length l = length s -> take l (tidx s) = mask (keepm (sorted_scores s)) l.
  Proof.
    intros N L. unfold tidx, keepm. rewrite <- L. apply take_tidx.
    rewrite map_length, diff_length, sorted_scores_length, L. destruct s; cbn; [congruence|lia].
  Qed.

  Lemma prefixes_map {A B} (f : A -> B) l : prefixes (map f l) = map (map f) (prefixes l).
  Proof. apply (prefixes_from_map f []). Qed.

  Lemma map2_map_combine {A B C} (f : A -> B -> C) l m : map2 f l m = map (fun p => f (fst p) (snd p)) (combine l m).
  Proof. revert m; induction l; intros [|]; cbn; auto. f_equal; auto. Qed.

  Lemma prefixes_length {A} (l : list A) : length (prefixes l) = length l.
  Proof. apply prefixes_from_length. Qed.

  Lemma cumsum_length (l : list T) : length (cumsum l) = length l.
  Proof. rewrite cumsum_prefixes, map_length. apply prefixes_length. Qed.
  Lemma cumsumZ_length l : length (cumsumZ l) = length l.
  Proof. rewrite cumsumZ_prefixes, map_length. apply prefixes_length. Qed.

  Section Row.
    Context (s : list T) (y : list bool).
    Hypothesis (Fs : fins s) (Ls : length s = length y) (Ne : s <> []).
    Let desc := rev (argsort_stable s).

    (** Samples (score, (label, weight)) of one weight row in sorted order. *)
    Definition samples (r : list T) : list (T * (bool * T)) := combine s (combine y r).
    Definition sorted_samples (r : list T) := take (samples r) desc.
    Definition wpart (p : T * (bool * T)) : T := nmul (nofZ (b2z (fst (snd p)))) (snd (snd p)).
    Definition wall (p : T * (bool * T)) : T := snd (snd p).

    Lemma sorted_samples_eq r : length r = length y ->
      sorted_samples r = combine (sorted_scores s) (combine (take y desc) (take r desc)).
    Proof.
      intros L. unfold sorted_samples, samples. rewrite take_combine, take_combine; auto.
      rewrite combine_length. lia.
    Qed.
    Lemma sorted_samples_perm r : length r = length y -> Permutation (sorted_samples r) (samples r).
    Proof.
      intros L. apply take_perm. unfold samples. rewrite !combine_length, L, <- Ls, !Nat.min_id. apply desc_perm.
    Qed.

    Lemma map_samples {B} (f : bool -> T -> B) r : length r = length y ->
      map2 f (take y desc) (take r desc) = map (fun p => f (fst (snd p)) (snd (snd p))) (sorted_samples r).
    Proof.
      intros L. rewrite sorted_samples_eq, map2_map_combine by auto.
      assert (length (sorted_scores s) = length (combine (take y desc) (take r desc))) as E.
      { rewrite combine_length, sorted_scores_length. unfold desc. rewrite !take_desc_length by lia. lia. }
      rewrite <- (map_snd_combine _ _ E) at 1. rewrite map_map. reflexivity.
    Qed.

    Lemma row_total (h : T * (bool * T) -> T) r : length r = length y ->
      take (cumsum (map h (sorted_samples r))) (tidx s) =
      map (fun t => sum1 (map h (at_or_above t (sorted_samples r)))) (thr s).
    Proof.
      intros L. rewrite take_tidx_mask; auto.
      2:{ rewrite cumsum_length, map_length. unfold sorted_samples, desc. rewrite take_length.
          - unfold samples. rewrite !combine_length. lia.
          - unfold samples. rewrite !combine_length, L, <- Ls, !Nat.min_id. apply desc_perm. }
      rewrite cumsum_prefixes, prefixes_map, map_map, mask_map. unfold sorted_samples, samples.
      rewrite thr_prefixes; auto; [|rewrite combine_length; lia]. now rewrite map_map.
    Qed.

    Lemma row_tps r : length r = length y ->
      take (cumsum (map2 (fun b w => nmul (nofZ (b2z b)) w) (take y desc) (take r desc))) (tidx s) =
      map (fun t => sum1 (map wpart (at_or_above t (sorted_samples r)))) (thr s).
    Proof. intros L. rewrite map_samples by auto. now apply row_total. Qed.

    Lemma map2_snd {A B C} (f : A -> B -> C) l m : map2 f l m = map2 (fun b a => f a b) m l.
    Proof. revert m; induction l; intros [|]; cbn; auto. now f_equal. Qed.

    Lemma row_all r : length r = length y ->
      take (cumsum (take r desc)) (tidx s) = map (fun t => sum1 (map wall (at_or_above t (sorted_samples r)))) (thr s).
    Proof.
      intros L. rewrite <- row_total by auto. f_equal. f_equal. unfold wall.
      rewrite <- (map_samples (fun _ w => w)) by auto. rewrite map2_map_combine, map_snd_combine; auto.
      unfold desc. rewrite !take_desc_length; lia.
    Qed.

    Definition tps_row r : list T := map (fun t => sum1 (map wpart (at_or_above t (sorted_samples r)))) (thr s).
    Definition fps_row r : list T :=
      map (fun t => nsub (sum1 (map wall (at_or_above t (sorted_samples r))))
                         (sum1 (map wpart (at_or_above t (sorted_samples r))))) (thr s).

    Lemma map2_map_same {A B C D} (f : B -> C -> D) (g : A -> B) (h : A -> C) l :
      map2 f (map g l) (map h l) = map (fun a => f (g a) (h a)) l.
    Proof. induction l; cbn; auto. now f_equal. Qed.

    Lemma row_fps r : length r = length y ->
      map2 nsub (take (cumsum (take r desc)) (tidx s)) (tps_row r) = fps_row r.
    Proof. intros L. rewrite row_all by auto. apply map2_map_same. Qed.

    Definition neg_sum n r : T := row_sum n (mask (map negb (take y desc)) (take r desc)).
    Definition pos_sum n r : T := row_sum n (mask (take y desc) (take r desc)).

    (** lines 108-119 *)
    Lemma counts_weighted_eq sw :
      counts_weighted (take y desc) desc (tidx s) sw =
      (assert! (forallb (fun r => (length r =? length y)%nat) sw);
       assert! (1 <=? length sw)%nat;
       assert! (forallb (forallb nisfin) sw);
       assert! (forallb (forallb (nltb n0)) sw);
       assert! (allclose (map (fun r => lastn (fps_row r)) sw) (map (neg_sum (length sw)) sw));
       assert! (allclose (map (fun r => lastn (tps_row r)) sw) (map (pos_sum (length sw)) sw));
       Ok (map fps_row sw, map tps_row sw)).
    Proof.
      unfold counts_weighted.
      assert (length (take y desc) = length y) as Ly by (unfold desc; rewrite take_desc_length; lia). rewrite Ly.
      destruct (forallb (fun r => (length r =? length y)%nat) sw) eqn:EL; [|reflexivity].
      assert (forall r, In r sw -> length r = length y) as HL.
      { intros r Hr. eapply forallb_forall in EL; eauto. now apply Nat.eqb_eq. }
      assert (map (fun r => take (cumsum (map2 (fun b w => nmul (nofZ (b2z b)) w) (take y desc) r)) (tidx s))
                (map (fun r => take r desc) sw) = map tps_row sw) as E1.
      { rewrite map_map. apply map_ext_in. intros r Hr. now apply row_tps, HL. }
      rewrite E1.
      assert (map2 (fun r t => map2 nsub (take (cumsum r) (tidx s)) t) (map (fun r => take r desc) sw) (map tps_row sw)
        = map fps_row sw) as E2.
      { rewrite map2_map_same. apply map_ext_in. intros r Hr. now apply row_fps, HL. }
      rewrite E2, !map_map. reflexivity.
    Qed.

    (** ** lines 102-106 *)
    Definition cntZ (p : bool -> bool) (t : T) : Z :=
      Z.of_nat (length (filter (fun q => nleb t (fst q) && p (snd q)) (combine s y))).

    Lemma perm_filter_len {A} (p : A -> bool) l m : Permutation l m -> length (filter p l) = length (filter p m).
    Proof. induction 1; cbn; auto; repeat destruct (p _); cbn; try lia. Qed.
    Lemma sum_b2z {A} (f : A -> bool) l : fold_right Z.add 0 (map (fun p => b2z (f p)) l) = Z.of_nat (length (filter f l)).
    Proof. induction l as [|a l IH]; cbn [map fold_right filter]; auto. rewrite IH. destruct (f a); cbn [b2z length]; lia. Qed.
    Lemma filter_filter {A} (p q : A -> bool) l : filter p (filter q l) = filter (fun x => q x && p x) l.
    Proof. induction l as [|a l IH]; cbn; auto. destruct (q a); cbn; rewrite IH; reflexivity. Qed.
    Lemma len_split {A} (p : A -> bool) l :
      (length (filter p l) + length (filter (fun x => negb (p x)) l) = length l)%nat.
    Proof. induction l as [|a l IH]; cbn; auto. destruct (p a); cbn; lia. Qed.

    Lemma take_map_swap {A B} (f : A -> B) (l : list A) i : map f (take l i) = take (map f l) i.
    Proof. symmetry. apply take_map. Qed.

    Lemma unw_tps : take (cumsumZ (map b2z (take y desc))) (tidx s) = map (cntZ (fun b => b)) (thr s).
    Proof.
      assert (length (take y desc) = length s) as Ly by (unfold desc; apply take_desc_length; lia).
      rewrite take_tidx_mask; auto; [|rewrite cumsumZ_length, map_length; auto].
      assert (map b2z (take y desc) = map (fun p => b2z (snd p)) (take (combine s y) desc)) as E.
      { rewrite take_combine by auto. rewrite <- (map_snd_combine (take s desc) (take y desc)) at 1.
        - now rewrite map_map.
        - change (take s desc) with (sorted_scores s). rewrite sorted_scores_length. auto. }
      rewrite E, cumsumZ_prefixes, prefixes_map, map_map, mask_map. unfold desc.
      rewrite thr_prefixes by auto. rewrite map_map. apply map_ext. intros t.
      rewrite sum_b2z. unfold cntZ, at_or_above. rewrite filter_filter. f_equal. apply perm_filter_len.
      apply take_perm. rewrite combine_length, <- Ls, Nat.min_id. apply desc_perm.
    Qed.

    Lemma idx_len : map (fun i => 1 + Z.of_nat i) (tidx s) = map (fun t => Z.of_nat (length (at_or_above t (combine s y)))) (thr s).
    Proof.
      assert (tidx s = mask (keepm (sorted_scores s)) (seq 0 (length s))) as E.
      { rewrite <- take_tidx_mask; auto; [|apply seq_length]. unfold tidx.
        assert (forall i, In i (where_ (map (fun d => negb (neqb d n0)) (diff (sorted_scores s))) ++ [(length s - 1)%nat]) ->
          (i < length s)%nat) as H.
        { intros i Hi. apply in_app_iff in Hi as [Hi|[<-|[]]]; [|destruct s; cbn; [congruence|lia]].
          assert (forall k m i, In i (where_from k m) -> (i < k + length m)%nat) as W.
          { clear. intros k m; revert k; induction m as [|b m IH]; intros k i Hi; cbn in *; [contradiction|].
            destruct b; [destruct Hi as [<-|Hi]; [lia|]|]; apply IH in Hi; lia. }
          apply W in Hi. rewrite map_length, diff_length, sorted_scores_length in Hi. destruct s; cbn in *; [congruence|lia]. }
        revert H. generalize (where_ (map (fun d => negb (neqb d n0)) (diff (sorted_scores s))) ++ [(length s - 1)%nat]) as k.
        induction k as [|i k IH]; intros H; [reflexivity|]. unfold take. cbn [flat_map].
        rewrite nth_error_nth' with (d := 0%nat) by (rewrite seq_length; apply H; now left).
        rewrite seq_nth by (apply H; now left). cbn. f_equal. apply IH. intros; apply H; now right. }
      rewrite E.
      assert (map (fun i => 1 + Z.of_nat i) (mask (keepm (sorted_scores s)) (seq 0 (length s)))
        = map Z.of_nat (mask (keepm (sorted_scores s)) (seq 1 (length s)))) as ->.
      { rewrite <- seq_shift, mask_map, map_map. apply map_ext. intros; lia. }
      assert (length (take (combine s y) desc) = length s) as L3.
      { unfold desc. apply take_desc_length. rewrite combine_length. lia. }
      rewrite <- L3. rewrite seq_prefixes, mask_map. unfold desc. rewrite thr_prefixes by auto.
      rewrite !map_map. apply map_ext. intros t. f_equal. apply perm_filter_len.
      apply take_perm. rewrite combine_length, <- Ls, Nat.min_id. apply desc_perm.
    Qed.

    Lemma map2_map_l {A B C D} (f : B -> C -> D) (g : A -> B) l m : map2 f (map g l) m = map2 (fun a c => f (g a) c) l m.
    Proof. revert m; induction l; intros [|]; cbn; auto. now f_equal. Qed.

    Lemma unw_fps : map2 (fun i t => 1 + Z.of_nat i - t) (tidx s) (map (cntZ (fun b => b)) (thr s)) = map (cntZ negb) (thr s).
    Proof.
      rewrite <- (map2_map_l Z.sub (fun i => 1 + Z.of_nat i)), idx_len, map2_map_same.
      apply map_ext. intros t. unfold cntZ, at_or_above.
      rewrite <- (filter_filter (fun q => snd q)), <- (filter_filter (fun q => negb (snd q))).
      pose proof (len_split (fun q : T * bool => snd q) (filter (fun p => nleb t (fst p)) (combine s y))). lia.
    Qed.

    (** The last threshold is the minimum, so everything is at or above it. *)
    Lemma last_thr_min t0 x : In x s -> nleb (last (thr s) t0) x = true.
    Proof.
      intros Hx. unfold thr.
      assert (sorted_scores s <> []) as Ns.
      { intros E. apply Ne. apply (f_equal (@length T)) in E. rewrite sorted_scores_length in E. now destruct s. }
      rewrite (keep_last _ Ns t0 t0). pose proof (sorted_scores_ge s Fs) as S.
      assert (In x (sorted_scores s)) as I by (eapply Permutation_in; [apply Permutation_sym, sorted_scores_perm|auto]).
      destruct (exists_last Ns) as (k & b & E). rewrite E, last_last. rewrite E in I, S.
      apply in_app_iff in I as [I|[<-|[]]].
      - apply In_nth_error in I as [i Hi].
        assert (i < length k)%nat as Li by (apply nth_error_Some; congruence).
        apply (SSorted_nth _ _ S i (length k) x b); auto.
        + now rewrite nth_error_app1.
        + rewrite nth_error_app2, Nat.sub_diag by lia. reflexivity.
      - apply leb_refl_, fin_notnan_. assert (In b s) as Hb.
        { eapply Permutation_in; [apply sorted_scores_perm|]. rewrite E. apply in_app_iff. right. now left. }
        eapply Forall_forall in Fs; eauto.
    Qed.

    Lemma at_last {A} t0 (P : list (T * A)) : (forall p, In p P -> In (fst p) s) -> at_or_above (last (thr s) t0) P = P.
    Proof.
      intros H. unfold at_or_above. induction P as [|p P IH]; cbn; auto.
      rewrite last_thr_min by (apply H; now left). f_equal. apply IH. intros; apply H; now right.
    Qed.

    Lemma last_map {A B} (f : A -> B) l d d' : l <> [] -> last (map f l) d = f (last l d').
    Proof.
      induction l as [|a [|b l] IH]; intros N; cbn in *; [congruence|auto|]. apply IH. discriminate.
    Qed.

    Lemma filter_map_len {A B} (f : A -> B) (p : B -> bool) l : length (filter p (map f l)) = length (filter (fun a => p (f a)) l).
    Proof. induction l as [|a l IH]; cbn; auto. destruct (p (f a)); cbn; auto. Qed.

    Lemma cntZ_last p t0 : cntZ p (last (thr s) t0) = Z.of_nat (length (filter p y)).
    Proof.
      unfold cntZ. rewrite <- (filter_filter (fun q => p (snd q)) (fun q => nleb (last (thr s) t0) (fst q))).
      fold (@at_or_above bool (last (thr s) t0) (combine s y)). rewrite at_last.
      - f_equal. rewrite <- filter_map_len. now rewrite map_snd_combine.
      - intros [a b] H. cbn. eapply in_combine_l; eauto.
    Qed.

    Lemma counts_unweighted_eq :
      counts_unweighted (take y desc) (tidx s) =
      Ok ([map (fun t => nofZ (cntZ negb t)) (thr s)], [map (fun t => nofZ (cntZ (fun b => b) t)) (thr s)]).
    Proof.
      unfold counts_unweighted. rewrite unw_tps, unw_fps.
      pose proof (thr_nonempty s Ne) as Nt.
      rewrite (last_map (cntZ negb) _ 0 n0 Nt), (last_map (cntZ (fun b => b)) _ 0 n0 Nt), !cntZ_last.
      assert (Permutation (take y desc) y) as P by (apply take_perm; rewrite <- Ls; apply desc_perm).
      rewrite !(perm_filter_len _ _ _ P), !Z.eqb_refl. cbn [andb py_assert bind]. now rewrite !map_map.
    Qed.
  End Row.

  (** ** The rest of the function *)
  Definition row_pseudo (f t : list T) := pseudo_row (n0 :: f) (n0 :: t).
  Definition row_out (f t : list T) : list T * list T :=
    let p := row_pseudo f t in (max_accumulate (fst p), snd p).
  Definition row_ok (f t : list T) : bool :=
    let p := row_pseudo f t in
    nltb n0 (lastn (fst p)) && nltb n0 (lastn (snd p)) &&
    forallb (nleb n0) (diff (fst (row_out f t))) && forallb (nleb n0) (diff (snd (row_out f t))).

  Definition finish (rows : list (list T * list T)) (D : list T) : res (list (list T) * list (list T) * list T) :=
    assert! (forallb (fun p => row_ok (fst p) (snd p)) rows);
    Ok (map (fun p => fst (row_out (fst p) (snd p))) rows, map (fun p => snd (row_out (fst p) (snd p))) rows, ninf :: D).

  Lemma forallb_map {A B} (f : A -> B) p l : forallb p (map f l) = forallb (fun a => p (f a)) l.
  Proof. induction l; cbn; auto. now rewrite IHl. Qed.
  Lemma forallb_and {A} (p q : A -> bool) l : forallb p l && forallb q l = forallb (fun a => p a && q a) l.
  Proof. induction l as [|a l IH]; cbn; auto. rewrite <- IH. destruct (p a), (q a), (forallb p l); reflexivity. Qed.

  Lemma py_assert_and {A} (b c : bool) (k : res A) : (assert! b; assert! c; k) = (assert! (b && c); k).
  Proof. now destruct b, c. Qed.

  Lemma finish_eq rows D : rows <> [] -> D <> [] -> Forall (fun p => length (fst p) = length (snd p)) rows ->
    (let fps := map (cons n0) (map fst rows) in
     let tps := map (cons n0) (map snd rows) in
     let thresholds := ninf :: D in
     assert! (2 <=? length thresholds)%nat;
     do q <- _add_pseudo_points fps tps;
     let '(fps, tps) := q in
     assert! (forallb (fun r => nltb n0 (lastn r)) fps && forallb (fun r => nltb n0 (lastn r)) tps);
     let fps := map max_accumulate fps in
     assert! (forallb (fun r => forallb (nleb n0) (diff r)) fps &&
              forallb (fun r => forallb (nleb n0) (diff r)) tps);
     Ok (fps, tps, thresholds)) = finish rows D.
  Proof.
    intros Nr Nd F. cbv zeta.
    destruct D as [|d D]; [congruence|]. cbn [length Nat.leb py_assert bind].
    unfold _add_pseudo_points. rewrite !map_length, Nat.eqb_refl. cbn [py_assert bind].
    rewrite !map_map.
    assert (forallb (fun p => (length (fst p) =? length (snd p))%nat)
      (combine (map (fun x : list T * list T => n0 :: fst x) rows) (map (fun x => n0 :: snd x) rows)) = true) as ->.
    { apply forallb_forall. intros [a b] H. clear -H F. induction rows as [|[f t] rows IH]; cbn in H; [contradiction|].
      inversion F; subst. destruct H as [H|H]; [|now apply IH]. injection H as <- <-. cbn in *. now apply Nat.eqb_eq. }
    cbn [py_assert bind].
    assert (negb (length (concat (map (fun x : list T * list T => n0 :: fst x) rows)) =? 0)%nat = true) as ->
      by (destruct rows; [congruence|reflexivity]).
    cbn [py_assert bind]. rewrite map2_map_same, !map_map.
    change (fun x : list T * list T => fst (pseudo_row (n0 :: fst x) (n0 :: snd x))) with
      (fun x : list T * list T => fst (row_pseudo (fst x) (snd x))).
    change (fun x : list T * list T => snd (pseudo_row (n0 :: fst x) (n0 :: snd x))) with
      (fun x : list T * list T => snd (row_pseudo (fst x) (snd x))).
    rewrite !forallb_map, !forallb_and, py_assert_and, forallb_and. unfold finish.
    f_equal. apply f_equal. clear. induction rows as [|[f t] rows IH]; cbn [forallb]; auto. rewrite IH. f_equal.
    unfold row_ok, row_out. cbn [fst snd]. rewrite !andb_assoc. reflexivity.
  Qed.

  Theorem clf_weighted s y sw : fins s -> length s = length y -> s <> [] ->
    forallb (fun r => (length r =? length y)%nat) sw = true -> sw <> [] ->
    forallb (forallb nisfin) sw = true -> forallb (forallb (nltb n0)) sw = true ->
    _binary_clf_curve y s (Some sw) =
    (assert! (allclose (map (fun r => lastn (fps_row s y r)) sw) (map (neg_sum s y (length sw)) sw));
     assert! (allclose (map (fun r => lastn (tps_row s y r)) sw) (map (pos_sum s y (length sw)) sw));
     finish (map (fun r => (fps_row s y r, tps_row s y r)) sw) (thr s)).
  Proof.
    intros Fs Ls Ne H1 H2 H3 H4. unfold _binary_clf_curve.
    rewrite Ls, Nat.eqb_refl. cbn [py_assert bind].
    rewrite (proj2 (forallb_forall _ _)) by (intros; eapply Forall_forall in Fs; eauto). cbn [py_assert bind].
    assert ((1 <=? length y)%nat = true) as -> by (apply Nat.leb_le; destruct s; cbn in *; [congruence|lia]).
    cbn [py_assert bind]. fold (sorted_scores s). rewrite take_desc_length by auto. fold (tidx s).
    rewrite counts_weighted_eq by auto. rewrite H1, H3, H4.
    assert ((1 <=? length sw)%nat = true) as -> by (destruct sw; [congruence|reflexivity]).
    cbn [py_assert bind].
    destruct (allclose (map (fun r => lastn (fps_row s y r)) sw) _); [|reflexivity].
    destruct (allclose (map (fun r => lastn (tps_row s y r)) sw) _); [|reflexivity].
    cbn [py_assert bind]. rewrite (take_tidx_mask s (sorted_scores s)) by auto using sorted_scores_length. fold (thr s).
    assert (map (fps_row s y) sw = map fst (map (fun r => (fps_row s y r, tps_row s y r)) sw)) as -> by (now rewrite map_map).
    assert (map (tps_row s y) sw = map snd (map (fun r => (fps_row s y r, tps_row s y r)) sw)) as -> by (now rewrite map_map).
    apply finish_eq; [now destruct sw|now apply thr_nonempty|].
    apply Forall_forall. intros p Hp. apply in_map_iff in Hp as (r & <- & _). cbn. unfold fps_row, tps_row. now rewrite !map_length.
  Qed.

  Theorem clf_unweighted s y : fins s -> length s = length y -> s <> [] ->
    _binary_clf_curve y s None =
    finish [(map (fun t => nofZ (cntZ s y negb t)) (thr s), map (fun t => nofZ (cntZ s y (fun b => b) t)) (thr s))] (thr s).
  Proof.
    intros Fs Ls Ne. unfold _binary_clf_curve.
    rewrite Ls, Nat.eqb_refl. cbn [py_assert bind].
    rewrite (proj2 (forallb_forall _ _)) by (intros; eapply Forall_forall in Fs; eauto). cbn [py_assert bind].
    assert ((1 <=? length y)%nat = true) as -> by (apply Nat.leb_le; destruct s; cbn in *; [congruence|lia]).
    cbn [py_assert bind]. fold (sorted_scores s). rewrite take_desc_length by auto. fold (tidx s).
    rewrite counts_unweighted_eq by auto. cbn [bind].
    rewrite (take_tidx_mask s (sorted_scores s)) by auto using sorted_scores_length. fold (thr s).
    apply (finish_eq [(map (fun t => nofZ (cntZ s y negb t)) (thr s), map (fun t => nofZ (cntZ s y (fun b => b) t)) (thr s))]).
    - discriminate.
    - now apply thr_nonempty.
    - constructor; [|constructor]. cbn. now rewrite !map_length.
  Qed.

  (** A call that returns has met the input checks. *)
  Lemma clf_inputs y s sw r : _binary_clf_curve y s sw = Ok r ->
    length s = length y /\ fins s /\ s <> [] /\
    match sw with
    | None => True
    | Some sw => forallb (fun r => (length r =? length y)%nat) sw = true /\ sw <> [] /\
        forallb (forallb nisfin) sw = true /\ forallb (forallb (nltb n0)) sw = true
    end.
  Proof.
    unfold _binary_clf_curve.
    destruct (length s =? length y)%nat eqn:E1; [|discriminate]. cbn [py_assert bind].
    destruct (forallb nisfin s) eqn:E2; [|discriminate]. cbn [py_assert bind].
    destruct (1 <=? length y)%nat eqn:E3; [|discriminate]. cbn [py_assert bind].
    apply Nat.eqb_eq in E1. apply Nat.leb_le in E3. intros H.
    assert (fins s) as Fs by (apply Forall_forall; intros x Hx; eapply forallb_forall in E2; eauto).
    assert (s <> []) as Ne by (intros ->; cbn in *; lia).
    repeat split; auto. destruct sw as [sw|]; auto.
    fold (sorted_scores s) in H. rewrite take_desc_length in H by auto. fold (tidx s) in H.
    rewrite counts_weighted_eq in H by auto.
    destruct (forallb (fun r => (length r =? length y)%nat) sw); [|discriminate]. cbn [py_assert bind] in H.
    destruct sw as [|r0 sw]; [discriminate|]. cbn [length Nat.leb py_assert bind] in H.
    destruct (forallb (forallb nisfin) (r0 :: sw)); [|discriminate]. cbn [py_assert bind] in H.
    destruct (forallb (forallb (nltb n0)) (r0 :: sw)); [|discriminate]. repeat split; auto. discriminate.
  Qed.
End Clf.
