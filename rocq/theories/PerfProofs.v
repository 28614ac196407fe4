(** Structure of _binary_clf_curve: the entries at the threshold positions are
    sums over the samples with score >= threshold. *)
From Coq Require Import Permutation Sorted.
From Verif Require Import PyBase F64 Num NumOk Util UtilProofs ListLemmas UtilProofs2 PerfCurves.
Open Scope Z_scope.

(** ** Lists *)
Lemma mask_map {A B} (f : A -> B) m l : mask m (map f l) = map f (mask m l).
Proof. revert l; induction m as [|[] m IH]; intros [|a l]; cbn; auto. now rewrite IH. Qed.

Lemma mask_combine {A B} m (l : list A) (k : list B) : length l = length k ->
  mask m (combine l k) = combine (mask m l) (mask m k).
Proof.
  revert l k; induction m as [|[] m IH]; intros [|a l] [|b k] H; cbn in *; try discriminate; auto.
  now rewrite IH by lia.
Qed.

Lemma mask_length_eq {A B} m (l : list A) (k : list B) : length l = length k -> length (mask m l) = length (mask m k).
Proof. revert l k; induction m as [|[] m IH]; intros [|a l] [|b k] H; cbn in *; try discriminate; auto. Qed.

Lemma take_rev {A} (l : list A) idx : take l (rev idx) = rev (take l idx).
Proof.
  unfold take. induction idx as [|i idx IH]; cbn; auto. rewrite flat_map_app, IH, rev_app_distr. cbn.
  rewrite app_nil_r. f_equal. destruct (nth_error l i); reflexivity.
Qed.

Lemma take_app {A} (l : list A) i j : take l (i ++ j) = take l i ++ take l j.
Proof. unfold take. apply flat_map_app. Qed.

Lemma take_where {A} (m : list bool) : forall (pre l : list A) , (length m <= length l)%nat ->
  take (pre ++ l) (where_from (length pre) m) = mask m l.
Proof.
  induction m as [|b m IH]; intros pre [|a l] H; cbn in *; auto; try lia.
  assert (take (pre ++ a :: l) (where_from (S (length pre)) m) = mask m l) as E.
  { specialize (IH (pre ++ [a]) l ltac:(lia)). rewrite <- app_assoc, app_length, Nat.add_1_r in IH. exact IH. }
  destruct b; [|exact E]. unfold take in *. cbn [flat_map].
  rewrite nth_error_app2, Nat.sub_diag by lia. cbn. now f_equal.
Qed.

Lemma mask_app {A} m1 m2 (l : list A) : mask (m1 ++ m2) l = mask m1 l ++ mask m2 (skipn (length m1) l).
Proof.
  revert l; induction m1 as [|b m1 IH]; intros [|a l]; cbn; auto.
  - destruct m2; reflexivity.
  - rewrite IH. destruct b; reflexivity.
Qed.

(** The positions of line 99-100 pick the same entries as a mask. *)
Lemma take_tidx {A} (m : list bool) (l : list A) : length l = S (length m) ->
  take l (where_ m ++ [(length l - 1)%nat]) = mask (m ++ [true]) l.
Proof.
  intros H. rewrite take_app, mask_app. unfold where_.
  rewrite <- (take_where m [] l) by lia. cbn [app length]. f_equal.
  unfold take. cbn [flat_map]. rewrite app_nil_r.
  assert (exists a, skipn (length m) l = [a]) as [a Ha].
  { destruct (skipn (length m) l) as [|a [|b k]] eqn:E; apply (f_equal (@length _)) in E;
      rewrite skipn_length in E; cbn in E; try lia. now exists a. }
  rewrite Ha. cbn. replace (length l - 1)%nat with (length m + 0)%nat by lia.
  rewrite <- (firstn_skipn (length m) l) at 1. rewrite nth_error_app2; rewrite firstn_length; try lia.
  replace (length m + 0 - Nat.min (length m) (length l))%nat with 0%nat by lia. now rewrite Ha.
Qed.

(** Non-empty prefixes. *)
Fixpoint prefixes_from {A} (acc l : list A) : list (list A) :=
  match l with [] => [] | a :: l' => (acc ++ [a]) :: prefixes_from (acc ++ [a]) l' end.
Definition prefixes {A} (l : list A) := prefixes_from [] l.

Lemma prefixes_from_length {A} (acc l : list A) : length (prefixes_from acc l) = length l.
Proof. revert acc; induction l; intros; cbn; auto. Qed.

Lemma prefixes_from_map {A B} (f : A -> B) acc l :
  prefixes_from (map f acc) (map f l) = map (map f) (prefixes_from acc l).
Proof.
  revert acc; induction l as [|a l IH]; intros acc; cbn; auto.
  rewrite <- IH, map_app. reflexivity.
Qed.

Lemma cumsumZ_prefixes l : cumsumZ l = map (fold_right Z.add 0) (prefixes l).
Proof.
  unfold cumsumZ, prefixes. assert (forall acc l, cumsumZ_from (fold_right Z.add 0 acc) l
    = map (fold_right Z.add 0) (prefixes_from acc l)) as H; [|apply (H [] l)].
  clear l. intros acc l; revert acc; induction l as [|a l IH]; intros acc; cbn [cumsumZ_from prefixes_from map]; auto.
  assert (fold_right Z.add 0 (acc ++ [a]) = fold_right Z.add 0 acc + a) as E.
  { rewrite fold_right_app. cbn. clear. induction acc as [|b acc IH]; cbn; lia. }
  rewrite <- IH, E. reflexivity.
Qed.

Lemma seq_prefixes {A} (l : list A) : seq 1 (length l) = map (@length A) (prefixes l).
Proof.
  unfold prefixes. assert (forall acc, seq (S (length acc)) (length l) = map (@length A) (prefixes_from acc l)) as H;
    [|apply (H [])].
  induction l as [|a l IH]; intros acc; cbn [length seq prefixes_from map]; auto.
  rewrite <- IH, app_length, Nat.add_1_r. reflexivity.
Qed.

Section Cum.
  Context {T : Type} {NT : num T}.
  (** A non-empty left to right sum without a leading zero. *)
  Definition sum1 (l : list T) : T := match l with [] => n0 | a :: l' => fold_left nadd l' a end.
  Lemma cumsum_prefixes (l : list T) : cumsum l = map sum1 (prefixes l).
  Proof.
    destruct l as [|a l]; [reflexivity|]. unfold prefixes. cbn [cumsum prefixes_from app map]. f_equal.
    assert (forall k, cumsum_from (fold_left nadd k a) l = map sum1 (prefixes_from (a :: k) l)) as H; [|apply (H [])].
    induction l as [|b l IH]; intros k; cbn [cumsum_from prefixes_from map app]; auto.
    rewrite <- IH. unfold sum1. rewrite fold_left_app. reflexivity.
  Qed.
End Cum.

(** ** Sorting *)
Section Srt.
  Context {T : Type} {NT : num T} {OK : num_ok NT}.

  Definition ge (a b : T) : Prop := nleb b a = true.
  Definition gt (a b : T) : Prop := nltb b a = true.

  Lemma fold_insert_isort l : fold_right (@insert_idx T _) [] l = isort (fun p q => nleb (fst p) (fst q)) l.
  Proof.
    reflexivity.
  Qed.

  Lemma combine_seq_nth {A} (l : list A) p : In p (combine l (seq 0 (length l))) -> nth_error l (snd p) = Some (fst p).
  Proof.
    intros H. apply In_nth_error in H as [i H]. rewrite nth_combine in H.
    destruct (nth_error l i) as [a|] eqn:E; [|discriminate].
    destruct (nth_error (seq 0 (length l)) i) as [j|] eqn:F; [|discriminate]. injection H as <-. cbn.
    assert (i < length l)%nat by (apply nth_error_Some; congruence).
    rewrite nth_error_nth' with (d := 0%nat) in F by (rewrite seq_length; auto).
    rewrite seq_nth in F by auto. injection F as <-. exact E.
  Qed.

  Lemma argsort_perm (l : list T) : Permutation (argsort_stable l) (seq 0 (length l)).
  Proof.
    unfold argsort_stable. rewrite fold_insert_isort.
    rewrite <- (map_snd_combine l (seq 0 (length l))) at 2 by (rewrite seq_length; auto).
    apply Permutation_map, Permutation_sym, isort_perm.
  Qed.

  Lemma argsort_take (l : list T) :
    take l (argsort_stable l) = map fst (isort (fun p q : T * nat => nleb (fst p) (fst q)) (combine l (seq 0 (length l)))).
  Proof.
    unfold argsort_stable. rewrite fold_insert_isort.
    assert (forall p, In p (isort (fun p q : T * nat => nleb (fst p) (fst q)) (combine l (seq 0 (length l)))) ->
      nth_error l (snd p) = Some (fst p)) as H.
    { intros p Hp. apply combine_seq_nth. eapply Permutation_in; [apply Permutation_sym, isort_perm|]. exact Hp. }
    revert H. generalize (isort (fun p q : T * nat => nleb (fst p) (fst q)) (combine l (seq 0 (length l)))).
    intros k H. unfold take. induction k as [|p k IH]; cbn; auto.
    rewrite H by now left. cbn. f_equal. apply IH. intros; apply H; now right.
  Qed.

  Lemma SSorted_map {A B} (f : A -> B) (R : B -> B -> Prop) l :
    StronglySorted (fun a b => R (f a) (f b)) l -> StronglySorted R (map f l).
  Proof.
    induction 1 as [|a l S IH F]; cbn; constructor; auto. now apply Forall_map.
  Qed.

  Lemma SSorted_rev {A} (R : A -> A -> Prop) l : StronglySorted R l -> StronglySorted (fun a b => R b a) (rev l).
  Proof.
    induction 1 as [|a l S IH F]; cbn; [constructor|].
    assert (forall k, StronglySorted (fun a b => R b a) k -> Forall (fun x => R a x) k ->
      StronglySorted (fun a b => R b a) (k ++ [a])) as K.
    { clear. induction k as [|b k IHk]; intros S F; cbn; [repeat constructor|].
      inversion S; subst. inversion F; subst. constructor; [auto|]. apply Forall_app. split; [auto|constructor; auto]. }
    apply K; [exact IH|]. apply Forall_forall. intros x Hx. apply in_rev in Hx. revert x Hx. apply Forall_forall. exact F.
  Qed.

  Lemma desc_sorted (l : list T) : okl l -> StronglySorted ge (take l (rev (argsort_stable l))).
  Proof.
    intros O. rewrite take_rev, argsort_take. apply SSorted_rev with (R := fun a b => ge b a).
    apply SSorted_map. apply (isort_sorted (fun p q : T * nat => nleb (fst p) (fst q)) (fun p => nisnan (fst p) = false)).
    - intros x y. apply leb_total_.
    - intros x y z. apply leb_trans_.
    - apply Forall_forall. intros [x i] H. apply in_combine_l in H. eapply Forall_forall in O; eauto.
  Qed.

  Lemma desc_perm (l : list T) : Permutation (rev (argsort_stable l)) (seq 0 (length l)).
  Proof. eapply perm_trans; [apply Permutation_sym, Permutation_rev|apply argsort_perm]. Qed.

  (** ** Thresholds *)

  Definition keepm (s : list T) : list bool := map (fun d => negb (neqb d n0)) (diff s) ++ [true].

  Lemma diff_length (l : list T) : length (diff l) = (length l - 1)%nat.
  Proof. induction l as [|a [|b l] IH]; cbn [diff length] in *; auto. rewrite IH. cbn. lia. Qed.

  Lemma diff_zero (x y : T) : nisfin x = true -> nisfin y = true -> neqb (nsub y x) n0 = neqb x y.
  Proof.
    intros Fx Fy. rewrite !eqb_leb_, (diff_nonneg_ x y Fx Fy).
    destruct (nleb x y) eqn:E; [|now rewrite andb_false_r]. rewrite andb_true_r.
    assert (nisnan (nsub y x) = false /\ nisnan (n0 : T) = false) as [N N0].
    { pose proof (diff_nonneg_ x y Fx Fy) as D. rewrite E in D. apply leb_notnan_ in D. tauto. }
    pose proof (diff_pos_ x y (fin_notnan_ _ Fx) (fin_notnan_ _ Fy)) as P.
    rewrite ltb_leb_ in P by auto. rewrite (ltb_leb_ x y) in P by now apply fin_notnan_.
    now destruct (nleb (nsub y x) n0), (nleb y x).
  Qed.

  Lemma keepm_cons a b l : nisfin a = true -> nisfin b = true ->
    keepm (a :: b :: l) = negb (neqb a b) :: keepm (b :: l).
  Proof. intros Fa Fb. unfold keepm. cbn [diff map app]. now rewrite diff_zero. Qed.

  Lemma ge_trans a b c : ge a b -> ge b c -> ge a c.
  Proof. unfold ge. intros. eapply leb_trans_; eauto. Qed.

  Lemma neq_gt a b : nisnan a = false -> nisnan b = false -> ge a b -> neqb a b = false -> gt a b.
  Proof.
    unfold ge, gt. intros Na Nb H E. rewrite eqb_leb_, H, andb_true_r in E. now rewrite ltb_leb_, E.
  Qed.
  Lemma gt_not_le a b : gt a b -> nleb a b = false.
  Proof. unfold gt. intros H. destruct (ltb_notnan_ _ _ H). rewrite ltb_leb_ in H by auto. now apply negb_true_iff in H. Qed.
  Lemma gt_ge_trans a b c : gt a b -> ge b c -> gt a c.
  Proof.
    intros H1 H2. unfold gt, ge in *. destruct (ltb_notnan_ _ _ H1) as [N1 N2]. destruct (leb_notnan_ _ _ H2) as [N3 N4].
    rewrite ltb_leb_ in H1 |- * by auto. apply negb_true_iff in H1. apply negb_true_iff.
    destruct (nleb a c) eqn:E; auto. rewrite (leb_trans_ _ _ _ E H2) in H1. discriminate.
  Qed.

  Notation fins := (Forall (fun x : T => nisfin x = true)).

  (** Distinct values, strictly decreasing. *)
  Lemma keep_sorted s : fins s -> StronglySorted ge s -> StronglySorted gt (mask (keepm s) s).
  Proof.
    induction s as [|a [|b l] IH]; intros F S; [constructor|repeat constructor|].
    inversion F as [|? ? Fa F']; subst. inversion F' as [|? ? Fb F'']; subst.
    inversion S as [|? ? S' H]; subst. rewrite keepm_cons by auto. cbn [mask].
    destruct (neqb a b) eqn:E; cbn [negb]; [now apply IH|]. constructor; [now apply IH|].
    apply Forall_forall. intros x Hx. apply mask_incl in Hx.
    assert (gt a b) as G by (apply neq_gt; auto using fin_notnan_; now inversion H).
    destruct Hx as [<-|Hx]; auto. inversion S' as [|? ? _ Hb]; subst. eapply Forall_forall in Hb; eauto.
    eapply gt_ge_trans; eauto.
  Qed.

  Lemma neqb_refl_ (a : T) : nisnan a = false -> neqb a a = true.
  Proof. intros. now rewrite eqb_leb_, leb_refl_. Qed.
  Lemma neqb_trans_ (a b c : T) : neqb a b = true -> neqb b c = true -> neqb a c = true.
  Proof.
    rewrite !eqb_leb_, !andb_true_iff. intros [] []. split; eapply leb_trans_; eauto.
  Qed.

  Lemma keep_complete s x : fins s -> In x s -> exists t, In t (mask (keepm s) s) /\ neqb x t = true.
  Proof.
    revert x. induction s as [|a [|b l] IH]; intros x F H; [contradiction| |].
    - exists a. destruct H as [->|[]]. inversion F; subst. split; [now left|]. now apply neqb_refl_, fin_notnan_.
    - inversion F as [|? ? Fa F']; subst. inversion F' as [|? ? Fb F'']; subst.
      rewrite keepm_cons by auto. cbn [mask]. destruct (neqb a b) eqn:E; cbn [negb].
      + destruct H as [->|H]; [|now apply IH]. destruct (IH b F' (or_introl eq_refl)) as (t & I & Q).
        exists t; split; auto. eapply neqb_trans_; eauto.
      + destruct H as [->|H]; [exists x; split; [now left|now apply neqb_refl_, fin_notnan_]|].
        destruct (IH x F' H) as (t & I & Q). exists t; split; auto. now right.
  Qed.

  Lemma keep_nonempty s : s <> [] -> mask (keepm s) s <> [].
  Proof.
    intros N. assert (exists k b, s = k ++ [b] /\ True) as (k & b & -> & _).
    { destruct (exists_last N) as (k & b & ->). now exists k, b. }
    unfold keepm. rewrite mask_app, map_length, diff_length, app_length. cbn [length].
    replace (length k + 1 - 1)%nat with (length k + 0)%nat by lia.
    rewrite skipn_app, skipn_all2 by lia. replace (length k + 0 - length k)%nat with 0%nat by lia. cbn.
    intros H. destruct (mask _ _); discriminate.
  Qed.

  Lemma keep_last s : s <> [] -> forall d d', last (mask (keepm s) s) d = last s d'.
  Proof.
    intros N d d'. destruct (exists_last N) as (k & b & ->).
    unfold keepm. rewrite mask_app, map_length, diff_length, app_length. cbn [length].
    replace (length k + 1 - 1)%nat with (length k + 0)%nat by lia.
    rewrite skipn_app, skipn_all2 by lia. replace (length k + 0 - length k)%nat with 0%nat by lia. cbn.
    now rewrite !last_last.
  Qed.

  (** ** The prefix at a threshold position is the set of samples at or above it *)
  Lemma keep_prefixes {A} (z : list A) : forall s pre, length s = length z -> fins (map fst pre ++ s) ->
    StronglySorted ge (map fst pre ++ s) ->
    mask (keepm s) (prefixes_from pre (combine s z)) =
    map (fun t => filter (fun p => nleb t (fst p)) (pre ++ combine s z)) (mask (keepm s) s).
  Proof.
    induction z as [|c z IH]; intros [|a s] pre L F S; try discriminate; [reflexivity|].
    assert (forall x, In x (map fst pre) -> ge x a) as Hpre.
    { intros x Hx. clear -S Hx. induction pre as [|p pre IHp]; [contradiction|]. cbn in *.
      inversion S as [|? ? S' H]; subst. destruct Hx as [<-|Hx]; auto.
      eapply Forall_forall in H; [exact H|]. apply in_app_iff. right. now left. }
    assert (fins (a :: s) /\ StronglySorted ge (a :: s)) as [Fs Ss].
    { clear -F S. induction pre as [|p pre IHp]; cbn in *; auto. inversion F; inversion S; subst; auto. }
    assert (forall t, ge a t -> filter (fun p : T * A => nleb t (fst p)) pre = pre) as Fpre.
    { intros t Ht. clear -Hpre Ht OK. induction pre as [|p pre IHp]; cbn; auto.
      assert (ge (fst p) t) as G by (eapply ge_trans; [apply Hpre; now left|auto]). unfold ge in G. rewrite G.
      f_equal. apply IHp. intros; apply Hpre; now right. }
    inversion Fs as [|? ? Fa Fs']; subst. pose proof (leb_refl_ a (fin_notnan_ _ Fa)) as Raa.
    cbn [combine prefixes_from]. destruct s as [|b s].
    - destruct z; [|discriminate]. cbn. rewrite filter_app, Fpre by exact Raa. cbn. now rewrite Raa.
    - inversion Fs' as [|? ? Fb Fs'']; subst. inversion Ss as [|? ? Ss' Hs]; subst.
      rewrite keepm_cons by auto. cbn [mask].
      assert (mask (keepm (b :: s)) (prefixes_from (pre ++ [(a, c)]) (combine (b :: s) z)) =
        map (fun t => filter (fun p => nleb t (fst p)) (pre ++ (a, c) :: combine (b :: s) z)) (mask (keepm (b :: s)) (b :: s))) as K.
      { rewrite IH; [now rewrite <- app_assoc|now inversion L| |]; rewrite map_app, <- app_assoc; assumption. }
      destruct (neqb a b) eqn:E; cbn [negb]; [exact K|]. cbn [map]. rewrite K. f_equal.
      rewrite filter_app, Fpre by exact Raa. cbn [filter fst]. rewrite Raa. f_equal. f_equal.
      assert (gt a b) as G by (apply neq_gt; auto using fin_notnan_; now inversion Hs).
      assert (forall p, In p (combine (b :: s) z) -> nleb a (fst p) = false) as Hn.
      { intros [x v] Hp. apply in_combine_l in Hp. apply gt_not_le. cbn.
        destruct Hp as [<-|Hp]; auto. inversion Ss' as [|? ? _ Hb]; subst. eapply Forall_forall in Hb; eauto.
        eapply gt_ge_trans; eauto. }
      clear -Hn. induction (combine (b :: s) z) as [|p l IHl]; cbn; auto. rewrite Hn by now left.
      apply IHl. intros; apply Hn; now right.
  Qed.
End Srt.
