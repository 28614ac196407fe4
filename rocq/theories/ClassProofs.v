(** Decisions and losses of classification.py in closed form *)
From Coq Require Import Reals Lra Lia.
From Verif Require Import PyBase ListLemmas F64 Num NumOk Util UtilProofs BootUtil BootProofs5 PerfCurves PerfProofs4 CurveBoot
  MLPaper MLProofs2 MLProofs3 Classification.
Open Scope R_scope.

(** ** argmin *)
Section Argmin.
  Context {T : Type} {NT : num T} {OK : num_ok NT}.
  Implicit Types l : list T.

  Lemma argmin_loop_spec l : Forall (fun x => nisnan x = false) l -> forall pre mp best,
    nisnan mp = false -> (best < length pre)%nat -> nth best pre n0 = mp ->
    (forall j, (j < length pre)%nat -> nleb mp (nth j pre n0) = true) ->
    (forall j, (j < best)%nat -> nltb mp (nth j pre n0) = true) ->
    let r := argmin_loop mp best (length pre) l in
    let full := pre ++ l in
    (r < length full)%nat /\
    (forall j, (j < length full)%nat -> nleb (nth r full n0) (nth j full n0) = true) /\
    (forall j, (j < r)%nat -> nltb (nth r full n0) (nth j full n0) = true).
  Proof.
    induction l as [|a l IH]; intros F pre mp best NM B E H1 H2.
    - cbn. rewrite app_nil_r, E. auto.
    - inversion F as [|? ? Na F']; subst. cbn [argmin_loop].
      assert (length (pre ++ [a]) = S (length pre)) as LA by (rewrite app_length; cbn; lia).
      replace (pre ++ a :: l) with ((pre ++ [a]) ++ l) by (now rewrite <- app_assoc).
      destruct (nleb (nth best pre n0) a) eqn:La.
      + rewrite <- LA. apply IH; auto; try (rewrite LA; lia).
        * now rewrite app_nth1.
        * intros j Hj. destruct (lt_dec j (length pre)) as [Lj|Lj].
          -- rewrite app_nth1 by lia. auto.
          -- replace j with (length pre) by lia. rewrite app_nth2, Nat.sub_diag by lia. exact La.
        * intros j Hj. rewrite app_nth1 by lia. auto.
      + rewrite Na. rewrite <- LA.
        assert (nltb a (nth best pre n0) = true) as LT by (rewrite ltb_leb_ by auto; now rewrite La).
        apply IH; auto; try (rewrite LA; lia).
        * now rewrite app_nth2, Nat.sub_diag by lia.
        * intros j Hj. destruct (lt_dec j (length pre)) as [Lj|Lj].
          -- rewrite app_nth1 by lia. eapply leb_trans_; [|apply H1; lia]. now apply lt_le.
          -- replace j with (length pre) by lia. rewrite app_nth2, Nat.sub_diag by lia. now apply leb_refl_.
        * intros j Hj. rewrite app_nth1 by lia. eapply lt_le_trans; [exact LT|apply H1; lia].
  Qed.

  (** no NaN: the first minimum *)
  Lemma argmin_spec l r : argmin l = Ok r -> Forall (fun x => nisnan x = false) l ->
    (r < length l)%nat /\
    (forall j, (j < length l)%nat -> nleb (nth r l n0) (nth j l n0) = true) /\
    (forall j, (j < r)%nat -> nltb (nth r l n0) (nth j l n0) = true).
  Proof.
    destruct l as [|a l]; [discriminate|]. intros H F. apply Ok_inj in H. inversion F as [|? ? Na F']; subst.
    rewrite Na. refine (argmin_loop_spec l F' [a] a 0 Na _ eq_refl _ _); cbn; try lia.
    intros j Hj. replace j with 0%nat by lia. now apply leb_refl_.
  Qed.
  Lemma argmin_total l : l <> [] -> exists r, argmin l = Ok r.
  Proof. destruct l; [congruence|]. cbn. eauto. Qed.

  Lemma argmin_loop_lt l : forall mp best i, (best < i)%nat -> (argmin_loop mp best i l < i + length l)%nat.
  Proof.
    induction l as [|a l IH]; intros mp best i H; cbn [argmin_loop length]; [lia|].
    destruct (nleb mp a); [specialize (IH mp best (S i)); lia|].
    destruct (nisnan a); [lia|]. specialize (IH a i (S i)). lia.
  Qed.
  Lemma argmin_lt l r : argmin l = Ok r -> (r < length l)%nat.
  Proof.
    destruct l as [|a l]; [discriminate|]. intros H. apply Ok_inj in H. subst r.
    destruct (nisnan a); cbn [length]; [lia|]. pose proof (argmin_loop_lt l a 0 1). lia.
  Qed.
End Argmin.

(** ** Rows of log probabilities *)
Definition ok_row (L : nat) (row : list xr) : Prop := length row = L /\ Forall logp row.
(** a normalised row *)
Definition dist (L : nat) (row : list xr) : Prop := ok_row L row /\ Rsum (map pr row) = 1.

Lemma exp_row row : Forall logp row -> map xexp row = map Fin (map pr row).
Proof.
  intros F. rewrite map_map. apply map_ext_Forall. eapply Forall_impl; [|exact F].
  intros [x| | |]; cbn; intros; try contradiction; reflexivity.
Qed.

(** the cells of a real matrix *)
Definition cellR (mat : list (list R)) (y a : nat) : R := nth a (nth y mat []) 0.
(** expected loss of action [a] *)
Definition risk (p : list R) (mat : list (list R)) (a : nat) : R := Rsum (map2 Rmult p (map (fun r => nth a r 0) mat)).

Lemma nth_Fin a r : nth a (map Fin r) (Fin 0) = Fin (nth a r 0).
Proof. apply map_nth. Qed.

Lemma expected_losses_fin row mat n : Forall logp row ->
  expected_losses (map xexp row) (map (map Fin) mat) n = map Fin (map (risk (map pr row) mat) (seq 0 n)).
Proof.
  intros F. unfold expected_losses. rewrite exp_row by exact F. rewrite (map_map (risk (map pr row) mat) Fin). apply map_ext. intros a.
  unfold column_of. rewrite (map_map (map Fin) (fun r => nth a r n0)).
  rewrite (map_ext _ (fun r => Fin (nth a r 0))) by (intros; apply nth_Fin).
  rewrite <- (map_map (fun r => nth a r 0) Fin), map2_fin, nsum_fin. reflexivity.
Qed.

Section Exact.
  Context (sf ppf : Z -> R -> R).
  Local Instance FX : fn xr := fn_xr sf ppf.

  Definition best_action (n : nat) (r : nat -> R) (a : nat) : Prop :=
    (a < n)%nat /\ (forall b, (b < n)%nat -> r a <= r b) /\ (forall b, (b < a)%nat -> r a < r b).

  Lemma best_action_unique n r a b : best_action n r a -> best_action n r b -> a = b.
  Proof.
    intros (A1 & A2 & A3) (B1 & B2 & B3).
    destruct (lt_eq_lt_dec a b) as [[H|H]|H]; auto.
    - specialize (B3 a H). specialize (A2 b B1). lra.
    - specialize (A3 b H). specialize (B2 a A1). lra.
  Qed.

  Lemma argmin_fin (f : nat -> R) n a : argmin (map Fin (map f (seq 0 n))) = Ok a -> best_action n f a.
  Proof.
    intros H. apply argmin_spec in H; [|apply Forall_forall; intros x Hx; apply in_map_iff in Hx as (? & <- & _); reflexivity].
    rewrite !map_length, seq_length in H. destruct H as (H1 & H2 & H3).
    assert (forall j, (j < n)%nat -> nth j (map Fin (map f (seq 0 n))) (Fin 0) = Fin (f j)) as N.
    { intros j Hj. rewrite nth_Fin. f_equal. rewrite (nth_indep _ 0 (f 0%nat)) by (rewrite map_length, seq_length; lia).
      rewrite map_nth, seq_nth by lia. reflexivity. }
    split; [exact H1|]. split.
    - intros b Hb. specialize (H2 b Hb). cbn [n0 xr_num] in H2. rewrite !N in H2 by lia. now apply Rleb_spec.
    - intros b Hb. specialize (H3 b Hb). cbn [n0 xr_num] in H3. rewrite !N in H3 by lia. now apply Rltb_spec.
  Qed.

  Lemma decide_row row mat n : Forall logp row -> (1 <= n)%nat ->
    exists a, argmin (expected_losses (map nexp row) (map (map Fin) mat) n) = Ok a /\ best_action n (risk (map pr row) mat) a.
  Proof.
    intros F N. change (map nexp row) with (map xexp row). rewrite expected_losses_fin by exact F.
    destruct (argmin_total (map Fin (map (risk (map pr row) mat) (seq 0 n)))) as (a & A).
    - destruct n; [lia|]. discriminate.
    - exists a. split; [exact A|]. now apply argmin_fin.
  Qed.

  Lemma decide_exact m mat n : Forall (ok_row (length mat)) m -> (1 <= n)%nat ->
    exists acts, hard_loss_decision m (length mat) (map (map Fin) mat) n = Ok acts /\
      Forall2 (fun row a => best_action n (risk (map pr row) mat) a) m acts.
  Proof.
    intros F N. unfold hard_loss_decision. rewrite map_length, Nat.eqb_refl. cbn [negb].
    induction m as [|row m IH].
    - exists []. split; [reflexivity|constructor].
    - inversion F as [|? ? (_ & Fr) F']; subst. destruct (IH F') as (acts & A & B).
      destruct (decide_row row mat n Fr N) as (a & A1 & B1). exists (a :: acts). split; [|now constructor].
      cbn [mapM]. rewrite A1. cbn [bind]. rewrite A. reflexivity.
  Qed.

End Exact.

(** ** 0-1 loss *)
Definition zero_one_R (n : nat) : list (list R) :=
  map (fun i => map (fun j => if (i =? j)%nat then 0 else 1) (seq 0 n)) (seq 0 n).
Lemma zero_one_fin n : zero_one n = map (map Fin) (zero_one_R n).
Proof.
  unfold zero_one, zero_one_R. rewrite map_map. apply map_ext. intros i. rewrite map_map. apply map_ext. intros j.
  destruct (i =? j)%nat; cbn; f_equal; lra.
Qed.
Lemma zero_one_length n : length (zero_one_R n) = n.
Proof. unfold zero_one_R. now rewrite map_length, seq_length. Qed.
Lemma nth_map_seq {A} (f : nat -> A) n k d : (k < n)%nat -> nth k (map f (seq 0 n)) d = f k.
Proof. intros H. rewrite (nth_indep _ d (f 0%nat)) by (rewrite map_length, seq_length; lia). now rewrite map_nth, seq_nth. Qed.
Lemma zero_one_cell n y a : (y < n)%nat -> (a < n)%nat -> cellR (zero_one_R n) y a = if (y =? a)%nat then 0 else 1.
Proof. intros H1 H2. unfold cellR, zero_one_R. now rewrite !nth_map_seq. Qed.

(** [map2] over the indices *)
Lemma map2_seq {A B C} (f : A -> B -> C) l m da db : length l = length m ->
  map2 f l m = map (fun k => f (nth k l da) (nth k m db)) (seq 0 (length l)).
Proof.
  revert m. induction l as [|a l IH]; intros [|b m] H; try discriminate; [reflexivity|].
  cbn [map2 length seq map nth]. f_equal. rewrite <- seq_shift, map_map. apply IH. now injection H.
Qed.
Lemma nth_all {A} (l : list A) d : map (fun k => nth k l d) (seq 0 (length l)) = l.
Proof.
  induction l as [|a l IH]; [reflexivity|]. cbn [length seq map nth]. f_equal. rewrite <- seq_shift, map_map. exact IH.
Qed.

Lemma risk_sum p mat a : length p = length mat ->
  risk p mat a = Rsum (map (fun y => nth y p 0 * cellR mat y a) (seq 0 (length p))).
Proof.
  intros H. unfold risk. rewrite (map2_seq _ _ _ 0 0) by (now rewrite map_length). f_equal. apply map_ext_in.
  intros y Hy. f_equal. apply in_seq in Hy. unfold cellR.
  rewrite (nth_indep _ 0 (nth a [] 0)) by (rewrite map_length; lia). now rewrite (map_nth (fun r => nth a r 0)).
Qed.

Lemma Rsum_delta (f : nat -> R) n a : (a < n)%nat -> Rsum (map (fun k => if (k =? a)%nat then f k else 0) (seq 0 n)) = f a.
Proof.
  assert (forall s, Rsum (map (fun k => if (k =? a)%nat then f k else 0) (seq s n)) =
    if ((s <=? a) && (a <? s + n))%nat then f a else 0) as G.
  { induction n as [|n IH]; intros s; cbn [seq map].
    - destruct (s <=? a)%nat eqn:E1, (a <? s + 0)%nat eqn:E2; cbn [andb]; auto.
      apply Nat.leb_le in E1. apply Nat.ltb_lt in E2. lia.
    - rewrite Rsum_cons, IH. destruct (Nat.eqb_spec s a) as [->|N].
      + replace (a <=? a)%nat with true by (symmetry; apply Nat.leb_le; lia).
        replace (a <? a + S n)%nat with true by (symmetry; apply Nat.ltb_lt; lia).
        replace (S a <=? a)%nat with false by (symmetry; apply Nat.leb_gt; lia). cbn. lra.
      + replace ((s <=? a) && (a <? s + S n))%nat with ((S s <=? a) && (a <? S s + n))%nat; [lra|].
        apply eq_true_iff_eq. rewrite !Bool.andb_true_iff, !Nat.leb_le, !Nat.ltb_lt. lia. }
  intros H. rewrite G. replace ((0 <=? a) && (a <? 0 + n))%nat with true; [reflexivity|].
  symmetry. apply Bool.andb_true_iff. rewrite Nat.leb_le, Nat.ltb_lt. lia.
Qed.

Lemma risk_zero_one p a : (a < length p)%nat -> risk p (zero_one_R (length p)) a = Rsum p - nth a p 0.
Proof.
  intros H. rewrite risk_sum by (now rewrite zero_one_length).
  rewrite (Rsum_map_ext _ (fun y => nth y p 0 + (-1) * (if (y =? a)%nat then nth y p 0 else 0))).
  - rewrite Rsum_map_plus, Rsum_map_mult, (Rsum_delta (fun y => nth y p 0)) by exact H. rewrite nth_all. lra.
  - intros y Hy. apply in_seq in Hy. rewrite zero_one_cell by lia. destruct (y =? a)%nat; lra.
Qed.

Definition first_mode (p : list R) (a : nat) : Prop :=
  (a < length p)%nat /\ (forall b, (b < length p)%nat -> nth b p 0 <= nth a p 0) /\ (forall b, (b < a)%nat -> nth b p 0 < nth a p 0).

Lemma best_zero_one p a : best_action (length p) (risk p (zero_one_R (length p))) a -> first_mode p a.
Proof.
  intros (A1 & A2 & A3). split; [exact A1|]. split.
  - intros b Hb. specialize (A2 b Hb). rewrite !risk_zero_one in A2 by lia. lra.
  - intros b Hb. specialize (A3 b Hb). rewrite !risk_zero_one in A3 by lia. lra.
Qed.

(** ** hard_loss *)
Definition valid_y (kd : dkind) (y : list Z) (n L : nat) : Prop :=
  (1 <= n)%nat /\ (1 <= L)%nat /\ length y = n /\ (kd = Kb \/ kd = Ki) /\ Forall (fun v => (0 <= v < Z.of_nat L)%Z) y.
Lemma validate_iff {A} kd y (m : list (list A)) L :
  shape_and_validate kd y m L = Ok (Z.of_nat (length m), Z.of_nat L) <-> valid_y kd y (length m) L.
Proof.
  unfold shape_and_validate, valid_y.
  destruct (Z.leb_spec 1 (Z.of_nat (length m))); cbn [py_assert bind]; [|split; [discriminate|intros (?&_); lia]].
  destruct (Z.leb_spec 1 (Z.of_nat L)); cbn [py_assert bind]; [|split; [discriminate|intros (_&?&_); lia]].
  destruct (Z.eqb_spec (Z.of_nat (length y)) (Z.of_nat (length m))); cbn [andb py_assert bind];
    [|split; [discriminate|intros (_&_&?&_); lia]].
  assert (forallb (fun v => (0 <=? v)%Z) y && forallb (fun v => (v <? Z.of_nat L)%Z) y = true <->
    Forall (fun v => (0 <= v < Z.of_nat L)%Z) y) as FB.
  { rewrite Bool.andb_true_iff, !forallb_forall, Forall_forall. split.
    - intros [G1 G2] v Hv. specialize (G1 v Hv). specialize (G2 v Hv). apply Z.leb_le in G1. apply Z.ltb_lt in G2. lia.
    - intros G. split; intros v Hv; specialize (G v Hv); [apply Z.leb_le|apply Z.ltb_lt]; lia. }
  destruct kd; cbn [dkind_eqb orb py_assert bind]; try (split; [discriminate|intros (_&_&_&[?|?]&_); discriminate]).
  all: destruct (forallb _ y && forallb _ y); cbn [py_assert bind].
  all: try (split; intros _; [|reflexivity]; repeat split; auto; try lia; now apply FB).
  all: split; [discriminate|]; intros (_&_&_&_&G); apply FB in G; discriminate.
Qed.
Lemma validate_ok {A} kd y (m : list (list A)) L sh : shape_and_validate kd y m L = Ok sh -> valid_y kd y (length m) L.
Proof.
  intros H. apply validate_iff. rewrite H. f_equal. revert H. unfold shape_and_validate.
  repeat (match goal with |- context [py_assert ?b] => destruct b end; cbn [py_assert bind]; [|discriminate]).
  congruence.
Qed.
Lemma validate_err {A} kd y (m : list (list A)) L : ~ valid_y kd y (length m) L -> shape_and_validate kd y m L = Err AssertionError.
Proof.
  intros H. destruct (shape_and_validate kd y m L) eqn:E; [exfalso; apply H; eapply validate_ok; exact E|].
  revert E. unfold shape_and_validate.
  repeat (match goal with |- context [py_assert ?b] => destruct b end; cbn [py_assert bind]; [|congruence]).
  discriminate.
Qed.
