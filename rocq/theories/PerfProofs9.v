(** The counts in IEEE doubles: the unweighted curves never fail, and integer
    weights act as repetition. *)
From Coq Require Import Reals Lra Lia List Sorted Bool Permutation.
From Flocq Require Import Core BinarySingleNaN.
From Verif Require Import PyBase F64 F64Lemmas Num NumOk Util UtilProofs ListLemmas UtilProofs2 BootProofs2 BootProofs4
  PerfCurves PerfProofs PerfProofs2 PerfProofs7 PerfProofs8 SumProofs.
Open Scope R_scope.
Open Scope list_scope.

(** zero, or well inside the range of doubles *)
Definition mid (x : f64) : Prop := nn x /\ (B2R x = 0 \/ P2 (-160) <= B2R x <= P2 160).

Lemma mid_sane x : mid x -> sane x.
Proof.
  intros [N [E|[L U]]]; split; auto. right. split.
  - apply Rle_trans with (P2 (-160)); auto. apply bpow_le. lia.
  - apply Rle_trans with (P2 160); auto. apply bpow_le. lia.
Qed.
Lemma mid_nn x : mid x -> nn x.
Proof. now intros []. Qed.

Definition EPS : f64 := EPSILON.
Lemma EPS_val : nn EPS /\ P2 (-34) <= B2R EPS <= P2 (-33).
Proof.
  destruct f1_val as [V1 N1].
  destruct (f_of_Z_correct (10 ^ 10)) as [Vt Ft]; [cbn; lia|].
  assert (0 < B2R (f_of_Z (10 ^ 10))) as P by (rewrite Vt; apply (IZR_lt 0); reflexivity).
  assert (nn (f_of_Z (10 ^ 10))) as Nt by (apply nn_pos; auto).
  destruct (ratio _ _ N1 Nt P) as (N & V & _); [rewrite V1, Vt; apply (IZR_le 1); cbn; lia|].
  change EPS with (fdiv (f_of_Z 1) (f_of_Z (10 ^ 10))). split; auto. rewrite V, V1, Vt.
  assert (P2 (-34) <= 1 / IZR (10 ^ 10) <= P2 (-33)) as B.
  { rewrite !bpow_powerRZ. change (IZR radix2) with 2. unfold powerRZ. cbn -[IZR]. simpl Z.pow. simpl. lra. }
  split; [apply rnd64_ge|apply rnd64_le]; try apply B; apply format64_pow; lia.
Qed.

Lemma EPS_mul x : mid x -> sane (fmul EPS x) /\ B2R (fmul EPS x) = rnd64 (B2R EPS * B2R x) /\ (0 < B2R x -> 0 < B2R (fmul EPS x)).
Proof.
  intros M. destruct EPS_val as [Ne [Le Ue]]. pose proof (nn_ge0 _ (mid_nn _ M)) as G.
  assert (0 < B2R EPS) as Pe by (eapply Rlt_le_trans; [apply (bpow_gt_0 radix2 (-34))|auto]).
  assert (B2R x <= P2 160) as U by (destruct M as [_ [->|[_ U]]]; [apply bpow_ge_0|auto]).
  assert (B2R EPS * B2R x <= P2 127) as Um.
  { change 127%Z with (-33 + 160)%Z. rewrite bpow_plus. apply Rmult_le_compat; lra. }
  destruct (fmul_nn EPS x Ne (mid_nn _ M)) as [N V].
  { apply Rle_trans with (P2 127); auto. apply bpow_le; lia. }
  assert (0 < B2R x -> P2 (-194) <= B2R (fmul EPS x)) as L.
  { intros P. rewrite V. apply rnd64_ge; [apply format64_pow; lia|]. change (-194)%Z with (-34 + -160)%Z. rewrite bpow_plus.
    apply Rmult_le_compat; try apply bpow_ge_0; auto. destruct M as [_ [E|[L _]]]; [lra|auto]. }
  split; [|split; auto].
  - split; auto. destruct (Req_dec (B2R x) 0) as [E|E].
    + left. rewrite V, E, Rmult_0_r. apply rnd64_0.
    + right. split.
      * apply Rle_trans with (P2 (-194)); [apply bpow_le; lia|apply L; lra].
      * rewrite V. apply rnd64_le; [apply format64_pow; lia|]. apply Rle_trans with (P2 127); auto. apply bpow_le. lia.
  - intros P. eapply Rlt_le_trans; [apply (bpow_gt_0 radix2 (-194))|auto].
Qed.

Lemma EPS_f0 : fmul EPS f0 = f0.
Proof.
  assert (mid f0) as M by (split; [apply nn_f0|left; reflexivity]).
  destruct (EPS_mul f0 M) as ([N _] & V & _). apply nn_zero; [exact N|]. rewrite V. change (B2R64 f0) with 0.
  rewrite Rmult_0_r. apply rnd64_0.
Qed.

Lemma EPS_mono x y : mid x -> mid y -> rle x y -> rle (fmul EPS x) (fmul EPS y).
Proof.
  intros Mx My L. unfold rle. destruct (EPS_mul x Mx) as (_ & -> & _). destruct (EPS_mul y My) as (_ & -> & _).
  apply rnd64_mono. destruct EPS_val as [Ne _]. apply nn_ge0 in Ne. now apply Rmult_le_compat_l.
Qed.

Lemma max_acc_id l a : nn a -> Forall nn l -> StronglySorted rle (a :: l) -> max_acc_from a l = l.
Proof.
  revert a. induction l as [|b l IH]; intros a Na Nl S; [reflexivity|]. cbn [max_acc_from].
  inversion Nl as [|? ? Nb Nl']; subst. apply StronglySorted_inv in S as [S F]. inversion F as [|? ? L F']; subst.
  assert (nmax a b = b) as ->.
  { unfold nmax. cbn [nleb nisnan f64_num]. destruct (fleb b a || fisnan a) eqn:E; auto.
    assert (fisnan a = false) as E1 by (apply fisfin_notnan, Na). rewrite E1, orb_false_r in E.
    apply fleb_fin in E; [|apply Nb|apply Na]. apply nn_eq; auto. unfold rle in L. lra. }
  f_equal. apply IH; auto.
Qed.

Lemma rle_sorted_le l : Forall nn l -> StronglySorted rle l -> StronglySorted le l.
Proof.
  intros N S. induction S as [|a l S IH F]; constructor; inversion N; subst; auto.
  apply Forall_forall. intros b Hb. rewrite Forall_forall in F. apply fleb_fin; [apply H1| |now apply F].
  rewrite Forall_forall in H2. apply (H2 b Hb).
Qed.

Lemma rle_diff l : Forall nn l -> StronglySorted rle l -> forallb (nleb n0) (diff l) = true.
Proof.
  intros N S. apply (diff_sorted_nonneg (NT := f64_num)); [|now apply rle_sorted_le].
  eapply Forall_impl; [|exact N]. intros a [F _]. exact F.
Qed.

Definition raw_row (f t : list f64) : Prop :=
  length f = length t /\ f <> [] /\ Forall mid f /\ Forall mid t /\
  StronglySorted rle (f0 :: f) /\ StronglySorted rle (f0 :: t) /\
  Forall2 (fun a b => 0 < B2R a \/ 0 < B2R b) f t.

Lemma sorted_eps l : Forall mid l -> StronglySorted rle l -> StronglySorted rle (map (fmul EPS) l).
Proof.
  intros M S. induction S as [|a l S IH F]; cbn [map]; constructor; inversion M; subst; auto.
  apply Forall_forall. intros b Hb. apply in_map_iff in Hb as (c & <- & Hc). rewrite Forall_forall in F, H2.
  apply EPS_mono; auto.
Qed.

Lemma mid_f0 : mid f0.
Proof. split; [apply nn_f0|left; reflexivity]. Qed.

Lemma feqb_f0 x : nn x -> feqb x f0 = true <-> B2R x = 0.
Proof. intros [F _]. rewrite feqb_fin by (auto; reflexivity). reflexivity. Qed.

Lemma all_zero l x : Forall mid l -> StronglySorted rle (f0 :: l) -> B2R (last l f0) = 0 -> In x l -> B2R x = 0.
Proof.
  intros M S Z I. pose proof (sorted_last_ge (f0 :: l) x S (or_intror I)) as L.
  rewrite last_cons_f0 in L by (intros ->; contradiction). unfold rle in L.
  rewrite Forall_forall in M. pose proof (nn_ge0 _ (mid_nn _ (M x I))). lra.
Qed.

(** ** Lines 122-135 on one row *)

Lemma row_eps f : Forall mid f -> f <> [] -> StronglySorted rle (f0 :: f) -> 0 < B2R (last f f0) ->
  let g := map (fmul EPS) f in
  map (fmul EPS) (f0 :: f) = f0 :: g /\ length g = length f /\ Forall sane g /\ StronglySorted rle (f0 :: g) /\
  0 < B2R (last g f0).
Proof.
  intros M N S P g. split; [cbn [map]; now rewrite EPS_f0|]. split; [apply map_length|].
  split; [|split].
  - apply Forall_forall. intros x Hx. apply in_map_iff in Hx as (a & <- & Ha). rewrite Forall_forall in M. apply EPS_mul; auto.
  - rewrite <- EPS_f0. apply (sorted_eps (f0 :: f)); auto. constructor; auto using mid_f0.
  - unfold g. rewrite (last_map _ _ f0 f0) by auto. rewrite Forall_forall in M. apply EPS_mul; auto. apply M. now apply last_in.
Qed.

Lemma sane_nns l : Forall sane l -> Forall nn (f0 :: l).
Proof. intros H. constructor; [apply nn_f0|]. eapply Forall_impl; [|exact H]. apply sane_nn. Qed.

Lemma out_good f t : good_row f t ->
  forallb (nleb n0) (diff (max_accumulate (f0 :: f))) = true /\ forallb (nleb n0) (diff (f0 :: t)) = true /\
  nltb n0 (lastn (f0 :: f)) = true /\ nltb n0 (lastn (f0 :: t)) = true /\ max_accumulate (f0 :: f) = f0 :: f.
Proof.
  intros G. destruct (good_facts f t G) as (Nt & Sp & Sn & _). destruct G as [L N Sf St Ff Ft Fl Tl Z].
  pose proof (sane_nns _ Sf) as Nf. pose proof (sane_nns _ St) as Ntt.
  assert (max_accumulate (f0 :: f) = f0 :: f) as E.
  { cbn [max_accumulate]. f_equal. apply max_acc_id; auto; [apply nn_f0|]. now inversion Nf. }
  rewrite E. split; [now apply rle_diff|]. split; [now apply rle_diff|].
  unfold lastn. change n0 with f0. rewrite !last_cons_f0 by auto.
  split; [|split; auto]; apply fltb_fin; auto; try apply Sn; try apply Sp; try reflexivity.
Qed.

Theorem finish_good f t D : raw_row f t ->
  exists f' t', finish [(f, t)] D = Ok ([f0 :: f'], [f0 :: t'], finf :: D) /\ good_row f' t' /\ length f' = length f /\
    (f' = if feqb (last f f0) f0 then map (fmul EPS) t else f) /\
    (t' = if feqb (last t f0) f0 then map (fmul EPS) f else t).
Proof.
  intros (L & N & Mf & Mt & Sf & St & Z).
  assert (t <> []) as Nt by (intros ->; destruct f; [congruence|discriminate]).
  assert (mid (last f f0)) as MLf by (eapply Forall_forall; [exact Mf|now apply last_in]).
  assert (mid (last t f0)) as MLt by (eapply Forall_forall; [exact Mt|now apply last_in]).
  pose proof (nn_ge0 _ (mid_nn _ MLf)) as Gf. pose proof (nn_ge0 _ (mid_nn _ MLt)) as Gt.
  assert (Forall sane f) as Saf by (eapply Forall_impl; [|exact Mf]; apply mid_sane).
  assert (Forall sane t) as Sat by (eapply Forall_impl; [|exact Mt]; apply mid_sane).
  assert (forall f' t', row_pseudo f t = (f0 :: f', f0 :: t') -> good_row f' t' -> finish [(f, t)] D = Ok ([f0 :: f'], [f0 :: t'], finf :: D)) as K.
  { intros f' t' E G. destruct (out_good f' t' G) as (A1 & A2 & A3 & A4 & A5).
    unfold finish. cbn [forallb map fst snd]. unfold row_ok, row_out. rewrite E. cbn [fst snd]. rewrite A1, A2, A3, A4, A5.
    reflexivity. }
  assert (forall l, l <> [] -> lastn (f0 :: l) = last l f0) as El by (intros; now apply last_cons_f0).
  destruct (feqb (last f f0) f0) eqn:Ef.
  - (* no negatives *)
    apply feqb_f0 in Ef; [|now apply mid_nn].
    assert (forall a, In a f -> B2R a = 0) as Zf by (intros a Ha; now apply (all_zero f)).
    assert (Forall (fun b => 0 < B2R b) t) as Pt.
    { clear -Z Zf. induction Z as [|a b f t H Z IH]; constructor.
      - destruct H as [H|H]; auto. rewrite (Zf a) in H by (now left). lra.
      - apply IH. intros. apply Zf. now right. }
    assert (0 < B2R (last t f0)) as Plt by (rewrite Forall_forall in Pt; apply Pt; now apply last_in).
    destruct (row_eps t Mt Nt St Plt) as (E1 & E2 & E3 & E4 & E5).
    assert (feqb (last t f0) f0 = false) as Et.
    { destruct (feqb (last t f0) f0) eqn:E; auto. apply feqb_f0 in E; [lra|now apply mid_nn]. }
    rewrite Et. exists (map (fmul EPS) t), t. split; [|split; [|split; [lia|auto]]].
    + apply K.
      * unfold row_pseudo, pseudo_row. change n0 with f0. rewrite !El by auto. cbn [neqb f64_num].
        rewrite (proj2 (feqb_f0 _ (mid_nn _ MLf)) Ef), Et. f_equal; exact E1.
      * constructor; auto; [intros Q; apply map_eq_nil in Q; contradiction|].
        clear -Pt. induction Pt; constructor; auto. intros. lra.
    + constructor; auto; [intros Q; apply map_eq_nil in Q; contradiction|].
      clear -Pt. induction Pt; constructor; auto. intros. lra.
  - assert (0 < B2R (last f f0)) as Plf.
    { destruct (Req_dec (B2R (last f f0)) 0) as [E|E]; [|lra]. apply feqb_f0 in E; [congruence|now apply mid_nn]. }
    destruct (feqb (last t f0) f0) eqn:Et.
    + (* no positives *)
      apply feqb_f0 in Et; [|now apply mid_nn].
      assert (forall b, In b t -> B2R b = 0) as Zt by (intros b Hb; now apply (all_zero t)).
      assert (Forall (fun b => 0 < B2R b) f) as Pf.
      { clear -Z Zt. induction Z as [|a b f t H Z IH]; constructor.
        - destruct H as [H|H]; auto. rewrite (Zt b) in H by (now left). lra.
        - apply IH. intros. apply Zt. now right. }
      destruct (row_eps f Mf N Sf Plf) as (E1 & E2 & E3 & E4 & E5).
      assert (good_row f (map (fmul EPS) f)) as G.
      { constructor; auto. clear -Pf. induction Pf; cbn [map]; constructor; auto. }
      exists f, (map (fmul EPS) f). split; [|split; [exact G|auto]].
      apply K; auto. unfold row_pseudo, pseudo_row. change n0 with f0. rewrite !El by auto. cbn [neqb f64_num].
      rewrite Ef, (proj2 (feqb_f0 _ (mid_nn _ MLt)) Et). f_equal; exact E1.
    + assert (good_row f t) as G.
      { constructor; auto.
        - destruct (Req_dec (B2R (last t f0)) 0) as [E|E]; [|lra]. apply feqb_f0 in E; [congruence|now apply mid_nn].
        - clear -Z. induction Z as [|a b f t [H|H] Z IH]; constructor; auto. intros. lra. }
      exists f, t. split; [|split; [exact G|auto]]. apply K; auto.
      unfold row_pseudo, pseudo_row. change n0 with f0. rewrite !El by auto. cbn [neqb f64_num]. rewrite Ef, Et. reflexivity.
Qed.

(** ** Integer counts *)

Lemma f_of_Z_nn k : (0 <= k <= 2 ^ 53)%Z -> nn (f_of_Z k) /\ B2R (f_of_Z k) = IZR k.
Proof.
  intros H. destruct (f_of_Z_correct k) as [V F]; [lia|]. split; auto.
  destruct (Z.eq_dec k 0) as [->|N].
  - split; auto.
  - apply nn_pos; auto. rewrite V. apply (IZR_lt 0). lia.
Qed.

Lemma f_of_Z_0 : f_of_Z 0 = f0.
Proof. destruct (f_of_Z_nn 0) as [N V]; [lia|]. apply nn_zero; [exact N|exact V]. Qed.

Lemma P2_53_160 : IZR (2 ^ 53) <= P2 160.
Proof. change (IZR (2 ^ 53)) with (P2 53). apply bpow_le. lia. Qed.

Lemma f_of_Z_mid k : (0 <= k <= 2 ^ 53)%Z -> mid (f_of_Z k).
Proof.
  intros H. destruct (f_of_Z_nn k H) as [N V]. split; auto. rewrite V.
  destruct (Z.eq_dec k 0) as [->|Nk]; [now left|right]. split.
  - apply Rle_trans with 1; [change 1 with (P2 0); apply bpow_le; lia|]. apply (IZR_le 1). lia.
  - apply Rle_trans with (IZR (2 ^ 53)); [apply IZR_le; lia|apply P2_53_160].
Qed.

Definition cnt_ok (s : list f64) (y : list bool) : Prop := (Z.of_nat (length y) <= 2 ^ 53)%Z.

Lemma filter_len_le {A} (p : A -> bool) l : (length (filter p l) <= length l)%nat.
Proof. induction l as [|a l IH]; cbn; auto. destruct (p a); cbn; lia. Qed.

Lemma filter_len_mono {A} (p q : A -> bool) l : (forall a, In a l -> p a = true -> q a = true) ->
  (length (filter p l) <= length (filter q l))%nat.
Proof.
  induction l as [|a l IH]; intros H; cbn; auto. specialize (IH (fun x Hx => H x (or_intror Hx))).
  destruct (p a) eqn:P; [rewrite (H a (or_introl eq_refl) P); cbn; lia|]. destruct (q a); cbn; lia.
Qed.

Lemma cntZ_bound (s : list f64) y p t : (0 <= cntZ s y p t <= Z.of_nat (length y))%Z.
Proof.
  unfold cntZ. split; [lia|]. pose proof (filter_len_le (fun q => nleb t (fst q) && p (snd q)) (combine s y)).
  rewrite combine_length in H. lia.
Qed.

Lemma cntZ_anti (s : list f64) y p t t' : fleb t' t = true -> (cntZ s y p t <= cntZ s y p t')%Z.
Proof.
  intros L. unfold cntZ. apply inj_le, filter_len_mono. intros q _ H. apply andb_true_iff in H as [A B].
  apply andb_true_iff. split; auto. cbn [nleb f64_num] in *. eapply fleb_trans; eauto.
Qed.

Lemma cntZ_some (s : list f64) y t : length s = length y -> In t s -> fisfin t = true ->
  (1 <= cntZ s y negb t + cntZ s y (fun b => b) t)%Z.
Proof.
  intros L I F. unfold cntZ. apply In_nth_error in I as [i Ei].
  assert (exists b, nth_error y i = Some b) as [b Eb].
  { destruct (nth_error y i) eqn:E; eauto. apply nth_error_None in E. assert (i < length s)%nat by (apply nth_error_Some; congruence). lia. }
  assert (In (t, b) (combine s y)) as Q.
  { apply nth_error_In with i. rewrite nth_combine, Ei, Eb. reflexivity. }
  assert (nleb t t = true) as R by (apply fleb_refl, fisfin_notnan, F).
  assert (forall p : bool -> bool, p b = true -> (1 <= length (filter (fun q => nleb t (fst q) && p (snd q)) (combine s y)))%nat) as K.
  { intros p P. assert (In (t, b) (filter (fun q => nleb t (fst q) && p (snd q)) (combine s y))) as J.
    { apply filter_In. split; auto. cbn [fst snd]. now rewrite R, P. }
    destruct (filter _ _); [contradiction|cbn; lia]. }
  destruct b; [specialize (K (fun b => b) eq_refl)|specialize (K negb eq_refl)]; lia.
Qed.

(** any integer valued column that decreases with the threshold *)
Lemma int_row (a b : f64 -> Z) (D : list f64) M : (M <= 2 ^ 53)%Z -> D <> [] ->
  (forall t, In t D -> 0 <= a t <= M)%Z -> (forall t, In t D -> 0 <= b t <= M)%Z ->
  (forall t t', In t D -> In t' D -> fleb t' t = true -> a t <= a t' /\ b t <= b t')%Z ->
  (forall t, In t D -> 1 <= a t + b t)%Z -> StronglySorted (fun x y => fltb y x = true) D ->
  raw_row (map (fun t => f_of_Z (a t)) D) (map (fun t => f_of_Z (b t)) D).
Proof.
  intros HM N Ba Bb Mo Nz S.
  assert (forall c : f64 -> Z, (forall t, In t D -> 0 <= c t <= M)%Z -> Forall mid (map (fun t => f_of_Z (c t)) D)) as Hm.
  { intros c Bc. apply Forall_forall. intros x Hx. apply in_map_iff in Hx as (t & <- & Ht). apply f_of_Z_mid. specialize (Bc t Ht). lia. }
  assert (forall c : f64 -> Z, (forall t, In t D -> 0 <= c t <= M)%Z ->
    (forall t t', In t D -> In t' D -> fleb t' t = true -> c t <= c t')%Z ->
    StronglySorted rle (f0 :: map (fun t => f_of_Z (c t)) D)) as Hs.
  { intros c Bc Mc. constructor.
    - clear -S Bc Mc HM. induction S as [|x D S IH F]; cbn [map]; constructor.
      + apply IH; intros; [apply Bc|apply Mc]; auto; now right.
      + apply Forall_forall. intros z Hz. apply in_map_iff in Hz as (t & <- & Ht). unfold rle.
        destruct (f_of_Z_nn (c x)) as [_ ->]; [specialize (Bc x (or_introl eq_refl)); lia|].
        destruct (f_of_Z_nn (c t)) as [_ ->]; [specialize (Bc t (or_intror Ht)); lia|].
        apply IZR_le. apply Mc; [now left|now right|]. rewrite Forall_forall in F. apply fltb_fleb, F, Ht.
    - apply Forall_forall. intros z Hz. apply in_map_iff in Hz as (t & <- & Ht). unfold rle. change (B2R64 f0) with 0.
      apply nn_ge0. apply f_of_Z_nn. specialize (Bc t Ht). lia. }
  split; [now rewrite !map_length|]. split; [intros Q; apply map_eq_nil in Q; contradiction|].
  split; [now apply Hm|]. split; [now apply Hm|].
  split; [apply Hs; auto; intros; now apply Mo|]. split; [apply Hs; auto; intros; now apply Mo|].
  clear -Ba Bb Nz HM. induction D as [|t D IH]; cbn [map]; constructor.
  - specialize (Ba t (or_introl eq_refl)). specialize (Bb t (or_introl eq_refl)). specialize (Nz t (or_introl eq_refl)).
    destruct (f_of_Z_nn (a t)) as [_ ->]; [lia|]. destruct (f_of_Z_nn (b t)) as [_ ->]; [lia|].
    destruct (Z.eq_dec (a t) 0); [right|left]; apply (IZR_lt 0); lia.
  - apply IH; intros; [apply Ba|apply Bb|apply Nz]; now right.
Qed.

Lemma unweighted_raw (s : list f64) y : Forall (fun x => fisfin x = true) s -> length s = length y -> s <> [] ->
  (Z.of_nat (length y) <= 2 ^ 53)%Z ->
  raw_row (map (fun t => f_of_Z (cntZ s y negb t)) (thr s)) (map (fun t => f_of_Z (cntZ s y (fun b => b) t)) (thr s)).
Proof.
  intros F L N B. apply (int_row _ _ _ (Z.of_nat (length y))); auto; intros; try apply cntZ_bound.
  - now apply thr_nonempty.
  - split; now apply cntZ_anti.
  - assert (In t s) as I by now apply thr_in. apply cntZ_some; auto. rewrite Forall_forall in F. auto.
  - exact (thr_sorted (NT := f64_num) s F).
Qed.

Theorem clf_unweighted_f64 (s : list f64) y : Forall (fun x => fisfin x = true) s -> length s = length y -> s <> [] ->
  (Z.of_nat (length y) <= 2 ^ 53)%Z ->
  exists f t, _binary_clf_curve y s None = Ok ([f0 :: f], [f0 :: t], finf :: thr s) /\ good_rows [f0 :: f] [f0 :: t] (length (finf :: thr s)).
Proof.
  intros F L N B. rewrite (clf_unweighted (NT := f64_num)) by auto.
  destruct (finish_good _ _ (thr s) (unweighted_raw s y F L N B)) as (f & t & E & G & Len & _ & _).
  exists f, t. split; [exact E|]. constructor; [|constructor]. exists f, t. repeat split; try apply G. cbn [length].
  rewrite Len, map_length. reflexivity.
Qed.

(** *** Integer weights *)

Definition Zsum (l : list Z) : Z := fold_right Z.add 0%Z l.

Lemma fadd_Z a b : (0 <= a)%Z -> (0 <= b)%Z -> (a + b <= 2 ^ 53)%Z -> fadd (f_of_Z a) (f_of_Z b) = f_of_Z (a + b).
Proof.
  intros A B H. destruct (f_of_Z_nn a) as [Na Va]; [lia|]. destruct (f_of_Z_nn b) as [Nb Vb]; [lia|].
  destruct (f_of_Z_nn (a + b)) as [Nc Vc]; [lia|].
  assert (IZR a + IZR b <= P2 1000) as O.
  { rewrite <- plus_IZR. apply Rle_trans with (IZR (2 ^ 53)); [apply IZR_le; lia|].
    apply Rle_trans with (P2 160); [apply P2_53_160|apply bpow_le; lia]. }
  destruct (fadd_nn _ _ Na Nb) as [N V]; [now rewrite Va, Vb|]. apply nn_eq; [exact N|exact Nc|].
  rewrite V, Va, Vb, Vc, <- plus_IZR. apply rnd64_id, format64_IZR. lia.
Qed.

Lemma fsub_Z a b : (0 <= b <= a)%Z -> (a <= 2 ^ 53)%Z -> fsub (f_of_Z a) (f_of_Z b) = f_of_Z (a - b).
Proof.
  intros A H. destruct (f_of_Z_nn a) as [Na Va]; [lia|]. destruct (f_of_Z_nn b) as [Nb Vb]; [lia|].
  destruct (f_of_Z_nn (a - b)) as [Nc Vc]; [lia|].
  destruct (fsub_nn _ _ Na Nb) as [N V].
  - rewrite Va, Vb. apply IZR_le. lia.
  - rewrite Va. apply Rle_trans with (IZR (2 ^ 53)); [apply IZR_le; lia|].
    apply Rle_trans with (P2 160); [apply P2_53_160|apply bpow_le; lia].
  - apply nn_eq; [exact N|exact Nc|]. rewrite V, Va, Vb, Vc, <- minus_IZR. apply rnd64_id, format64_IZR. lia.
Qed.

Lemma fmul_b b k : (0 <= k <= 2 ^ 53)%Z -> fmul (f_of_Z (b2z b)) (f_of_Z k) = f_of_Z (b2z b * k).
Proof.
  intros H. destruct (f_of_Z_nn k H) as [Nk Vk]. destruct (f_of_Z_nn (b2z b)) as [Nb Vb]; [destruct b; cbn; lia|].
  destruct (f_of_Z_nn (b2z b * k)) as [Nc Vc]; [destruct b; cbn [b2z]; lia|].
  destruct (fmul_nn _ _ Nb Nk) as [N V].
  - rewrite Vb, Vk, <- mult_IZR. apply Rle_trans with (IZR (2 ^ 53)); [apply IZR_le; destruct b; cbn [b2z]; lia|].
    apply Rle_trans with (P2 160); [apply P2_53_160|apply bpow_le; lia].
  - apply nn_eq; [exact N|exact Nc|]. rewrite V, Vb, Vk, Vc, <- mult_IZR. apply rnd64_id, format64_IZR.
    destruct b; cbn [b2z]; lia.
Qed.

Lemma fold_Z l a : (0 <= a)%Z -> Forall (fun k => 0 <= k)%Z l -> (a + Zsum l <= 2 ^ 53)%Z ->
  fold_left fadd (map f_of_Z l) (f_of_Z a) = f_of_Z (a + Zsum l).
Proof.
  revert a. induction l as [|k l IH]; intros a A F H; cbn [map fold_left Zsum fold_right] in *.
  - now rewrite Z.add_0_r.
  - inversion F; subst. assert (0 <= Zsum l)%Z by (clear -H3; induction H3; cbn; unfold Zsum in *; lia). fold (Zsum l) in *.
    rewrite fadd_Z by lia. rewrite IH by (auto; lia). f_equal. lia.
Qed.

Lemma sum1_Z l : Forall (fun k => 0 <= k)%Z l -> (Zsum l <= 2 ^ 53)%Z -> sum1 (map f_of_Z l) = f_of_Z (Zsum l).
Proof.
  destruct l as [|k l]; intros F H; [symmetry; apply f_of_Z_0|]. inversion F; subst.
  cbn [map sum1]. apply fold_Z; auto.
Qed.
Lemma nsum_Z l : Forall (fun k => 0 <= k)%Z l -> (Zsum l <= 2 ^ 53)%Z -> nsum (map f_of_Z l) = f_of_Z (Zsum l).
Proof.
  intros F H. unfold nsum. change (@n0 f64 f64_num) with f0. rewrite <- f_of_Z_0. apply (fold_Z l 0); auto; lia.
Qed.
(* small integers are summed exactly in every order *)
Lemma Zsum_app l m : Zsum (l ++ m) = (Zsum l + Zsum m)%Z.
Proof. unfold Zsum. induction l as [|a l IH]; cbn [app fold_right]; lia. Qed.
Lemma Zsum_nn l : Forall (fun k => 0 <= k)%Z l -> (0 <= Zsum l)%Z.
Proof. unfold Zsum. induction 1; cbn [fold_right]; lia. Qed.
Lemma sums_to_Z (l : list f64) v : sums_to l v -> forall ks, l = map f_of_Z ks -> Forall (fun k => 0 <= k)%Z ks -> (Zsum ks <= 2 ^ 53)%Z ->
  v = f_of_Z (Zsum ks).
Proof.
  induction 1 as [|a|l m v w _ IHv _ IHw|l m v P _ IH]; intros ks E F H.
  - destruct ks; [|discriminate]. symmetry. apply f_of_Z_0.
  - destruct ks as [|k [|]]; try discriminate. injection E as ->. cbn. now rewrite Z.add_0_r.
  - symmetry in E. apply map_eq_app in E as (k1 & k2 & -> & <- & <-). apply Forall_app in F as [F1 F2]. rewrite Zsum_app in *.
    pose proof (Zsum_nn _ F1). pose proof (Zsum_nn _ F2). rewrite (IHv k1), (IHw k2) by (auto; lia). apply fadd_Z; lia.
  - subst m. apply Permutation_map_inv in P as (k' & -> & P'). rewrite (IH k'); auto.
    + f_equal. clear -P'. unfold Zsum. induction P'; cbn [fold_right] in *; lia.
    + now apply (Permutation_Forall P').
    + replace (Zsum k') with (Zsum ks); auto. clear -P'. unfold Zsum. induction P'; cbn [fold_right] in *; lia.
Qed.
Lemma row_sum_Z n l : Forall (fun k => 0 <= k)%Z l -> (Zsum l <= 2 ^ 53)%Z -> row_sum n (map f_of_Z l) = f_of_Z (Zsum l).
Proof. intros F H. exact (sums_to_Z _ _ (row_sums n _) l eq_refl F H). Qed.
