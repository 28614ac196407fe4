(** Loss tables in doubles: no cell fails for up to 2^30 losses of moderate
    size, except where the rounded mean leaves the limits. *)
From Coq Require Import Reals Lra Lia.
From Flocq Require Import Core BinarySingleNaN.
From Verif Require Import PyBase ListLemmas F64 F64Lemmas Num NumOk SumProofs Util UtilProofs BootUtil BootProofs2 PerfCurves MLPaper MLProofs MLProofs4 CompareProofs
  SwapProofs MeanProofs DoublesProofs.
From Verif Require Import Props_Boot Props_MLPaper.
Open Scope R_scope.

Lemma Forall_map2 {A B C} (P : A -> Prop) (Q : B -> Prop) (R : C -> Prop) (f : A -> B -> C) l m :
  (forall a b, P a -> Q b -> R (f a b)) -> Forall P l -> Forall Q m -> Forall R (map2 f l m).
Proof.
  intros H F. revert m. induction F as [|a l Pa F IH]; intros [|b m] G; cbn [map2]; try constructor; inversion G; subst; auto.
Qed.
Lemma map2_len {A B C} (f : A -> B -> C) l m : length l = length m -> length (map2 f l m) = length l.
Proof. revert m. induction l as [|a l IH]; intros [|b m] H; cbn in *; auto; try discriminate. Qed.
Lemma map_const {A B} (f : A -> B) (P : B -> Prop) l : Forall (fun a => P (f a)) l -> Forall P (map f l).
Proof. apply Forall_map. Qed.

Lemma conf_95 : conf_ok (fdiv (f_of_Z 95) (f_of_Z 100)).
Proof.
  assert (v64 (fdiv (f_of_Z 95) (f_of_Z 100)) = Fin (rnd64 (95 / 100))) as E.
  { destruct (f_of_Z_correct 95) as [V F1]; [lia|]. destruct (f_of_Z_correct 100) as [V2 F2]; [lia|].
    rewrite v64_div_fin; [|exact F1|lra]. rewrite V, V2. apply xround_ok. rewrite Rabs_pos_eq by lra. apply Rle_trans with (P2 0); [cbn; lra|apply bpow_le; lia]. }
  apply v64_Fin in E as [F E]. split; [exact F|]. rewrite E. split.
  - apply Rlt_le_trans with (P2 (-1)); [apply bpow_gt_0|]. apply rnd64_ge; [apply format_P2; lia|cbn; lra].
  - apply Rle_trans with (INR 1 * (IZR 31 * P2 (-5))).
    + apply rnd64_le; [apply small_multiple; [lia|lia|]; cbn [INR]; unfold MAXN; change 1 with (P2 0); apply bpow_le; lia|assert (P2 (-5) = / 32) as -> by reflexivity; cbn [INR]; lra].
    + assert (P2 (-52) <= P2 (-5)) by (apply bpow_le; lia). assert (P2 (-5) = / 32) as H5 by reflexivity. rewrite H5 in *. cbn [INR]. lra.
Qed.

Section Library.
  Context (fexp flog : f64 -> f64) (sf ppf : Z -> f64 -> f64) (eig : f64 -> f64 -> option (f64 * f64)) (GL : good_library fexp flog sf ppf eig).
  Notation lib := (fn_f64 fexp flog sf ppf eig).

  Lemma count_le row k : Forall (fun k => (0 <= k)%Z) row -> In k row -> (k <= fold_right Z.add 0 row)%Z.
  Proof.
    induction 1 as [|a l A F IH]; intros I; [destruct I|]. cbn [fold_right]. assert (0 <= fold_right Z.add 0 l)%Z.
    { clear -F. induction F; cbn; lia. }
    destruct I as [->|I]; [lia|]. specialize (IH I). lia.
  Qed.
  Lemma weight_bdd k : (0 <= k <= 2 ^ 30)%Z -> bdd 30 (nmax (n0 : f64) (nofZ k)).
  Proof.
    intros K. assert (bdd 30 (f_of_Z k)) as B.
    { exists (IZR k). split; [apply v64_ofZ; lia|]. rewrite Rabs_pos_eq by (apply IZR_le; lia). change (P2 30) with (IZR (2 ^ 30)). apply IZR_le. lia. }
    unfold nmax. destruct (_ || _); [|exact B]. exists 0. split; [reflexivity|]. rewrite Rabs_R0. apply bpow_ge_0.
  Qed.
  Lemma boot_means_ok j counts (x : list f64) : (1 <= length x)%nat -> INR (length x) <= MAXN -> Forall (bdd j) x -> (-1000 <= j <= 900)%Z ->
    multinomial_outcome (Z.of_nat (length x)) 1000 counts ->
    Forall (bdd (j + 30)) (map (weighted_mean x) (map (map (fun k => nmax n0 (nofZ k))) counts)).
  Proof.
    intros N M F J [_ MO]. pose proof (maxn_Z _ M) as MZ. rewrite map_map. apply map_const. eapply Forall_impl; [|exact MO]. intros row (L & P & S).
    unfold weighted_mean. assert (length row = length x) as L' by lia.
    apply bdd_mean; [rewrite map2_len; [exact N|now rewrite map_length]|rewrite map2_len; [exact M|now rewrite map_length]| |lia].
    eapply Forall_map2; [|exact F|].
    - intros a b A B. cbn [nmul f64_num]. apply bdd_mul; [exact A|exact B|lia].
    - apply map_const. apply Forall_forall. intros k I. apply weight_bdd. pose proof (count_le row k P I). rewrite Forall_forall in P. specialize (P k I). lia.
  Qed.

  Lemma boot_core_ok j counts (x : list f64) c rE rT : (1 <= length x)%nat -> INR (length x) <= MAXN -> Forall (bdd j) x -> (-1000 <= j <= 900)%Z ->
    conf_ok c -> multinomial_outcome (Z.of_nat (length x)) 1000 counts ->
    exists e p ci, @_boot_EB_and_test _ _ counts x c 1000 rE rT false = Ok (e, p, ci) /\ fleb f0 e = true /\ unit_p p.
  Proof.
    intros N M F J C MO. pose proof (bdd_all _ _ F) as FF. unfold _boot_EB_and_test. rewrite (fin_nonan x FF), (degenerate_fin x FF). cbn [negb py_assert bind].
    destruct (Z.leb_spec (Z.of_nat (length x)) 1) as [S|S].
    { do 3 eexists. split; [reflexivity|]. split; [reflexivity|apply unit_p_1]. }
    unfold boot_weights. replace (1 <=? Z.of_nat (length x))%Z with true by (symmetry; apply Z.leb_le; lia). change (1 <=? 1000)%Z with true. cbn [py_assert bind].
    pose proof (boot_means_ok j counts x N M F J MO) as B. set (ms := map (weighted_mean x) _) in *.
    assert (Z.of_nat (length ms) = 1000)%Z as LM. { unfold ms. rewrite !map_length. apply MO. }
    clearbody ms. assert (Props_Boot.notnan ms) as NN.
    { eapply Forall_impl; [|exact B]. intros a A. apply fisfin_notnan. now apply (bdd_fin _ _ A). }
    assert (sized ms) as SZ by (split; [intros ->; cbn in LM; lia|lia]).
    assert (confidence c) as CC. { pose proof (conf_in01' c C) as I. apply andb_true_iff in I. exact I. }
    assert (exists p, (if rT then significance ms (Scalar n0) else Ok n1) = Ok p /\ unit_p p) as (p & -> & Up).
    { destruct rT; [|exists (f_of_Z 1); split; [reflexivity|apply unit_p_1]]. destruct (C40_p_value ms (Scalar f0) NN SZ eq_refl) as (p & Ep & U). exists p. split; [exact Ep|exact U]. }
    cbn [bind].
    assert (exists e, (if rE then error_bar ms (nmean x) c else Ok ninf) = Ok e /\ fleb f0 e = true) as (e & -> & Ue).
    { destruct rE; [|exists finf; split; reflexivity]. destruct (C39_error_bar_total ms (nmean x) c NN SZ CC) as (e & Ee & _ & U). exists e. split; [exact Ee|].
      apply U. apply (bdd_fin j). apply bdd_mean; auto. lia. }
    cbn [bind]. do 3 eexists. split; [reflexivity|]. auto.
  Qed.

  (** ** Limits *)
  Definition limit_ok (b : f64) : Prop := fisfin b = true -> Rabs (B2R b) <= P2 400.
  Definition range_ok (lo up : f64) : Prop := fisfin lo = true -> fisfin up = true -> B2R lo = B2R up \/ P2 (-400) <= B2R up - B2R lo.
  Definition loss_ok (lo up : f64) (x : list f64) : Prop := Forall (fun v => bdd 400 v /\ fleb lo v = true /\ fleb v up = true) x.

  Lemma loss_bdd lo up x : loss_ok lo up x -> Forall (bdd 400) x.
  Proof. apply Forall_impl. tauto. Qed.
  Lemma loss_within lo up x : loss_ok lo up x -> within lo up x = true.
  Proof.
    unfold loss_ok. rewrite Forall_forall. intros F. unfold within. apply andb_true_iff. split; apply forallb_forall; intros a I; now apply F in I as (? & ? & ?).
  Qed.
  (* a limit as an extended real *)
  Lemma low_cases lo v r : v64 v = Fin r -> fleb lo v = true -> v64 lo = NInf \/ exists a, v64 lo = Fin a /\ a <= r /\ fisfin lo = true /\ B2R lo = a.
  Proof.
    intros E L. rewrite v64_leb, E in L. destruct (v64 lo) as [a| | |] eqn:El; try discriminate; [right|now left]. cbn in L. apply Rleb_spec in L.
    apply v64_Fin in El as [F B]. exists a. auto.
  Qed.
  Lemma up_cases up v r : v64 v = Fin r -> fleb v up = true -> v64 up = PInf \/ exists b, v64 up = Fin b /\ r <= b /\ fisfin up = true /\ B2R up = b.
  Proof.
    intros E L. rewrite v64_leb, E in L. destruct (v64 up) as [a| | |] eqn:El; try discriminate; [right|now left]. cbn in L. apply Rleb_spec in L.
    apply v64_Fin in El as [F B]. exists a. auto.
  Qed.
  Lemma range_cases lo up x : (1 <= length x)%nat -> loss_ok lo up x -> limit_ok lo -> limit_ok up -> range_ok lo up ->
    ((v64 lo = NInf \/ v64 up = PInf) /\ v64 (fsub up lo) = PInf) \/
    exists a b, v64 lo = Fin a /\ v64 up = Fin b /\ a <= b /\ v64 (fsub up lo) = Fin (rnd64 (b - a)) /\ (rnd64 (b - a) = 0 \/ P2 (-400) <= rnd64 (b - a) <= P2 401).
  Proof.
    intros N L Ll Lu R. destruct x as [|v x]; [cbn in N; lia|]. inversion L as [|? ? (B & L1 & L2) _]; subst. destruct B as (r & E & _).
    rewrite v64_sub. destruct (low_cases lo v r E L1) as [El|(a & El & A & Fl & Bl)].
    - left. split; [now left|]. rewrite El. destruct (up_cases up v r E L2) as [->|(b & -> & _)]; reflexivity.
    - destruct (up_cases up v r E L2) as [Eu|(b & Eu & B & Fu & Bu)]; [left; split; [now right|]; rewrite El, Eu; reflexivity|]. right.
      exists a, b. rewrite El, Eu. cbn [xr2]. specialize (Ll Fl). specialize (Lu Fu). specialize (R Fl Fu). rewrite Bl, Bu in *. apply Rabs_le_inv in Ll, Lu.
      pose proof (P2_S 400) as S4. change (400 + 1)%Z with 401%Z in S4.
      destruct (rnd_nng (b - a) 401) as [-> [P Q]]; [lra|lia|]. do 3 (split; [reflexivity || lra|]). split; [reflexivity|].
      destruct R as [->|R]; [left; replace (b - b) with 0 by ring; apply rnd64_0|right]. split; [|exact Q]. apply rnd64_ge; [apply format_P2; lia|exact R].
  Qed.

  Lemma deltas_ok lo up x y : length x = length y -> (1 <= length x)%nat -> loss_ok lo up x -> loss_ok lo up y -> limit_ok lo -> limit_ok up -> range_ok lo up ->
    let R := fsub up lo in let d := map2 fsub x y in
    Forall (bdd 401) d /\ within (nopp R) R d = true.
  Proof.
    intros LE N Lx Ly Ll Lu RO R d. split; [eapply Forall_map2; [|exact (loss_bdd _ _ _ Lx)|exact (loss_bdd _ _ _ Ly)]; intros; apply (bdd_sub 400); auto; lia|].
    assert (Forall (fun a => nleb (nopp R) a = true /\ nleb a R = true) d) as W.
    { eapply Forall_map2; [|exact Lx|exact Ly]. intros a b ((ra & Ea & Ha) & A1 & A2) ((rb & Eb & Hb) & B1 & B2). cbn [nleb f64_num].
      assert (v64 (fsub a b) = Fin (rnd64 (ra - rb))) as Ed.
      { rewrite v64_sub, Ea, Eb. cbn [xr2]. apply xround_ok. apply Rle_trans with (P2 401); [|apply bpow_le; lia].
        pose proof (P2_S 400) as S4. change (400 + 1)%Z with 401%Z in S4. apply Rabs_le_inv in Ha, Hb. apply Rabs_le. lra. }
      destruct (range_cases lo up x N Lx Ll Lu RO) as [[_ E]|(l & u & El & Eu & LU & E & _)]; fold R in E.
      - split; rewrite v64_leb, Ed; [|now rewrite E]. unfold nopp. cbn [nsub n0 f64_num]. rewrite v64_sub, E. reflexivity.
      - rewrite v64_leb in A1, A2, B1, B2. rewrite Ea in A1, A2. rewrite Eb in B1, B2. rewrite El in A1, B1. rewrite Eu in A2, B2. cbn in A1, A2, B1, B2.
        apply Rleb_spec in A1, A2, B1, B2. split; rewrite v64_leb, Ed; [rewrite (opp_val R _ E)|rewrite E]; cbn; apply Rleb_spec.
        + rewrite <- rnd64_opp. apply rnd64_mono. lra.
        + apply rnd64_mono. lra. }
    rewrite Forall_forall in W. unfold within. apply andb_true_iff. split; apply forallb_forall; intros a I; now apply W.
  Qed.

  (** ** The mean *)
  Lemma clip_mean_ok j (x : list f64) lo up : (1 <= length x)%nat -> INR (length x) <= MAXN -> Forall (bdd j) x -> (-1000 <= j <= 900)%Z -> within lo up x = true ->
    moderate lo -> moderate up ->
    exists mu, clip_chk isclose (nmean x) lo up = Ok mu /\ fisnan mu = false /\ fleb lo mu = true /\ fleb mu up = true /\
      (neqb mu (nmean x) = true <-> fleb lo (nmean x) = true /\ fleb (nmean x) up = true).
  Proof.
    intros N M F J W Ml Mu. assert (bdd j (nmean x)) as Bm by (apply bdd_mean; auto; lia). pose proof (bdd_fin _ _ Bm) as Fm. pose proof (fisfin_notnan _ Fm) as Nm.
    assert (Forall (fun v => fleb lo v = true /\ fleb v up = true) x) as L.
    { unfold within in W. apply andb_true_iff in W as [A B]. rewrite forallb_forall in A, B. apply Forall_forall. intros a I. split; [now apply A|now apply B]. }
    assert (fleb lo up = true) as LU. { destruct x as [|a x]; [cbn in N; lia|]. inversion L as [|? ? [A B] _]; subst. eapply fleb_trans; eauto. }
    destruct (fleb_notnan _ _ LU) as [Nl Nu].
    assert (exists mu, clip_chk isclose (nmean x) lo up = Ok mu /\ fleb lo mu = true /\ fleb mu up = true) as (mu & E & A & B).
    { destruct (fisfin lo) eqn:Fl; [apply mean_clip; auto|]. destruct (fisfin up) eqn:Fu; [apply mean_clip; auto|].
      assert (v64 lo = NInf /\ v64 up = PInf) as [El Eu].
      { destruct x as [|a x]; [cbn in N; lia|]. inversion L as [|? ? [A B] _]; subst. inversion F as [|? ? (r & Er & _) _]; subst.
        rewrite v64_leb, Er in A, B. rewrite v64_isfin in Fl, Fu. destruct (v64 lo), (v64 up); try discriminate; auto. }
      destruct Bm as (r & Er & _). exists (nmean x). unfold clip_chk, nclip. cbn [nltb neqb f64_num].
      assert (fleb lo (nmean x) = true) as A by (rewrite v64_leb, El, Er; reflexivity). assert (fleb (nmean x) up = true) as B by (rewrite v64_leb, Eu, Er; reflexivity).
      rewrite (fltb_asym_le _ _ A), (fltb_asym_le _ _ B). rewrite (proj2 (feqb_key _ _ Nm Nm)) by reflexivity. cbn [orb py_assert bind]. auto. }
    exists mu. split; [exact E|]. destruct (fleb_notnan _ _ A) as [_ Nmu]. split; [exact Nmu|]. split; [exact A|]. split; [exact B|].
    cbn [neqb f64_num]. rewrite (feqb_key _ _ Nmu Nm). split.
    - intros K. apply fleb_key in A; auto. apply fleb_key in B; auto. rewrite K in A, B. split; apply fleb_key; auto.
    - intros [C D]. unfold clip_chk, nclip in E. cbn [nltb f64_num] in E. rewrite (fltb_asym_le _ _ C), (fltb_asym_le _ _ D) in E.
      apply assert_ok in E as [_ E]. apply Ok_inj in E. now subst.
  Qed.
  Lemma clip_EB_total mu EB lo up : fisnan mu = false -> fleb lo mu = true -> fleb mu up = true -> fleb f0 (fsub up lo) = true ->
    fisfin lo = false \/ fisfin up = false \/ fisfin (fsub up lo) = true -> exists e, clip_EB mu EB lo up n0 = Ok e.
  Proof.
    intros Nm A B R O. assert (eb_domain lo up f0) as D by (repeat split; auto). change (n0 : f64) with f0. rewrite (clip_EB_unfold _ _ _ _ _ D).
    rewrite (fltb_asym_le _ _ A), (fltb_asym_le _ _ B). cbn [orb]. assert (fltb (fsub up lo) (fmul (f_of_Z 2) f0) = false) as W.
    { change (fmul (f_of_Z 2) f0) with f0. now apply fltb_asym_le. }
    rewrite W, (no_assertion mu lo up f0 D Nm (fltb_asym_le _ _ A) (fltb_asym_le _ _ B) W O). eauto.
  Qed.

  (** ** The estimators *)
  Definition known (m : eb_method) : Prop := m <> Mother.
  Lemma eb_ok j counts (x : list f64) c lo up m : (1 <= length x)%nat -> INR (length x) <= MAXN -> Forall (bdd j) x -> (-400 <= j <= 460)%Z -> conf_ok c ->
    within lo up x = true -> v64 (fsub up lo) = PInf \/ nng 500 (fsub up lo) -> known m -> multinomial_outcome (Z.of_nat (length x)) 1000 counts ->
    exists e, match m with
              | Mt => @t_EB _ _ lib x c
              | Mbernstein => @bernstein_EB _ _ lib x lo up c
              | Mboot => @boot_EB _ _ counts x c N_BOOT
              | Mother => Err AssertionError
              end = Ok e /\ fleb f0 e = true.
  Proof.
    intros N M F J C W R K MO. destruct m; [| | |contradiction].
    - destruct (t_EB_ok _ _ _ _ _ GL j x c N M F J C) as (e & -> & ?). eauto.
    - destruct (bernstein_EB_ok _ _ _ _ _ GL j x lo up c N M F J C W R) as (e & -> & ?). eauto.
    - unfold boot_EB. destruct (boot_core_ok j counts x c true false N M F ltac:(lia) C MO) as (e & p & ci & E & L & _).
      change N_BOOT with 1000%Z. rewrite E. cbn [bind fst snd nleb n0 f64_num]. rewrite L. cbn [py_assert bind]. eauto.
  Qed.
  Lemma test_ok counts (x : list f64) R m : (1 <= length x)%nat -> INR (length x) <= MAXN -> Forall (bdd 401) x -> within (nopp R) R x = true ->
    v64 R = PInf \/ (exists r, v64 R = Fin r /\ (r = 0 \/ P2 (-400) <= r <= P2 450)) -> known m -> multinomial_outcome (Z.of_nat (length x)) 1000 counts ->
    exists p, @get_test _ _ lib counts x (nopp R) R m = Ok p /\ unit_p p.
  Proof.
    intros N M F W HR K MO. unfold get_test. destruct m; [| | |contradiction].
    - apply (t_test_ok _ _ _ _ _ GL 401); auto. lia.
    - apply (bernstein_test_ok _ _ _ _ _ GL); auto. eapply bdd_all; eauto.
    - unfold boot_test. set (c := ndiv (nofZ 95) (nofZ 100) : f64).
      assert (conf_ok c) as C by exact conf_95.
      destruct (boot_core_ok 401 counts x c false true N M F ltac:(lia) C MO) as (e & p & ci & E & _ & [U1 U2]).
      change N_BOOT with 1000%Z. rewrite E. cbn [bind fst snd nleb n0 n1 f64_num]. rewrite U1, U2. cbn [andb py_assert bind]. exists p. split; [reflexivity|split; assumption].
  Qed.

  Lemma limit_moderate b : limit_ok b -> moderate b.
  Proof. intros L F. eapply Rle_trans; [exact (L F)|]. apply bpow_le. lia. Qed.

  (* the error bar after clipping *)
  Lemma clipped_ok mu EB lo up : fisnan mu = false -> fleb lo mu = true -> fleb mu up = true -> v64 (fsub up lo) = PInf /\ (v64 lo = NInf \/ v64 up = PInf) \/ nng 500 (fsub up lo) ->
    fleb f0 EB = true -> exists e, clip_EB mu EB lo up n0 = Ok e /\ fleb f0 e = true.
  Proof.
    intros Nm A B R E. destruct (clip_EB_total mu EB lo up Nm A B) as [e H].
    - destruct R as [[R _]|R]; [rewrite v64_leb, R; reflexivity|]. eapply nng_leb0; eauto.
    - destruct R as [[_ [R|R]]|R].
      + left. now rewrite v64_isfin, R.
      + right. left. now rewrite v64_isfin, R.
      + right. right. apply nng_bdd in R. now apply (bdd_fin _ _ R).
    - exists e. split; [exact H|]. destruct (fleb_notnan _ _ E) as [_ Ne]. destruct (C55_between mu EB lo up n0 e H Nm Ne) as [P _]. exact P.
  Qed.

  Lemma mean_and_EB_ok counts (x : list f64) c lo up m : (1 <= length x)%nat -> INR (length x) <= MAXN -> loss_ok lo up x -> limit_ok lo -> limit_ok up -> range_ok lo up ->
    conf_ok c -> known m -> multinomial_outcome (Z.of_nat (length x)) 1000 counts ->
    exists mu e, @get_mean_and_EB _ _ lib counts x c n0 lo up m = Ok (mu, e) /\ fleb f0 e = true /\
      (neqb mu (nmean x) = true <-> fleb lo (nmean x) = true /\ fleb (nmean x) up = true).
  Proof.
    intros N M L Ll Lu RO C K MO. pose proof (loss_bdd _ _ _ L) as F. pose proof (loss_within _ _ _ L) as W.
    assert (v64 (fsub up lo) = PInf /\ (v64 lo = NInf \/ v64 up = PInf) \/ nng 500 (fsub up lo)) as R.
    { destruct (range_cases lo up x N L Ll Lu RO) as [[A B]|(a & b & _ & _ & _ & E & Q)]; [left; auto|right]. exists (rnd64 (b - a)). split; [exact E|].
      assert (P2 401 <= P2 500) by (apply bpow_le; lia). pose proof (bpow_gt_0 radix2 (-400)). pose proof (bpow_gt_0 radix2 401). destruct Q as [->|Q]; lra. }
    unfold get_mean_and_EB. rewrite W. cbn [py_assert bind].
    destruct (eb_ok 400 counts x c lo up m N M F ltac:(lia) C W) as (e & -> & Pe); auto; [tauto|]. cbn [bind].
    destruct (clip_mean_ok 400 x lo up N M F ltac:(lia) W (limit_moderate _ Ll) (limit_moderate _ Lu)) as (mu & -> & Nm & A & B & IFF). cbn [bind].
    destruct (clipped_ok mu e lo up Nm A B R Pe) as (e' & -> & P). cbn [bind]. exists mu, e'. auto.
  Qed.

  Lemma mean_EB_test_ok counts (x : list f64) c R m : (1 <= length x)%nat -> INR (length x) <= MAXN -> Forall (bdd 401) x -> within (nopp R) R x = true ->
    v64 R = PInf \/ (exists r, v64 R = Fin r /\ (r = 0 \/ P2 (-400) <= r <= P2 401)) ->
    conf_ok c -> known m -> multinomial_outcome (Z.of_nat (length x)) 1000 counts ->
    exists mu e p, @get_mean_EB_test _ _ lib counts x c n0 (nopp R) R m = Ok (mu, e, p) /\ fleb f0 e = true /\ unit_p p.
  Proof.
    intros N M F W HR C K MO.
    assert (v64 R = PInf /\ v64 (nopp R) = NInf \/ exists r, v64 R = Fin r /\ v64 (nopp R) = Fin (- r) /\ 0 <= r <= P2 401) as HR'.
    { destruct HR as [E|(r & E & Q)]; [left|right].
      - split; [exact E|]. unfold nopp. cbn [nsub n0 f64_num]. rewrite v64_sub, E. reflexivity.
      - exists r. split; [exact E|]. split; [now apply opp_val|]. pose proof (bpow_gt_0 radix2 (-400)). pose proof (bpow_ge_0 radix2 401). destruct Q as [->|Q]; lra. }
    assert (v64 (fsub R (nopp R)) = PInf /\ (v64 (nopp R) = NInf \/ v64 R = PInf) \/ nng 500 (fsub R (nopp R))) as R2.
    { destruct HR' as [[E1 E2]|(r & E1 & E2 & P)]; [left; split; [rewrite v64_sub, E1, E2; reflexivity|tauto]|right].
      rewrite <- (Z.add_simpl_r 500 0) at 1. exists (rnd64 (r - - r)). rewrite v64_sub, E1, E2. cbn [xr2].
      pose proof (P2_S 401) as S4. change (401 + 1)%Z with 402%Z in S4. destruct (rnd_nng (r - - r) 402) as [-> Q]; [lra|lia|]. split; [reflexivity|].
      assert (P2 402 <= P2 (500 + 0 - 0)) by (apply bpow_le; lia). lra. }
    assert (moderate (nopp R) /\ moderate R) as [M1 M2].
    { assert (P2 401 <= P2 900) as L9 by (apply bpow_le; lia). destruct HR' as [[E1 E2]|(r & E1 & E2 & P)].
      - split; intros Q; rewrite v64_isfin in Q; [rewrite E2 in Q|rewrite E1 in Q]; discriminate.
      - apply v64_Fin in E1 as [_ E1]. apply v64_Fin in E2 as [_ E2]. split; intros _; [rewrite E2, Rabs_Ropp|rewrite E1]; rewrite Rabs_pos_eq; lra. }
    unfold get_mean_EB_test. rewrite W. cbn [py_assert bind].
    assert (exists e p, match m with
              | Mt => do EB <- @t_EB _ _ lib x c; do pval <- @t_test _ _ lib x; Ok (EB, pval)
              | Mbernstein => do EB <- @bernstein_EB _ _ lib x (nopp R) R c; do pval <- @bernstein_test _ _ lib x (nopp R) R; Ok (EB, pval)
              | Mboot => do r <- _boot_EB_and_test counts x c N_BOOT true true false; Ok (fst r)
              | Mother => Err AssertionError
              end = Ok (e, p) /\ fleb f0 e = true /\ unit_p p) as (e & p & -> & Pe & Up).
    { destruct m; [| | |contradiction].
      - destruct (t_EB_ok _ _ _ _ _ GL 401 x c N M F ltac:(lia) C) as (e & -> & ?). destruct (t_test_ok _ _ _ _ _ GL 401 x N M F ltac:(lia)) as (p & -> & ?). cbn [bind]. eauto.
      - destruct (bernstein_EB_ok _ _ _ _ _ GL 401 x (nopp R) R c N M F ltac:(lia) C W) as (e & -> & ?); [tauto|].
        destruct (bernstein_test_ok _ _ _ _ _ GL x R N M (bdd_all _ _ F) W) as (p & -> & ?); [|cbn [bind]; eauto].
        destruct HR as [HR|(r & E & Q)]; [now left|right]. exists r. split; [exact E|]. destruct Q as [Q|Q]; [now left|right]. assert (P2 401 <= P2 450) by (apply bpow_le; lia). lra.
      - change N_BOOT with 1000%Z. destruct (boot_core_ok 401 counts x c true true N M F ltac:(lia) C MO) as (e & p & ci & -> & ? & ?). cbn [bind fst]. eauto. }
    cbn [bind fst snd]. destruct (clip_mean_ok 401 x (nopp R) R N M F ltac:(lia) W M1 M2) as (mu & -> & Nm & A & B & _). cbn [bind].
    destruct (clipped_ok mu e (nopp R) R Nm A B R2 Pe) as (e' & -> & P). cbn [bind]. exists mu, e', p. auto.
  Qed.

  (** ** A cell *)
  Definition sane_cell (pw self : bool) (x : list f64) (cl : cell f64) : Prop :=
    cell_mean cl = nmean x /\ fisfin (cell_mean cl) = true /\
    (if pw && self then fisnan (cell_error cl) = true else fleb f0 (cell_error cl) = true) /\
    (if self then fisnan (cell_pval cl) = true else unit_p (cell_pval cl)).

  Lemma cell_ok draw (t : loss_table_t f64) ref pw c m metric lo up x y method : select t (metric, method) = Ok x -> length x = length y ->
    (1 <= length x)%nat -> INR (length x) <= MAXN -> loss_ok lo up x -> loss_ok lo up y -> limit_ok lo -> limit_ok up -> range_ok lo up ->
    conf_ok c -> known m -> (forall b, multinomial_outcome (Z.of_nat (length x)) 1000 (draw metric method b)) ->
    if pw || (fleb lo (nmean x) && fleb (nmean x) up)
    then exists cl, @summary_cell _ _ lib draw t ref pw c m metric lo up y method = Ok cl /\ sane_cell pw (pystr_eqb method ref) x cl
    else @summary_cell _ _ lib draw t ref pw c m metric lo up y method = Err AssertionError.
  Proof.
    intros S LE N M Lx Ly Ll Lu RO C K MO. pose proof (loss_bdd _ _ _ Lx) as F. pose proof (loss_within _ _ _ Lx) as W.
    destruct (deltas_ok lo up x y LE N Lx Ly Ll Lu RO) as [Fd Wd].
    assert (v64 (fsub up lo) = PInf \/ (exists r, v64 (fsub up lo) = Fin r /\ (r = 0 \/ P2 (-400) <= r <= P2 401))) as HR.
    { destruct (range_cases lo up x N Lx Ll Lu RO) as [[_ B]|(a & b & _ & _ & _ & E & Q)]; [now left|right; eauto]. }
    assert (length (map2 fsub x y) = length x) as Ld by (apply map2_len; exact LE).
    assert (fisfin (nmean x) = true) as Fm. { apply (bdd_fin 400). apply bdd_mean; auto. lia. }
    unfold summary_cell. rewrite S. cbn [bind]. rewrite (fin_nonan x (bdd_all _ _ F)), W. cbn [negb py_assert bind]. cbv zeta. cbn [nsub f64_num].
    destruct pw; cbn [orb].
    - destruct (pystr_eqb method ref).
      + eexists. split; [reflexivity|]. repeat split; auto.
      + destruct (mean_EB_test_ok (draw metric method false) (map2 fsub x y) c (fsub up lo) m) as (mu & e & p & -> & Pe & Up); auto; try (rewrite Ld; auto).
        cbn [bind fst snd]. eexists. split; [reflexivity|]. repeat split; auto; apply Up.
    - destruct (mean_and_EB_ok (draw metric method false) x c lo up m N M Lx Ll Lu RO C K (MO false)) as (mu & e & -> & Pe & IFF). cbn [bind fst snd].
      destruct (fleb lo (nmean x) && fleb (nmean x) up) eqn:Q.
      + apply andb_true_iff in Q. rewrite (proj2 IFF Q). cbn [py_assert bind]. destruct (pystr_eqb method ref).
        * eexists. split; [reflexivity|]. repeat split; auto.
        * destruct (test_ok (draw metric method true) (map2 fsub x y) (fsub up lo) m) as (p & -> & Up); auto; try (rewrite Ld; auto).
          { destruct HR as [HR|(r & E & P)]; [now left|right]. exists r. split; [exact E|]. destruct P as [P|P]; [now left|right]. assert (P2 401 <= P2 450) by (apply bpow_le; lia). lra. }
          cbn [bind]. eexists. split; [reflexivity|]. repeat split; auto; apply Up.
      + destruct (neqb mu (nmean x)) eqn:Z; [|reflexivity]. destruct (proj1 IFF eq_refl) as [A B]. rewrite A, B in Q. discriminate.
  Qed.
End Library.
