(** Proofs about the table export functions (TableExport.v). *)
From Coq Require Import Reals Lra ZifyBool ZifyNat ZifyN.
From Verif Require Import PyBase F64 Dec Sciprint Spec_Sciprint DecProofs DecRound FormatProofs
  EstimateProofs DecimalizeProofs ShiftProofs TableProofs FormatTableProofs HeaderProofs TableExport MLProofs4.
Open Scope Z_scope.

(** ** Columns in pairs *)

Lemma pairs_nth {A B} (f g : A -> B) l i a : nth_error l i = Some a ->
  nth_error (flat_map (fun x => [f x; g x]) l) (2 * i) = Some (f a) /\
  nth_error (flat_map (fun x => [f x; g x]) l) (2 * i + 1) = Some (g a).
Proof.
  revert i. induction l as [|x l IH]; intros [|i] H; cbn [nth_error] in H; try discriminate.
  - injection H as ->. cbn. auto.
  - replace (2 * S i)%nat with (S (S (2 * i))) by lia.
    replace (S (S (2 * i)) + 1)%nat with (S (S (2 * i + 1))) by lia.
    cbn [flat_map app nth_error]. apply IH, H.
Qed.

Lemma pairs_length {A B} (f g : A -> B) l : length (flat_map (fun x => [f x; g x]) l) = (2 * length l)%nat.
Proof. induction l as [|x l IH]; cbn [flat_map app length]; lia. Qed.

Lemma flat_map_ext_in {A B} (f g : A -> list B) l : (forall a, In a l -> f a = g a) -> flat_map f l = flat_map g l.
Proof. induction l as [|a l IH]; intros H; cbn; [reflexivity|]. rewrite H, IH; auto with datatypes. Qed.

(** ** The relabelled frame of well formed blocks *)

Definition blocks_ok (methods : list pystr) (bs : list fmt_block) : Prop :=
  bs <> [] /\ NoDup (map (fun b => fst (fst b)) bs) /\ Forall (fun b => map fst (snd b) = methods) bs.

Lemma shifts_get bs metric sh rows : NoDup (map (fun b : fmt_block => fst (fst b)) bs) ->
  In (metric, sh, rows) bs -> dict_get (str_shifts bs) metric = Some sh.
Proof.
  induction bs as [|[[m s] r] bs IH]; intros Hn Hi; [destruct Hi|].
  cbn [map fst] in Hn. inversion Hn; subst. cbn [str_shifts map dict_get].
  destruct (pystr_eqb metric m) eqn:Eq; [apply pystr_eqb_spec in Eq; subst m|].
  - destruct Hi as [Hi|Hi]; [congruence|]. exfalso. apply H1. apply in_map_iff. exists (metric, sh, rows). auto.
  - destruct Hi as [Hi|Hi]; [|apply IH; auto]. injection Hi as -> -> ->.
    rewrite (proj2 (pystr_eqb_spec metric metric) eq_refl) in Eq. discriminate.
Qed.

Lemma adjust_headers_ok bs0 ud up tex bs : NoDup (map (fun b : fmt_block => fst (fst b)) bs0) -> incl bs bs0 ->
  adjust_headers (str_columns bs) (str_shifts bs0) ud up tex =
  Ok (flat_map (fun b : fmt_block => [adjust_header (snd (fst b)) (dict_get ud (fst (fst b))) up tex (fst (fst b)) EST_COL;
                          adjust_header (snd (fst b)) (dict_get ud (fst (fst b))) up tex (fst (fst b)) PVAL_COL]) bs).
Proof.
  intros Hn. unfold adjust_headers. induction bs as [|[[m s] r] bs IH]; intros Hi; [reflexivity|].
  cbn [str_columns flat_map app mapM fst snd]. rewrite (shifts_get bs0 m s r Hn) by (apply Hi; left; reflexivity).
  cbn [bind]. fold (str_columns bs). rewrite IH by (intros x Hx; apply Hi; right; exact Hx). reflexivity.
Qed.

Definition frame_of (methods : list pystr) (bs : list fmt_block) (ud : dict pystr) (up tex : bool) : sframe :=
  SFrame methods
    (flat_map (fun b : fmt_block => [adjust_header (snd (fst b)) (dict_get ud (fst (fst b))) up tex (fst (fst b)) EST_COL;
                          adjust_header (snd (fst b)) (dict_get ud (fst (fst b))) up tex (fst (fst b)) PVAL_COL]) bs)
    (map (fun j => flat_map (fun b : fmt_block => [fst (snd (nth j (snd b) ([], ([], []))));
                                        snd (snd (nth j (snd b) ([], ([], []))))]) bs) (seq 0 (length methods))).

Lemma relabelled_ok methods bs ud up tex : blocks_ok methods bs ->
  relabelled bs ud up tex = Ok (frame_of methods bs ud up tex).
Proof.
  intros (Hne & Hn & Hm). unfold relabelled. rewrite (adjust_headers_ok bs ud up tex bs Hn (incl_refl _)). cbn [bind].
  assert (Hidx : str_index bs = methods).
  { destruct bs as [|[[m s] r] bs]; [contradiction|]. inversion Hm; subst. reflexivity. }
  unfold frame_of, str_values. rewrite Hidx. do 2 f_equal. apply map_ext_in. intros j Hj. apply in_seq in Hj.
  apply flat_map_ext_in. intros [[m s] r] Hb. rewrite Forall_forall in Hm. specialize (Hm _ Hb). cbn [snd] in *.
  assert (Hlen : length r = length methods) by (rewrite <- Hm, map_length; reflexivity).
  rewrite (nth_error_nth' r ([], ([], []))) by lia. destruct (nth j r ([], ([], []))) as [mm [e p]]. reflexivity.
Qed.

Lemma frame_cell methods bs ud up tex i j metric sh rows method e p : blocks_ok methods bs ->
  nth_error bs i = Some (metric, sh, rows) -> nth_error rows j = Some (method, (e, p)) ->
  let F := frame_of methods bs ud up tex in
  nth_error (sf_index F) j = Some method /\
  nth_error (sf_columns F) (2 * i) = Some (adjust_header sh (dict_get ud metric) up tex metric EST_COL) /\
  nth_error (sf_columns F) (2 * i + 1) = Some (brace tex (str "p")) /\
  exists row, nth_error (sf_values F) j = Some row /\
    nth_error row (2 * i) = Some e /\ nth_error row (2 * i + 1) = Some p.
Proof.
  intros (Hne & Hn & Hm) Hi Hj F.
  assert (Hr : map fst rows = methods).
  { rewrite Forall_forall in Hm. apply (Hm (metric, sh, rows)). eapply nth_error_In, Hi. }
  split.
  { unfold F, frame_of. cbn [sf_index]. rewrite <- Hr, nth_error_map, Hj. reflexivity. }
  unfold F, frame_of. cbn [sf_columns sf_values].
  split; [exact (proj1 (pairs_nth _ _ bs i _ Hi))|]. split; [exact (proj2 (pairs_nth _ _ bs i _ Hi))|].
  assert (Hlt : (j < length methods)%nat).
  { rewrite <- Hr, map_length. apply nth_error_Some. congruence. }
  eexists. split.
  - rewrite nth_error_map, (nth_error_nth' (seq 0 (length methods)) O) by (rewrite seq_length; exact Hlt).
    rewrite seq_nth by exact Hlt. reflexivity.
  - cbn [Nat.add].
    assert (Hnth : nth j rows ([], ([], [])) = (method, (e, p))) by (apply nth_error_nth; exact Hj).
    destruct (pairs_nth (fun b : fmt_block => fst (snd (nth j (snd b) ([], ([], [])))))
                (fun b : fmt_block => snd (snd (nth j (snd b) ([], ([], []))))) bs i _ Hi) as [H1 H2].
    cbn [snd] in H1, H2. rewrite Hnth in H1, H2. split; [exact H1|exact H2].
Qed.

(** ** The frame of a formatted table *)

(** All metrics of the table have the rows [methods]; metrics are distinct. *)
Definition one_index (methods : list pystr) {V} (t : ptable V) : Prop :=
  NoDup (map fst t) /\ forall m, In m t -> map fst (snd m) = methods.

Definition printed (Q : Z -> Prop) (cmax cmin : dict Z) (nf : dict pystr) (pad : bool)
           (d : ptable dec) (out : list fmt_block) : Prop :=
  Forall2 (fun m o => fst (fst o) = fst m /\ Q (snd (fst o)) /\
      Forall2 (row_printed (snd (fst o)) (min_dec (dict_get cmin (fst m))) (limit_dec (dict_get cmax (fst m))) nf pad)
              (snd m) (snd o)) d out.

Lemma Forall2_map_eq {A B C} (P : A -> B -> Prop) (f : A -> C) (g : B -> C) l m :
  (forall a b, P a b -> g b = f a) -> Forall2 P l m -> map g m = map f l.
Proof. intros H HF. induction HF; cbn [map]; [reflexivity|]. f_equal; auto. Qed.

Lemma printed_blocks_ok Q cmax cmin nf pad ed pd dd lim methods t d out :
  t <> [] -> one_index methods t -> decimalize ed pd dd lim t = Ok d -> printed Q cmax cmin nf pad d out ->
  blocks_ok methods out.
Proof.
  intros Hne (Hn & Hm) Hd HP. apply decimalize_shape in Hd. unfold printed in HP.
  assert (Hdn : map fst d = map fst t) by (eapply Forall2_map_eq; [|exact Hd]; intros a b Hab; exact (proj1 Hab)).
  split.
  { intros ->. inversion HP; subst. inversion Hd; subst. contradiction. }
  split.
  - refine (eq_ind_r (fun l => NoDup l) Hn _). rewrite <- Hdn.
    eapply Forall2_map_eq; [|exact HP]. intros a b Hab. exact (proj1 Hab).
  - assert (Hdm : Forall (fun m : pystr * list (pystr * (dec * dec * dec)) => map fst (snd m) = methods) d).
    { eapply Forall2_Forall_r; [|exact Hd]. intros a b Ha (_ & HF). rewrite <- (Hm a Ha).
      eapply Forall2_map_eq; [|exact HF]. intros r r' Hr. exact (proj1 Hr). }
    rewrite Forall_forall in Hdm.
    eapply Forall2_Forall_r; [|exact HP]. intros a b Ha (_ & _ & HF). rewrite <- (Hdm a Ha).
    eapply Forall2_map_eq; [|exact HF]. intros r r' Hr. exact (proj1 Hr).
Qed.

Lemma printed_truthful Q cmax cmin nf pad ed pd dd lim t d out :
  1 <= ed -> 1 <= dd <= 28 -> finite_means t ->
  decimalize ed pd dd lim t = Ok d -> printed Q cmax cmin nf pad d out ->
  length out = length t /\
  forall i j metric method mf ef pf, cell_at t i j metric method (mf, ef, pf) ->
  exists sh rows txt n ptxt,
    nth_error out i = Some (metric, sh, rows) /\ Q sh /\
    nth_error rows j = Some (method, (txt ++ repeat " "%char n, ptxt)) /\
    truthful mf ef sh (dict_get cmin metric) (dict_get cmax metric) txt /\
    truthful_p pd pf (dict_get_def nf NAN_STR NAN_STR) ptxt.
Proof.
  intros Hed Hdd Hf Hd HF.
  destruct (decimalize_cells _ _ _ _ _ _ Hd) as (Hpd & Hlen & Hcells).
  split; [rewrite <- Hlen; symmetry; eapply Forall2_len; exact HF|].
  intros i j metric method mf ef pf Hc.
  destruct (Hcells _ _ _ _ _ _ _ Hc) as (mu & EB & p & (rows & Hi & Hj) & H1 & H2 & H3).
  destruct (Forall2_nth_error _ _ _ _ _ HF Hi) as ([[metric' sh] rows'] & Hi' & Hm & Hdv & HR). cbn [fst snd] in *. subst metric'.
  destruct (Forall2_nth_error _ _ _ _ _ HR Hj) as ([method' [e ps]] & Hj' & Hmm & txt & n & He & Hpad & Hpe & Hpp). cbn [fst snd rmean rerr rpval] in *. subst.
  exists sh, rows', txt, n, ps. split; [exact Hi'|]. split; [exact Hdv|]. split; [exact Hj'|]. split.
  - eapply print_truthful; [|exact Hpe]. apply (stages_est_cell ed dd (dict_get lim metric)); auto. eapply Hf; exact Hc.
  - eapply print_pval_truthful; [exact Hpd| |exact Hpp]. eapply pv_stage_cases; eauto.
Qed.

(** A text frame [F] shows the table [t]: the row labels are the methods, and
    for each metric there are two columns.  The header of the first can be
    read, and however it is read, the shift it announces is one of [Q] and
    the entries are right for that shift; the second holds the p-values. *)
Definition shows (tex : bool) (Q : Z -> Prop) (methods : list pystr) (t : ptable f64) (pd : Z) (ud : dict pystr)
           (up : bool) (cmax cmin : dict Z) (nf : dict pystr) (F : sframe) : Prop :=
  sf_index F = methods /\ length (sf_columns F) = (2 * length t)%nat /\
  length (sf_values F) = length methods /\ Forall (fun row => length row = (2 * length t)%nat) (sf_values F) /\
  forall i j metric method mf ef pf, cell_at t i j metric method (mf, ef, pf) ->
  nth_error (sf_index F) j = Some method /\
  nth_error (sf_columns F) (2 * i + 1) = Some (brace tex (str "p")) /\
  exists h row txt n ptxt,
    nth_error (sf_columns F) (2 * i) = Some h /\ nth_error (sf_values F) j = Some row /\
    nth_error row (2 * i) = Some (txt ++ repeat " "%char n) /\ nth_error row (2 * i + 1) = Some ptxt /\
    (exists sh, header_says tex (replace_char "_" " " metric) (dict_get ud metric) up sh h) /\
    (forall sh, header_says tex (replace_char "_" " " metric) (dict_get ud metric) up sh h ->
       Q sh /\ truthful mf ef sh (dict_get cmin metric) (dict_get cmax metric) txt) /\
    truthful_p pd pf (dict_get_def nf NAN_STR NAN_STR) ptxt.

Lemma printed_shows tex Q methods ud up cmax cmin nf ed pd dd lim t d out :
  1 <= ed -> 1 <= dd <= 28 -> nonempty_table t -> one_index methods t -> finite_means t ->
  decimalize ed pd dd lim t = Ok d -> printed Q cmax cmin nf true d out ->
  relabelled out ud up tex = Ok (frame_of methods out ud up tex) /\ length out = length t /\
  shows tex Q methods t pd ud up cmax cmin nf (frame_of methods out ud up tex).
Proof.
  intros Hed Hdd [Hne _] Hix Hf Hd HP.
  assert (Hb : blocks_ok methods out) by (eapply printed_blocks_ok; eauto).
  destruct (printed_truthful Q cmax cmin nf true ed pd dd lim t d out Hed Hdd Hf Hd HP) as (Hlen & HC).
  split; [apply relabelled_ok; exact Hb|]. split; [exact Hlen|].
  split; [reflexivity|]. split; [unfold frame_of; cbn [sf_columns]; rewrite pairs_length, Hlen; reflexivity|].
  split; [unfold frame_of; cbn [sf_values]; rewrite map_length, seq_length; reflexivity|].
  split.
  { unfold frame_of; cbn [sf_values]. apply Forall_forall. intros row Hrow. apply in_map_iff in Hrow.
    destruct Hrow as (j & <- & _). rewrite pairs_length, Hlen. reflexivity. }
  intros i j metric method mf ef pf Hc.
  destruct (HC _ _ _ _ _ _ _ Hc) as (sh & rows & txt & n & ptxt & Hi & HQ & Hj & Ht & Hp).
  destruct (frame_cell methods out ud up tex i j metric sh rows method _ _ Hb Hi Hj) as (F1 & F2 & F3 & row & F4 & F5 & F6).
  split; [exact F1|]. split; [exact F3|].
  eexists _, row, txt, n, ptxt. split; [exact F2|]. split; [exact F4|]. split; [exact F5|]. split; [exact F6|].
  split; [eexists; apply adjust_header_says|]. split; [|exact Hp].
  intros sh' Hs'. assert (sh' = sh) as -> by (eapply header_says_inj; [exact Hs'|apply adjust_header_says]). auto.
Qed.

(** ** The column specification *)

Definition latex_align (n : nat) : pystr := str "|l" ++ concat (repeat (str "|Sr") n) ++ str "|".

Lemma str_columns_length bs : length (str_columns bs) = (2 * length bs)%nat.
Proof. induction bs as [|[[m s] r] bs IH]; cbn [str_columns flat_map app length] in *; [reflexivity|]. unfold str_columns in IH. lia. Qed.

Lemma table_to_latex_eq tl bs ud up F : relabelled bs ud up true = Ok F ->
  table_to_latex tl bs ud up = Ok (tl (latex_align (length bs)) F).
Proof.
  intros H. unfold table_to_latex. rewrite str_columns_length.
  rewrite (Nat.mul_comm 2), Nat.mod_mul by lia. cbn [Nat.eqb py_assert bind]. rewrite H. cbn [bind].
  rewrite Nat.div_mul by lia. reflexivity.
Qed.

Lemma export_eq ts tl argsort ud smod cmax cmin lim nf tex up t d bs F :
  decimalize 2 4 5 lim t = Ok d -> format_table argsort smod true cmax cmin nf d = Ok bs ->
  relabelled bs ud up tex = Ok F -> length bs = length t ->
  just_format_it ts tl argsort t ud smod cmax cmin lim nf tex up =
  Ok (if tex then tl (latex_align (length t)) F else ts F).
Proof.
  intros Hd Hb HF Hl. unfold just_format_it. rewrite Hd. cbn [bind]. rewrite Hb. cbn [bind].
  destruct tex; [rewrite (table_to_latex_eq _ _ _ _ _ HF), Hl; reflexivity|].
  unfold table_to_string. rewrite HF. reflexivity.
Qed.

(** The letters of the column specification. *)
Definition col_letters (align : pystr) : pystr := filter (fun c => negb (Ascii.eqb c "|")) align.

Lemma col_letters_align n : col_letters (latex_align n) = "l"%char :: flat_map (fun _ => ["S"%char; "r"%char]) (repeat tt n).
Proof.
  unfold latex_align, col_letters. rewrite !filter_app. cbn [str list_ascii_of_string filter negb Ascii.eqb Bool.eqb andb app].
  rewrite app_nil_r. f_equal. induction n as [|n IH]; [reflexivity|]. cbn [repeat concat flat_map]. rewrite filter_app, IH. reflexivity.
Qed.

(** ** When the units are reached *)

Lemma fix_dot prec m s c e q e' : 1 <= prec -> e <= 0 -> c <> 0%N -> d_fix prec m s c e = DFin s q e' -> 0 < e' ->
  (exists k, 0 <= k /\ 0 <= e + k /\ 10 ^ prec * 10 ^ k <= Z.of_N c) \/
  (exists k q0, 0 <= k /\ 0 <= e + k /\ 10 ^ prec <= Z.of_N q0 /\ rc_ok m s c q0 k).
Proof.
  intros Hp He Hc. unfold d_fix. destruct (Z.leb_spec (ndig c) prec); [intros H0; inversion H0; lia|].
  set (k := ndig c - prec). assert (Hk : 0 < k) by (unfold k; lia).
  destruct (Z.leb_spec (ndig (round_coef m s c k)) prec); intros H1; inversion H1; subst; intros Hpos.
  - left. exists (k - 1). split; [lia|]. split; [lia|]. rewrite <- Z.pow_add_r by lia.
    replace (prec + (k - 1)) with (ndig c - 1) by (unfold k; lia). apply ndig_lower; exact Hc.
  - right. exists k, (round_coef m s c k). split; [lia|]. split; [lia|]. split.
    + apply Z.le_trans with (10 ^ (ndig (round_coef m s c k) - 1)); [apply Z.pow_le_mono_r; lia|].
      apply ndig_lower. intros E. rewrite E in *. cbn in *. lia.
    + apply round_coef_ok. lia.
Qed.

Lemma ge_of_scaled (a : R) c e k : 0 <= k -> 0 <= e + k -> (0 <= a)%R -> (a * IZR (10 ^ k) <= IZR (Z.of_N c))%R ->
  (a <= IZR (Z.of_N c) * p10 e)%R.
Proof.
  intros Hk Hek Ha H. rewrite IZR_pow10 in H by exact Hk.
  apply Rle_trans with (a * p10 k * p10 e)%R.
  - rewrite Rmult_assoc, <- p10_plus. rewrite <- (Rmult_1_r a) at 1. apply Rmult_le_compat_l; [exact Ha|].
    rewrite <- p10_0. apply Flocq.Core.Raux.bpow_le. lia.
  - apply Rmult_le_compat_r; [|exact H]. apply Rlt_le, p10_pos.
Qed.

Lemma p10_le_1 e : e <= 0 -> (p10 e <= 1)%R.
Proof. intros H. rewrite <- p10_0. apply Flocq.Core.Raux.bpow_le. exact H. Qed.

Lemma ceil_units x dgs s c e : fisfin x = true -> (0 <= B2R64 x)%R -> 1 <= dgs ->
  create_decimal x dgs ROUND_CEILING = Ok (DFin s c e) ->
  (e <= 0 <-> (B2R64 x <= IZR (10 ^ dgs - 1))%R).
Proof.
  intros Hx H0 Hd Hcd. pose proof (Z.pow_pos_nonneg 10 dgs ltac:(lia) ltac:(lia)) as Hpos. split; intros H.
  - destruct (create_decimal_ceiling x dgs Hx Hd) as (s' & c' & e' & E & Hc & (Hr & _) & _). rewrite Hcd in E. inversion E; subst s' c' e'.
    apply Rle_trans with (1 := Hr). apply Rle_trans with (Rabs (dR s c e)); [apply Rle_abs|]. rewrite dR_abs.
    apply Rle_trans with (IZR (Z.of_N c) * 1)%R.
    + apply Rmult_le_compat_l; [apply IZR_le; lia|]. apply p10_le_1, H.
    + rewrite Rmult_1_r. apply IZR_le. lia.
  - apply Znot_gt_le. intros Hgt. apply Z.gt_lt in Hgt. revert H. apply Rlt_not_le.
    unfold create_decimal in Hcd. destruct (Z.leb_spec 1 dgs); [|lia]. cbn [py_assert bind] in Hcd.
    destruct (d_of_float_finite x Hx) as (s0 & c0 & e0 & E & Hv & He). rewrite E in Hcd. cbn [d_plus] in Hcd.
    destruct (N.eqb_spec c0 0) as [->|Hc0]; [inversion Hcd; lia|]. apply Ok_inj in Hcd.
    assert (s0 = false) as -> by (eapply dR_nonneg_sign; [|exact Hc0]; rewrite Hv; exact H0).
    assert (s = false) as -> by (destruct (d_fix_spec dgs ROUND_CEILING false c0 e0 Hd) as (q & e' & E' & _); congruence).
    rewrite <- Hv. change (dR false c0 e0) with (IZR (Z.of_N c0) * p10 e0)%R.
    destruct (fix_dot _ _ _ _ _ _ _ Hd He Hc0 Hcd Hgt) as [(k & Hk & Hek & Hge)|(k & q0 & Hk & Hek & Hge & Hrc)].
    + apply Rlt_le_trans with (IZR (10 ^ dgs)); [apply IZR_lt; lia|].
      apply ge_of_scaled with (k := k); [exact Hk|exact Hek|apply IZR_le; lia|]. rewrite <- mult_IZR. apply IZR_le. lia.
    + cbn [rc_ok sval] in Hrc. pose proof (Z.pow_pos_nonneg 10 k ltac:(lia) Hk) as Hpk.
      assert (Hlt : (10 ^ dgs - 1) * 10 ^ k < Z.of_N c0) by nia.
      apply Rlt_le_trans with (IZR ((10 ^ dgs - 1) * 10 ^ k) * p10 e0 + p10 e0 * / 2)%R.
      * assert (IZR (10 ^ dgs - 1) <= IZR ((10 ^ dgs - 1) * 10 ^ k) * p10 e0)%R.
        { rewrite mult_IZR, IZR_pow10, Rmult_assoc, <- p10_plus by exact Hk.
          rewrite <- (Rmult_1_r (IZR (10 ^ dgs - 1))) at 1. apply Rmult_le_compat_l; [apply IZR_le; lia|].
          rewrite <- p10_0. apply Flocq.Core.Raux.bpow_le. lia. }
        pose proof (p10_pos e0). lra.
      * assert (IZR ((10 ^ dgs - 1) * 10 ^ k) + 1 <= IZR (Z.of_N c0))%R by (rewrite <- plus_IZR; apply IZR_le; lia).
        pose proof (p10_pos e0). nra.
Qed.

Lemma half_units x dgs s c e : fisfin x = true -> 1 <= dgs ->
  create_decimal x dgs ROUND_HALF_UP = Ok (DFin s c e) ->
  (e <= 0 <-> (Rabs (B2R64 x) < IZR (10 ^ dgs) - / 2)%R).
Proof.
  intros Hx Hd Hcd. pose proof (Z.pow_pos_nonneg 10 dgs ltac:(lia) ltac:(lia)) as Hpos.
  assert (H1 : (1 <= IZR (10 ^ dgs))%R) by (apply IZR_le; lia). split; intros H.
  - destruct (create_decimal_half_up x dgs Hx Hd) as (s' & c' & e' & E & Hc & (Hr & Htie) & _). rewrite Hcd in E. inversion E; subst s' c' e'.
    pose proof (p10_le_1 e H) as Hu. pose proof (p10_pos e) as Hu0.
    assert (Hcc : (IZR (Z.of_N c) <= IZR (10 ^ dgs) - 1)%R) by (rewrite <- minus_IZR; apply IZR_le; lia).
    assert (Hv : (Rabs (dR s c e) <= IZR (10 ^ dgs) - 1)%R).
    { rewrite dR_abs. assert (0 <= IZR (Z.of_N c))%R by (apply IZR_le; lia). nra. }
    assert (Ht : (Rabs (B2R64 x) <= Rabs (dR s c e) + Rabs (dR s c e - B2R64 x))%R).
    { replace (B2R64 x) with (dR s c e + - (dR s c e - B2R64 x))%R at 1 by ring.
      eapply Rle_trans; [apply Rabs_triang|]. rewrite Rabs_Ropp. lra. }
    destruct (Req_dec (Rabs (dR s c e - B2R64 x)) (p10 e / 2)) as [Heq|Hneq]; [specialize (Htie Heq)|]; lra.
  - apply Znot_gt_le. intros Hgt. apply Z.gt_lt in Hgt. revert H. apply Rle_not_lt.
    unfold create_decimal in Hcd. destruct (Z.leb_spec 1 dgs); [|lia]. cbn [py_assert bind] in Hcd.
    destruct (d_of_float_finite x Hx) as (s0 & c0 & e0 & E & Hv & He). rewrite E in Hcd. cbn [d_plus] in Hcd.
    destruct (N.eqb_spec c0 0) as [->|Hc0]; [inversion Hcd; lia|]. apply Ok_inj in Hcd.
    assert (s = s0) as -> by (destruct (d_fix_spec dgs ROUND_HALF_UP s0 c0 e0 Hd) as (q & e' & E' & _); congruence).
    rewrite <- Hv, dR_abs.
    destruct (fix_dot _ _ _ _ _ _ _ Hd He Hc0 Hcd Hgt) as [(k & Hk & Hek & Hge)|(k & q0 & Hk & Hek & Hge & Hrc)].
    + apply Rle_trans with (IZR (10 ^ dgs)); [lra|].
      apply ge_of_scaled with (k := k); [exact Hk|exact Hek|lra|]. rewrite <- mult_IZR. apply IZR_le. lia.
    + cbn [rc_ok] in Hrc. pose proof (Z.pow_pos_nonneg 10 k ltac:(lia) Hk) as Hpk.
      apply ge_of_scaled with (k := k); [exact Hk|exact Hek|lra|].
      assert (Hle : (2 * 10 ^ dgs - 1) * 10 ^ k <= 2 * Z.of_N c0) by nia.
      apply IZR_le in Hle. rewrite !mult_IZR, minus_IZR, mult_IZR in Hle. lra.
Qed.

(** A cell that cannot be shown without a shift: its error bar (shown with two
    digits) is above 99, or it has no usable error bar and its mean (shown with
    five digits) rounds to 100000 or more in magnitude. *)
Definition needs_shift (mf ef : f64) : Prop :=
  (fisfin ef = true /\ (99 < B2R64 ef)%R) \/
  ((fisfin ef = false \/ B2R64 ef = 0%R) /\ (99999 + / 2 <= Rabs (B2R64 mf))%R).

Lemma cell_dot mf ef EB mu : fisfin mf = true ->
  eb_stage 2 (limit_dec None) ef = Ok EB -> mu_stage 5 EB mf = Ok mu ->
  (known_to_dot mu 0 <-> ~ needs_shift mf ef).
Proof.
  intros Hm HE Hmu.
  assert (Hdef : d_is_finite EB = false \/ d_is_zero EB = true ->
                 (known_to_dot mu 0 <-> (Rabs (B2R64 mf) < 99999 + / 2)%R)).
  { intros Hz. assert (Hcd : create_decimal mf 5 ROUND_HALF_UP = Ok mu).
    { rewrite <- Hmu. unfold mu_stage. destruct Hz as [-> | ->]; [reflexivity|]. rewrite andb_comm. reflexivity. }
    destruct (create_decimal_half_up mf 5 Hm ltac:(lia)) as (s & c & e & E & _). rewrite E in Hcd. inversion Hcd; subst mu.
    cbn [known_to_dot]. rewrite Z.add_0_r. rewrite (half_units mf 5 s c e Hm ltac:(lia) E).
    change (10 ^ 5) with 100000. split; lra. }
  destruct (eb_stage_cases 2 None ef EB ltac:(lia) HE) as [(Hf & H0 & c & e & Hr & ->)|[[-> ->]|[-> ->]]].
  - destruct (eb_stage_create _ _ _ _ _ _ HE) as [Hcd _].
    pose proof (ceil_units ef 2 false c e Hf H0 ltac:(lia) Hcd) as Hu. change (10 ^ 2 - 1) with 99 in Hu.
    destruct Hr as (_ & (Hr1 & Hr2) & _ & Hz).
    destruct (N.eq_dec c 0) as [->|Hc].
    + rewrite Hdef by (right; reflexivity). specialize (Hz eq_refl). unfold needs_shift. rewrite Hz.
      split; intros H; [|apply Rnot_le_lt; intros Hx; apply H; right; auto]. intros [[_ Hx]|[_ Hx]]; lra.
    + assert (Hne : B2R64 ef <> 0%R).
      { intros Hx. rewrite Hx in Hr2. unfold dR in Hr2. pose proof (p10_pos e).
        assert (1 <= IZR (Z.of_N c))%R by (apply IZR_le; lia). nra. }
      assert (Hme : exists s q, mu = DFin s q e).
      { destruct (Rlt_dec (Rabs (B2R64 mf)) ((p10 28 - / 2) * p10 e)) as [Hl|Hl].
        - destruct (mu_stage_quantized 5 false c e mf Hc Hm Hl) as (s & q & E & _). rewrite E in Hmu. inversion Hmu. eauto.
        - rewrite (mu_stage_overflow 5 false c e mf Hc Hm Hl) in Hmu. discriminate. }
      destruct Hme as (s & q & ->). cbn [known_to_dot]. rewrite Z.add_0_r, Hu. unfold needs_shift. rewrite Hf.
      split; intros H; [|apply Rnot_lt_le; intros Hx; apply H; left; auto].
      intros [[_ Hx]|[[Hx|Hx] _]]; [lra|discriminate|contradiction].
  - rewrite Hdef by (left; reflexivity). unfold needs_shift. split; intros H; [|apply Rnot_le_lt; intros Hx; apply H; right; split; [left; reflexivity|exact Hx]].
    intros [[Hx _]|[_ Hx]]; [discriminate|lra].
  - rewrite Hdef by (left; reflexivity). unfold needs_shift. split; intros H; [|apply Rnot_le_lt; intros Hx; apply H; right; split; [left; reflexivity|exact Hx]].
    intros [[Hx _]|[_ Hx]]; [discriminate|lra].
Qed.

Lemma Forall2_In_l {A B} (P : A -> B -> Prop) l l' a : Forall2 P l l' -> In a l -> exists b, In b l' /\ P a b.
Proof. induction 1; intros []; subst; [eexists; split; [left; reflexivity|assumption]|]. destruct IHForall2 as (b & ? & ?); auto. exists b. split; [right|]; assumption. Qed.

Lemma Forall2_In_r {A B} (P : A -> B -> Prop) l l' b : Forall2 P l l' -> In b l' -> exists a, In a l /\ P a b.
Proof. induction 1; intros []; subst; [eexists; split; [left; reflexivity|assumption]|]. destruct IHForall2 as (a & ? & ?); auto. exists a. split; [right|]; assumption. Qed.

Lemma no_limit_unclipped s c e : ~ clipped (min_dec None) (limit_dec None) (DFin s c e).
Proof. intros [H|H]; discriminate H. Qed.

Lemma stages_of_cell ed pd dd clip mf ef pf r : decimalize_cell ed pd dd clip (mf, ef, pf) = Ok r ->
  exists EB mu p, r = (mu, EB, p) /\ eb_stage ed clip ef = Ok EB /\ mu_stage dd EB mf = Ok mu /\ pv_stage pd pf = Ok p.
Proof.
  rewrite decimalize_cell_stages. destruct (eb_stage ed clip ef) as [EB|]; [|discriminate]. cbn [bind].
  destruct (mu_stage dd EB mf) as [mu|] eqn:E2; [|discriminate]. cbn [bind].
  destruct (pv_stage pd pf) as [p|]; [|discriminate]. cbn [bind]. intros H; inversion H. exists EB, mu, p. auto.
Qed.

Lemma default_bad_iff t d : finite_means t -> decimalize 2 4 5 [] t = Ok d ->
  ((exists metric rows, In (metric, rows) d /\
      exists r, In r rows /\ ~ clipped (min_dec (dict_get [] metric)) (limit_dec (dict_get [] metric)) (rmean r) /\
                ~ known_to_dot (rmean r) 0)
   <-> exists i j metric method mf ef pf, cell_at t i j metric method (mf, ef, pf) /\ needs_shift mf ef).
Proof.
  intros Hf Hd. pose proof (decimalize_shape _ _ _ _ _ _ Hd) as HS. split.
  - intros (metric & rows & Hin & r & Hr & _ & Hk).
    destruct (Forall2_In_r _ _ _ _ HS Hin) as ([m0 rows0] & Hin0 & Hm & HR). cbn [fst snd] in *.
    destruct (Forall2_In_r _ _ _ _ HR Hr) as ([me [[mf ef] pf]] & Hr0 & Hme & HC). cbn [fst snd] in *.
    destruct (in_cell_at t m0 rows0 me (mf, ef, pf) Hin0 Hr0) as (i & j & Hc).
    destruct (stages_of_cell _ _ _ _ _ _ _ _ HC) as (EB & mu & p & Er & H1 & H2 & _).
    exists i, j, m0, me, mf, ef, pf. split; [exact Hc|].
    destruct r as [me' [[mu' EB'] p']]. cbn [snd rmean] in *. inversion Er; subst mu' EB' p'.
    assert (Hiff : known_to_dot mu 0 <-> ~ needs_shift mf ef) by (eapply cell_dot; eauto).
    apply Classical_Prop.NNPP. intros Hn. apply Hk, Hiff, Hn.
  - intros (i & j & metric & method & mf & ef & pf & (rows & Hi & Hj) & Hn).
    apply nth_error_In in Hi as Hin. apply nth_error_In in Hj as Hjn.
    destruct (Forall2_In_l _ _ _ _ HS Hin) as ([m1 rows1] & Hin1 & Hm & HR). cbn [fst snd] in *. subst m1.
    destruct (Forall2_In_l _ _ _ _ HR Hjn) as ([me [[mu EB] p]] & Hr1 & Hme & HC). cbn [fst snd] in *.
    destruct (stages_of_cell _ _ _ _ _ _ _ _ HC) as (EB' & mu' & p' & Er & H1 & H2 & _). inversion Er; subst EB' mu' p'.
    exists metric, rows1. split; [exact Hin1|]. exists (me, (mu, EB, p)). split; [exact Hr1|]. cbn [rmean dict_get].
    assert (Hfm : fisfin mf = true) by (eapply Hf; exists rows; eauto).
    split.
    + destruct (stages_est_cell 2 5 None mf ef mu EB ltac:(lia) ltac:(lia) Hfm H1 H2) as (s & c & e & -> & _). apply no_limit_unclipped.
    + intros Hk. apply (cell_dot mf ef EB mu Hfm H1 H2) in Hk. contradiction.
Qed.

(** ** Non-finite means *)

Definition mean_shown (kmin kmax : option Z) (mu : dec) : Prop :=
  match mu with
  | DFin _ _ _ => True
  | DInf s => (if s then kmin else kmax) <> None
  | DNaN => False
  end.

Lemma mapM_In {A B} (f : A -> res B) l out a : mapM f l = Ok out -> In a l -> exists b, f a = Ok b /\ In b out.
Proof.
  intros H Ha. apply mapM_Forall2 in H. destruct (Forall2_In_l _ _ _ _ H Ha) as (b & Hb & Hf). eauto.
Qed.

Lemma select_in {A} (f : A -> bool) l a : In a l -> f a = true -> In a (select (map f l) l).
Proof.
  intros Ha Hf. replace (select (map f l) l) with (map (fun x => x) (filter f l)).
  - rewrite map_id. apply filter_In. auto.
  - rewrite <- (map_id l) at 3. symmetry. apply (select_map f (fun x => x)).
Qed.

(** What an accepted clip mask says. *)
Lemma clip_mask_inv a b means idx : clip_mask (min_dec a) (limit_dec b) means = Ok idx ->
  Forall (fun mu => d_is_nan mu = false) means /\ idx = map (in_clip (min_dec a) (limit_dec b)) means.
Proof.
  intros H.
  assert (Hn : Forall (fun mu => d_is_nan mu = false) means).
  { apply Forall_forall. intros mu Hmu. unfold clip_mask in H.
    destruct (mapM (fun mu => d_le (min_dec a) mu) means) as [l|] eqn:E; [|discriminate].
    destruct (mapM_In _ _ _ mu E Hmu) as (x & Hx & _). destruct mu; [reflexivity|reflexivity|]. destruct a; discriminate. }
  split; [exact Hn|]. rewrite (clip_mask_spec (min_dec a) (limit_dec b) means) in H by (destruct a; destruct b; (reflexivity || exact Hn)).
  inversion H. reflexivity.
Qed.

Lemma in_clip_shown a b mu : d_is_nan mu = false -> (in_clip (min_dec a) (limit_dec b) mu = true -> d_is_finite mu = true) ->
  mean_shown a b mu.
Proof.
  destruct mu as [s c e|s|]; cbn [d_is_nan d_is_finite mean_shown]; intros Hn H; try discriminate; [exact I|].
  intros Hk. assert (Hin : in_clip (min_dec a) (limit_dec b) (DInf s) = true).
  { unfold in_clip. destruct (clipped_dec _ _ _) as [Hc|]; [|reflexivity]. exfalso.
    destruct s; subst; cbn [min_dec limit_dec] in Hc; unfold clipped in Hc.
    - destruct Hc as [Hc|Hc]; [destruct b; cbn [limit_dec ext_lt] in Hc; [discriminate|destruct Hc; discriminate]|cbn in Hc; destruct Hc; discriminate].
    - destruct Hc as [Hc|Hc]; [cbn in Hc; destruct Hc; discriminate|destruct a; cbn [min_dec ext_lt] in Hc; [discriminate|destruct Hc; discriminate]]. }
  specialize (H Hin). discriminate.
Qed.

Lemma format_metric_means argsort smod pad cmax cmin nf metric rows o :
  format_metric argsort smod pad cmax cmin nf metric rows = Ok o ->
  Forall (fun r : row => mean_shown (dict_get cmin metric) (dict_get cmax metric) (rmean r)) rows.
Proof.
  unfold format_metric. rewrite limit_expo_min, limit_expo_dec.
  change (map (fun '(_, (mu, _, _)) => mu) rows) with (map rmean rows).
  destruct (all_same _); [|discriminate]. cbn [py_assert bind].
  destruct (clip_mask _ _ _) as [idx|] eqn:E; [|discriminate]. cbn [bind].
  apply clip_mask_inv in E. destruct E as [Hn ->]. rewrite Forall_forall in Hn.
  destruct (decimal_all_finite _) eqn:Ef; [|discriminate]. intros _.
  unfold decimal_all_finite in Ef. rewrite forallb_forall in Ef.
  apply Forall_forall. intros r Hr. assert (Hm : In (rmean r) (map rmean rows)) by (apply in_map; exact Hr).
  apply in_clip_shown; [apply Hn, Hm|]. intros Hin. apply Ef. apply select_in; assumption.
Qed.

Lemma format_table_means argsort smod pad cmax cmin nf d out metric rows r :
  format_table argsort smod pad cmax cmin nf d = Ok out -> In (metric, rows) d -> In r rows ->
  mean_shown (dict_get cmin metric) (dict_get cmax metric) (rmean r).
Proof.
  unfold format_table. destruct (forallb _ d); [|discriminate]. cbn [py_assert bind].
  destruct (negb (length d =? 0)%nat); [|discriminate]. cbn [py_assert bind].
  intros H Hd Hr. destruct (mapM_In _ _ _ _ H Hd) as (o & Ho & _).
  apply format_metric_means in Ho. rewrite Forall_forall in Ho. apply Ho, Hr.
Qed.

Lemma mu_stage_nan dd EB mu : mu_stage dd EB fnan = Ok mu -> mu = DNaN.
Proof.
  unfold mu_stage, create_decimal. cbn [d_of_float fnan].
  destruct (d_is_finite EB && negb (d_is_zero EB))%bool; [intros H; destruct EB; inversion H; reflexivity|].
  destruct (1 <=? dd); [|discriminate]. cbn [py_assert bind d_plus]. intros H; inversion H; reflexivity.
Qed.

Lemma mu_stage_inf dd EB (s : bool) mu : mu_stage dd EB (if s then fninf else finf) = Ok mu -> mu = DInf s.
Proof.
  unfold mu_stage, create_decimal. replace (d_of_float (if s then fninf else finf)) with (DInf s) by (destruct s; reflexivity).
  destruct EB as [s' c' e'|s'|]; cbn [d_is_finite andb]; [destruct (negb _); [discriminate|]| |];
  (destruct (1 <=? dd); [|discriminate]; cbn [py_assert bind d_plus]; intros H; inversion H; reflexivity).
Qed.

(** Only the text for NaN p-values is taken from the dictionary. *)
Lemma print_pval_fmt p nf nf' : dict_get_def nf NAN_STR NAN_STR = dict_get_def nf' NAN_STR NAN_STR ->
  print_pval p nf = print_pval p nf'.
Proof. intros H. unfold print_pval. rewrite H. reflexivity. Qed.

Lemma print_estimate_fmt a b mu EB sh nf nf' : d_is_nan mu = false ->
  (in_clip (min_dec a) (limit_dec b) mu = true -> d_is_finite mu = true) ->
  print_estimate mu EB sh (min_dec a) (limit_dec b) nf = print_estimate mu EB sh (min_dec a) (limit_dec b) nf'.
Proof.
  intros Hn Hf. destruct mu as [s c e|s|]; [reflexivity| |discriminate].
  pose proof (in_clip_shown a b (DInf s) Hn Hf) as Hs. cbn [mean_shown] in Hs.
  unfold print_estimate. cbn [d_is_nan negb]. destruct s, a, b; try contradiction; cbn [min_dec limit_dec]; reflexivity.
Qed.

Lemma format_metric_fmt argsort smod pad cmax cmin nf nf' metric rows :
  dict_get_def nf NAN_STR NAN_STR = dict_get_def nf' NAN_STR NAN_STR ->
  format_metric argsort smod pad cmax cmin nf metric rows = format_metric argsort smod pad cmax cmin nf' metric rows.
Proof.
  intros Hnf. unfold format_metric. rewrite limit_expo_min, limit_expo_dec.
  change (map (fun '(_, (mu, _, _)) => mu) rows) with (map rmean rows).
  destruct (all_same _); [|reflexivity]. cbn [py_assert bind].
  destruct (clip_mask _ _ _) as [idx|] eqn:E; [|reflexivity]. cbn [bind].
  apply clip_mask_inv in E. destruct E as [Hn ->]. rewrite Forall_forall in Hn.
  destruct (decimal_all_finite _) eqn:Ef; [|reflexivity]. cbn [py_assert bind].
  unfold decimal_all_finite in Ef. rewrite forallb_forall in Ef.
  destruct (match smod with None => _ | Some _ => _ end) as [sh|]; [|reflexivity]. cbn [bind].
  match goal with |- (do out <- mapM ?f _; _) = (do out <- mapM ?g _; _) =>
    assert (Hm : mapM f rows = mapM g rows) end.
  { apply ListLemmas.mapM_ext. intros [method [[mu EB] p]] Hr.
    assert (Hin : In mu (map rmean rows)) by (apply in_map_iff; exists (method, (mu, EB, p)); auto).
    rewrite (print_estimate_fmt _ _ mu EB sh nf nf' (Hn _ Hin)) by (intros Hc; apply Ef, select_in; assumption).
    destruct (print_estimate _ _ _ _ _ _); [|reflexivity]. cbn [bind]. rewrite (print_pval_fmt p nf nf' Hnf). reflexivity. }
  rewrite Hm. reflexivity.
Qed.

Lemma format_table_fmt argsort smod pad cmax cmin nf nf' d :
  dict_get_def nf NAN_STR NAN_STR = dict_get_def nf' NAN_STR NAN_STR ->
  format_table argsort smod pad cmax cmin nf d = format_table argsort smod pad cmax cmin nf' d.
Proof.
  intros Hnf. unfold format_table. destruct (forallb _ d); [|reflexivity]. destruct (negb _); [|reflexivity]. cbn [py_assert bind].
  apply ListLemmas.mapM_ext. intros [metric rows] _. apply format_metric_fmt, Hnf.
Qed.

Lemma printed_zero cmax cmin nf pad (d : ptable dec) (out : list fmt_block) :
  Forall2 (fun m o => fst (fst o) = fst m /\ snd (fst o) = 0 /\
      Forall2 (row_printed 0 (min_dec (dict_get cmin (fst m))) (limit_dec (dict_get cmax (fst m))) nf pad)
              (snd m) (snd o)) d out -> printed (fun sh => sh = 0) cmax cmin nf pad d out.
Proof.
  apply Forall2_impl2. intros m o _ (H1 & H2 & H3). split; [exact H1|]. split; [exact H2|]. rewrite H2. exact H3.
Qed.
