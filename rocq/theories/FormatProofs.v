(** Proofs about number formatting and reading back. *)
From Coq Require Import Reals Lra ZifyBool ZifyNat ZifyN Wf_nat.
From Verif Require Import PyBase F64 Dec Sciprint Spec_Sciprint DecProofs DecRound.
Open Scope Z_scope.

Lemma digit_ok_cases d : digit_ok d ->
  d = 0%N \/ d = 1%N \/ d = 2%N \/ d = 3%N \/ d = 4%N \/ d = 5%N \/ d = 6%N \/ d = 7%N \/ d = 8%N \/ d = 9%N.
Proof. unfold digit_ok. lia. Qed.

Lemma char_digit_digchar d : digit_ok d -> char_digit (digchar d) = Some d.
Proof.
  intros H. apply digit_ok_cases in H.
  repeat (destruct H as [->|H]; [reflexivity|]). subst. reflexivity.
Qed.

Definition dchars (l : list N) : pystr := map digchar l.

Lemma char_digit_neq a c : is_digit_char a -> char_digit c = None -> Ascii.eqb a c = false.
Proof.
  unfold is_digit_char. intros H H'. destruct (Ascii.eqb_spec a c) as [->|]; [contradiction|reflexivity].
Qed.

Lemma dchars_digit l : Forall digit_ok l -> Forall is_digit_char (dchars l).
Proof.
  induction 1 as [|d l Hd Hl IH]; cbn; constructor; auto.
  unfold is_digit_char. rewrite char_digit_digchar by exact Hd. discriminate.
Qed.

(** ** Commas *)

Definition not_comma (c : ascii) : bool := negb (Ascii.eqb c ",").

Lemma filter_digits l : Forall is_digit_char l -> filter not_comma l = l.
Proof.
  induction 1 as [|a l Ha Hl IH]; cbn; [reflexivity|].
  unfold not_comma at 1. rewrite (char_digit_neq a ",") by (assumption || reflexivity).
  cbn. now rewrite IH.
Qed.

Lemma commas_rev_step a b c d l :
  commas_rev (a :: b :: c :: d :: l) = a :: b :: c :: ","%char :: commas_rev (d :: l).
Proof. reflexivity. Qed.

Lemma commas_rev_short l : (length l <= 3)%nat -> commas_rev l = l.
Proof.
  destruct l as [|a [|b [|c [|d l]]]]; cbn [length]; intros H; try reflexivity. lia.
Qed.

Lemma filter_commas_rev : forall n l, (length l <= n)%nat -> Forall is_digit_char l ->
  filter not_comma (commas_rev l) = l.
Proof.
  induction n as [|n IH]; intros l Hn Hl.
  - destruct l; [reflexivity|cbn in Hn; lia].
  - destruct l as [|a [|b [|c [|d l]]]];
      try (rewrite commas_rev_short by (cbn; lia); apply filter_digits; assumption).
    rewrite commas_rev_step.
    inversion Hl as [|? ? Ha Hl1]; subst. inversion Hl1 as [|? ? Hb Hl2]; subst.
    inversion Hl2 as [|? ? Hc Hl3]; subst.
    cbn [filter]. unfold not_comma at 1 2 3 4.
    rewrite !(fun a => char_digit_neq a ",") by (assumption || reflexivity).
    cbn [negb Ascii.eqb]. rewrite (IH (d :: l)); [reflexivity| |assumption].
    cbn [length] in *. lia.
Qed.

Lemma filter_group3 l : Forall is_digit_char l -> filter not_comma (group3 l) = l.
Proof.
  intros H. unfold group3. 
  assert (Hf : forall l, filter not_comma (rev l) = rev (filter not_comma l)).
  { clear. induction l as [|a l IH]; cbn; [reflexivity|].
    rewrite filter_app, IH. cbn. destruct (not_comma a); cbn; [reflexivity|apply app_nil_r]. }
  rewrite Hf, (filter_commas_rev (length (rev l))), rev_involutive; [reflexivity|lia|].
  apply Forall_rev. exact H.
Qed.

Lemma grouped_tail_app t a b c : grouped_tail t ->
  is_digit_char a -> is_digit_char b -> is_digit_char c ->
  grouped_tail (t ++ [","; a; b; c]%char).
Proof.
  intros Ht Ha Hb Hc. induction Ht as [|x y z s Hx Hy Hz Hs IH]; cbn.
  - repeat constructor; assumption.
  - constructor; assumption.
Qed.

Lemma well_grouped_rev : forall n l, (length l <= n)%nat -> l <> [] -> Forall is_digit_char l ->
  well_grouped (rev (commas_rev l)).
Proof.
  induction n as [|n IH]; intros l Hn Hne Hl.
  - destruct l; [contradiction|cbn in Hn; lia].
  - destruct l as [|a [|b [|c [|d l]]]]; try contradiction;
      try (rewrite commas_rev_short by (cbn; lia); eexists _, []; rewrite app_nil_r;
           split; [reflexivity|]; split; [rewrite rev_length; cbn; lia|];
           split; [apply Forall_rev; assumption|constructor]).
    rewrite commas_rev_step.
    inversion Hl as [|? ? Ha Hl1]; subst. inversion Hl1 as [|? ? Hb Hl2]; subst.
    inversion Hl2 as [|? ? Hc Hl3]; subst.
    destruct (IH (d :: l)) as (h & t & Heq & Hlen & Hh & Ht);
      [cbn [length] in *; lia|discriminate|assumption|].
    cbn [rev]. rewrite Heq. exists h, (t ++ [","; c; b; a]%char).
    split; [rewrite <- !app_assoc; reflexivity|]. split; [exact Hlen|]. split; [exact Hh|].
    apply grouped_tail_app; assumption.
Qed.

Lemma well_grouped_group3 l : l <> [] -> Forall is_digit_char l -> well_grouped (group3 l).
Proof.
  intros Hne Hl. unfold group3. apply (well_grouped_rev (length (rev l))); [lia| |apply Forall_rev, Hl].
  intros H. apply Hne. apply (f_equal (@rev ascii)) in H. rewrite rev_involutive in H. exact H.
Qed.

(** ** Scanning *)

Lemma scan_digits : forall l rest acc dot, Forall digit_ok l ->
  scan (dchars l ++ rest) acc dot
  = scan rest (acc * 10 ^ N.of_nat (length l) + dval l)%N
         (option_map (fun k => length l + k)%nat dot).
Proof.
  induction l as [|d l IH]; intros rest acc dot Hl.
  - cbn [dchars map app length]. rewrite N.pow_0_r. unfold dval. cbn [fold_left].
    destruct dot; cbn [option_map]; f_equal; lia.
  - inversion Hl as [|? ? Hd Hl']; subst. cbn [dchars map app scan].
    rewrite char_digit_digchar by exact Hd. change (map digchar l) with (dchars l).
    rewrite IH by exact Hl'. rewrite dval_cons. cbn [length].
    rewrite Nat2N.inj_succ, N.pow_succ_r'. f_equal; [lia|].
    destruct dot; cbn [option_map]; f_equal; lia.
Qed.

Lemma scan_commas : forall s rest acc,
  Forall (fun a => is_digit_char a \/ a = ","%char) s ->
  scan (s ++ rest) acc None = scan (filter not_comma s ++ rest) acc None.
Proof.
  induction s as [|a s IH]; intros rest acc H; [reflexivity|].
  inversion H as [|? ? Ha Hs]; subst. cbn [app scan filter].
  destruct Ha as [Ha| ->].
  - unfold is_digit_char in Ha. destruct (char_digit a) as [d|] eqn:E; [|contradiction].
    unfold not_comma at 1. rewrite (char_digit_neq a ","); [|unfold is_digit_char; congruence|reflexivity].
    cbn [negb app scan]. rewrite E. cbn [option_map]. apply IH. exact Hs.
  - change (not_comma ",") with false. cbn -[scan]. cbn [scan char_digit]. apply IH. exact Hs.
Qed.

Lemma group3_chars l : Forall is_digit_char l ->
  Forall (fun a => is_digit_char a \/ a = ","%char) (group3 l).
Proof.
  intros Hl. destruct l as [|a l].
  - constructor.
  - destruct (well_grouped_group3 (a :: l)) as (h & t & -> & _ & Hh & Ht); [discriminate|exact Hl|].
    apply Forall_app; split.
    + eapply Forall_impl; [|exact Hh]. auto.
    + clear Hh. induction Ht as [|x y z s Hx Hy Hz Hs IH]; [constructor|].
      constructor; [right; reflexivity|].
      do 3 (constructor; [left; assumption|]). exact IH.
Qed.

Lemma scan_group3 l rest acc : Forall digit_ok l ->
  scan (group3 (dchars l) ++ rest) acc None
  = scan rest (acc * 10 ^ N.of_nat (length l) + dval l)%N None.
Proof.
  intros Hl. rewrite scan_commas by (apply group3_chars, dchars_digit, Hl).
  rewrite filter_group3 by (apply dchars_digit, Hl).
  rewrite scan_digits by exact Hl. reflexivity.
Qed.

(** First character of a formatted number. *)
Lemma group3_digits_head n : exists a t, group3 (dchars (digits n)) = a :: t /\ is_digit_char a.
Proof.
  destruct (well_grouped_group3 (dchars (digits n))) as (h & t & -> & Hlen & Hh & _).
  - pose proof (digits_nonempty n). destruct (digits n); [contradiction|discriminate].
  - apply dchars_digit, digits_ok.
  - destruct h as [|a h]; [cbn in Hlen; lia|]. inversion Hh; subst. cbn. eauto.
Qed.

Definition unsigned_format (c : N) (e : Z) : pystr :=
  if 0 <=? e then group3 (dchars (digits (c * pow10 e)))
  else group3 (dchars (digits (N.div c (pow10 (- e)))))
       ++ "."%char :: dchars (fixdig (Z.to_nat (- e)) c).

Lemma d_format_unfold s c e :
  d_format (DFin s c e) = (if s then str "-" else []) ++ unsigned_format c e.
Proof. reflexivity. Qed.

Lemma unsigned_format_head c e : exists a t, unsigned_format c e = a :: t /\ is_digit_char a.
Proof.
  unfold unsigned_format. destruct (0 <=? e).
  - apply group3_digits_head.
  - destruct (group3_digits_head (c / pow10 (- e))) as (a & t & -> & Ha). cbn. eauto.
Qed.

Lemma scan_unsigned_format c e :
  scan (unsigned_format c e) 0 None =
  if 0 <=? e then Some ((c * pow10 e)%N, O) else Some (c, Z.to_nat (- e)).
Proof.
  unfold unsigned_format. destruct (Z.leb_spec 0 e) as [H|H].
  - rewrite <- (app_nil_r (group3 _)), scan_group3 by apply digits_ok.
    cbn [scan]. rewrite digits_val. f_equal.
  - rewrite scan_group3 by apply digits_ok.
    cbn [scan]. change (char_digit ".") with (@None N). cbn [Ascii.eqb Bool.eqb].
    rewrite <- (app_nil_r (dchars (fixdig _ _))), scan_digits by apply fixdig_ok.
    cbn [scan option_map]. rewrite fixdig_length, fixdig_val, digits_val, Nat.add_0_r.
    f_equal. f_equal. rewrite N.mul_0_l, N.add_0_l.
    replace (10 ^ N.of_nat (Z.to_nat (- e)))%N with (pow10 (- e)) by (unfold pow10; f_equal; lia).
    pose proof (pow10_pos (- e)). pose proof (N.div_mod c (pow10 (- e))). lia.
Qed.

Lemma read_number_digit_head a t : is_digit_char a ->
  read_number (a :: t) = option_map (fun '(c, k) => (false, c, k)) (scan (a :: t) 0 None).
Proof.
  intros Ha. cbn [read_number]. rewrite (char_digit_neq a "-") by (assumption || reflexivity).
  reflexivity.
Qed.

(** The formatted text reads back to the number. *)
Lemma read_number_format s c e :
  read_number (d_format (DFin s c e)) =
  if 0 <=? e then Some (s, (c * pow10 e)%N, O) else Some (s, c, Z.to_nat (- e)).
Proof.
  rewrite d_format_unfold. destruct (unsigned_format_head c e) as (a & t & Hu & Ha).
  pose proof (scan_unsigned_format c e) as Hs. rewrite Hu in *.
  destruct s; cbn [str list_ascii_of_string app].
  - cbn [read_number Ascii.eqb Bool.eqb]. rewrite Hs. destruct (0 <=? e); reflexivity.
  - rewrite read_number_digit_head by exact Ha. rewrite Hs. destruct (0 <=? e); reflexivity.
Qed.

Lemma read_number_digits c : read_number (dchars (digits c)) = Some (false, c, O).
Proof.
  pose proof (dchars_digit _ (digits_ok c)) as Hd. pose proof (digits_nonempty c) as Hne.
  destruct (dchars (digits c)) as [|a t] eqn:E.
  - destruct (digits c); [contradiction|discriminate].
  - inversion Hd; subst. rewrite read_number_digit_head by assumption. rewrite <- E.
    rewrite <- (app_nil_r (dchars _)), scan_digits by apply digits_ok. cbn [scan option_map].
    rewrite digits_val. reflexivity.
Qed.

(** Characters of a formatted finite number. *)
Definition num_char (a : ascii) : Prop :=
  is_digit_char a \/ a = ","%char \/ a = "."%char \/ a = "-"%char.

Lemma unsigned_format_chars c e : Forall num_char (unsigned_format c e).
Proof.
  assert (Hg : forall l, Forall digit_ok l -> Forall num_char (group3 (dchars l))).
  { intros l Hl. eapply Forall_impl; [|apply group3_chars, dchars_digit, Hl].
    unfold num_char. intros a [H|H]; auto. }
  assert (Hd : forall l, Forall digit_ok l -> Forall num_char (dchars l)).
  { intros l Hl. eapply Forall_impl; [|apply dchars_digit, Hl]. unfold num_char. auto. }
  unfold unsigned_format. destruct (0 <=? e).
  - apply Hg, digits_ok.
  - apply Forall_app; split; [apply Hg, digits_ok|].
    constructor; [unfold num_char; auto|apply Hd, fixdig_ok].
Qed.

Lemma d_format_chars s c e : Forall num_char (d_format (DFin s c e)).
Proof.
  rewrite d_format_unfold. apply Forall_app; split; [|apply unsigned_format_chars].
  destruct s; cbn [str list_ascii_of_string]; [|constructor].
  constructor; [unfold num_char; auto|constructor].
Qed.

Lemma num_char_no (x : ascii) l : Forall num_char l ->
  char_digit x = None -> x <> ","%char -> x <> "."%char -> x <> "-"%char ->
  mem_char x l = false.
Proof.
  intros Hl H1 H2 H3 H4. unfold mem_char. induction Hl as [|a l Ha Hl IH]; cbn; [reflexivity|].
  rewrite IH, orb_false_r. destruct (Ascii.eqb_spec x a) as [<-|]; [|reflexivity].
  destruct Ha as [Ha|[Ha|[Ha|Ha]]]; try contradiction.
Qed.

Lemma split_paren_none l : mem_char "(" l = false -> split_paren l = (l, None).
Proof.
  unfold mem_char. induction l as [|a l IH]; cbn [existsb split_paren]; intros H; [reflexivity|].
  apply orb_false_iff in H. destruct H as [Ha Hl]. rewrite Ascii.eqb_sym in Ha. rewrite Ha.
  rewrite IH by exact Hl. reflexivity.
Qed.

Lemma split_paren_some l r : mem_char "(" l = false -> split_paren (l ++ "(" :: r)%char = (l, Some r).
Proof.
  unfold mem_char. induction l as [|a l IH]; cbn [existsb split_paren app]; intros H; [reflexivity|].
  apply orb_false_iff in H. destruct H as [Ha Hl]. rewrite Ascii.eqb_sym in Ha. rewrite Ha.
  rewrite IH by exact Hl. reflexivity.
Qed.

Lemma strip_close_app l : strip_close (l ++ [")"%char]) = Some l.
Proof. unfold strip_close. rewrite rev_app_distr. cbn. rewrite rev_involutive. reflexivity. Qed.
