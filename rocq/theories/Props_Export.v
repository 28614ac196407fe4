(** Property theorems C79-C82 about the table export of sciprint.py
    ([just_format_it], [table_to_latex], [table_to_string]).
    Vocabulary: Spec_Sciprint.v, [header_says] (HeaderProofs.v), [truthful],
    [truthful_p] (FormatTableProofs.v), [shows], [needs_shift], [col_letters],
    [one_index] (ExportProofs.v).  Model: TableExport.v, Sciprint.v. *)
From Coq Require Import Reals Lra ZifyBool ZifyNat ZifyN.
From Verif Require Import PyBase F64 Dec Sciprint Spec_Sciprint DecProofs DecRound FormatProofs
  EstimateProofs DecimalizeProofs ShiftProofs TableProofs FormatTableProofs HeaderProofs ArgsortInst
  TableExport ExportProofs.
Open Scope Z_scope.

(** ** C79: what the exported table says about the input *)
Theorem C79_export_truthful :
  forall argsort md cmax cmin lim nf ud tex up methods t,
  argsort_ok argsort -> 1 <= md -> nonempty_table t -> one_index methods t ->
  (forall i j metric method v, cell_at t i j metric method v ->
     clean_cell v /\ ~ too_wide 2 (dict_get lim metric) v) ->
  exists align F,
    (forall to_string to_latex,
       just_format_it to_string to_latex argsort t ud (Some md) cmax cmin lim nf tex up =
       Ok (if tex then to_latex align F else to_string F)) /\
    shows tex (fun sh => (md | sh)) methods t 4 ud up cmax cmin nf F.
Proof.
  intros argsort md cmax cmin lim nf ud tex up methods t Hs Hmd Hne Hix Hc.
  destruct (decimalize_ok 2 4 5 lim t ltac:(lia) ltac:(lia) ltac:(lia) Hc) as [d Hd].
  assert (Hf : finite_means t).
  { intros i j metric method mf ef pf Hcell. destruct (Hc _ _ _ _ _ Hcell) as [(H & _) _]. exact H. }
  assert (Hok : table_ok 4 d) by (eapply (decimalize_table_ok 2 4 5); eauto; lia).
  destruct (format_table_shift argsort md true cmax cmin nf 4 d Hs Hmd Hok) as (out & Ho & HP).
  destruct (printed_shows tex (fun sh => (md | sh)) methods ud up cmax cmin nf 2 4 5 lim t d out
              ltac:(lia) ltac:(lia) Hne Hix Hf Hd HP) as (HF & Hl & Hsh).
  exists (latex_align (length t)), (frame_of methods out ud up tex). split; [|exact Hsh].
  intros ts tl. eapply export_eq; eauto.
Qed.
Print Assumptions C79_export_truthful.

Definition ex_table2 : ptable f64 :=
  [(str "NLL", [(str "iid", (f_lit 123456 1000, f_lit 1234 1000, f_lit 1 1));
                (str "GPC", (f_lit 5 100, f_lit 3 1000, f_lit 1 100000))]);
   (str "run_time", [(str "iid", (f_lit 12345 1, f_lit 250 1, fnan));
                     (str "GPC", (f_lit 17 10, fnan, f_lit 1 4))])].

(** A renderer that lists the labels and entries. *)
Definition plain (f : sframe) : pystr :=
  concat (map (fun c => c ++ str ";") (sf_columns f)) ++
  concat (map (fun r => str "|" ++ concat (map (fun c => c ++ str ";") r)) (sf_values f)).

Example C79_case :
  (do s <- just_format_it plain (fun a f => a ++ plain f) argsort_ins ex_table2 [(str "run_time", str "s")] (Some 3) [] [] [] [] false true;
   Ok (show s)) =
  Ok "NLL;p;run time (ks);p;|123.5(13)   ;1.0000;12.35(25) ;nan;|0.0500(31);<0.0001;0.0017000;0.2500;"%string /\
  one_index [str "iid"; str "GPC"] ex_table2 /\ nonempty_table ex_table2.
Proof.
  split; [vm_compute; reflexivity|]. split.
  - split; [repeat constructor; cbn; intuition discriminate|]. intros m [<-|[<-|[]]]; reflexivity.
  - split; [discriminate|]. intros m [<-|[<-|[]]]; discriminate.
Qed.

(** ** C80: the default settings *)
Theorem C80_default_fails_iff :
  forall to_string to_latex argsort nf ud tex up t,
  nonempty_table t -> (exists methods, one_index methods t) ->
  (forall i j metric method v, cell_at t i j metric method v -> clean_cell v /\ ~ too_wide 2 None v) ->
  let out := just_format_it to_string to_latex argsort t ud None [] [] [] nf tex up in
  (out = Err ValueError <->
   exists i j metric method mf ef pf, cell_at t i j metric method (mf, ef, pf) /\ needs_shift mf ef) /\
  (out = Err ValueError \/ exists s, out = Ok s).
Proof.
  intros ts tl argsort nf ud tex up t Hne (methods & Hix) Hc out.
  destruct (decimalize_ok 2 4 5 [] t ltac:(lia) ltac:(lia) ltac:(lia) Hc) as [d Hd].
  assert (Hf : finite_means t).
  { intros i j metric method mf ef pf Hcell. destruct (Hc _ _ _ _ _ Hcell) as [(H & _) _]. exact H. }
  assert (Hok : table_ok 4 d) by (eapply (decimalize_table_ok 2 4 5); eauto; lia).
  destruct (format_table_none argsort true [] [] nf 4 d Hok) as [Hbad Hgood].
  pose proof (default_bad_iff t d Hf Hd) as Hiff.
  assert (HB : (exists i j metric method mf ef pf, cell_at t i j metric method (mf, ef, pf) /\ needs_shift mf ef) -> out = Err ValueError).
  { intros H. apply Hiff in H. unfold out, just_format_it. rewrite Hd. cbn [bind]. rewrite (Hbad H). reflexivity. }
  assert (HG : ~ (exists i j metric method mf ef pf, cell_at t i j metric method (mf, ef, pf) /\ needs_shift mf ef) -> exists s, out = Ok s).
  { intros H. destruct Hgood as (o & Ho & HP).
    { intros metric rows Hin Hx. apply H, Hiff. exists metric, rows. split; [exact Hin|exact Hx]. }
    destruct (printed_shows tex (fun sh => sh = 0) methods ud up [] [] nf 2 4 5 [] t d o
                ltac:(lia) ltac:(lia) Hne Hix Hf Hd (printed_zero _ _ _ _ _ _ HP)) as (HF & Hl & _).
    eexists. unfold out. eapply export_eq; eauto. }
  split; [split; [|exact HB]|].
  - intros Ho. apply Classical_Prop.NNPP. intros Hn. destruct (HG Hn) as [s Hs]. congruence.
  - destruct (Classical_Prop.classic (exists i j metric method mf ef pf, cell_at t i j metric method (mf, ef, pf) /\ needs_shift mf ef)); auto.
Qed.
Print Assumptions C80_default_fails_iff.

Theorem C80_default_truthful :
  forall argsort nf ud tex up methods t,
  nonempty_table t -> one_index methods t ->
  (forall i j metric method mf ef pf, cell_at t i j metric method (mf, ef, pf) ->
     clean_cell (mf, ef, pf) /\ ~ too_wide 2 None (mf, ef, pf) /\ ~ needs_shift mf ef) ->
  exists align F,
    (forall to_string to_latex,
       just_format_it to_string to_latex argsort t ud None [] [] [] nf tex up =
       Ok (if tex then to_latex align F else to_string F)) /\
    shows tex (fun sh => sh = 0) methods t 4 ud up [] [] nf F.
Proof.
  intros argsort nf ud tex up methods t Hne Hix Hc.
  destruct (decimalize_ok 2 4 5 [] t ltac:(lia) ltac:(lia) ltac:(lia)) as [d Hd].
  { intros i j metric method [[mf ef] pf] Hcell. destruct (Hc _ _ _ _ _ _ _ Hcell) as (H1 & H2 & _). auto. }
  assert (Hf : finite_means t).
  { intros i j metric method mf ef pf Hcell. destruct (Hc _ _ _ _ _ _ _ Hcell) as [(H & _) _]. exact H. }
  assert (Hok : table_ok 4 d) by (eapply (decimalize_table_ok 2 4 5); eauto; lia).
  destruct (format_table_none argsort true [] [] nf 4 d Hok) as [_ Hgood].
  destruct Hgood as (o & Ho & HP).
  { intros metric rows Hin Hx.
    assert (Hb : exists metric rows, In (metric, rows) d /\
      exists r, In r rows /\ ~ clipped (min_dec (dict_get [] metric)) (limit_dec (dict_get [] metric)) (rmean r) /\
                ~ known_to_dot (rmean r) 0) by (exists metric, rows; split; [exact Hin|exact Hx]).
    apply (default_bad_iff t d Hf Hd) in Hb. destruct Hb as (i & j & m & me & mf & ef & pf & Hcell & Hn).
    destruct (Hc _ _ _ _ _ _ _ Hcell) as (_ & _ & H). contradiction. }
  destruct (printed_shows tex (fun sh => sh = 0) methods ud up [] [] nf 2 4 5 [] t d o
              ltac:(lia) ltac:(lia) Hne Hix Hf Hd (printed_zero _ _ _ _ _ _ HP)) as (HF & Hl & Hsh).
  exists (latex_align (length t)), (frame_of methods o ud up tex). split; [|exact Hsh].
  intros ts tl. eapply export_eq; eauto.
Qed.
Print Assumptions C80_default_truthful.

(** The second metric of [ex_table2] has an error bar of 250. *)
Example C80_case :
  just_format_it plain (fun a f => a ++ plain f) argsort_ins ex_table2 [] None [] [] [] [] false true = Err ValueError /\
  (do s <- just_format_it plain (fun a f => a ++ plain f) argsort_ins (firstn 1 ex_table2) [] None [] [] [] [] true true;
   Ok (show s)) =
  Ok "|l|Sr|{NLL};{p};|123.5(13)   ;1.0000;|0.0500(31);<0.0001;"%string /\
  needs_shift (f_lit 12345 1) (f_lit 250 1).
Proof.
  split; [vm_compute; reflexivity|]. split; [vm_compute; reflexivity|]. left. split; [vm_compute; reflexivity|].
  assert (E : B2R64 (f_lit 250 1) = 250%R); [|rewrite E; lra].
  unfold f_lit. vm_compute. lra.
Qed.

(** ** C81: the LaTeX column specification fits the frame *)
Theorem C81_latex_columns :
  forall to_latex bs ud up s, table_to_latex to_latex bs ud up = Ok s ->
  exists align F, s = to_latex align F /\
    length (col_letters align) = S (length (sf_columns F)) /\
    nth_error (col_letters align) 0 = Some "l"%char /\
    (forall i, (i < length bs)%nat ->
       nth_error (col_letters align) (1 + 2 * i) = Some "S"%char /\
       nth_error (col_letters align) (2 + 2 * i) = Some "r"%char) /\
    Forall (fun h => exists h', h = str "{" ++ h' ++ str "}") (sf_columns F).
Proof.
  intros tl bs ud up s H. unfold table_to_latex in H.
  destruct (Nat.eqb _ _); [|discriminate]. cbn [py_assert bind] in H.
  destruct (relabelled bs ud up true) as [F|] eqn:E; [|discriminate]. cbn [bind] in H.
  rewrite str_columns_length, (Nat.mul_comm 2), Nat.div_mul in H by lia. fold (latex_align (length bs)) in H.
  exists (latex_align (length bs)), F. split; [congruence|]. rewrite col_letters_align.
  unfold relabelled in E. destruct (adjust_headers _ _ _ _ _) as [hs|] eqn:Eh; [|discriminate]. cbn [bind] in E.
  apply Ok_inj in E. subst F. cbn [sf_columns].
  unfold adjust_headers in Eh. apply mapM_Forall2 in Eh.
  split.
  { cbn [length]. rewrite pairs_length, repeat_length, <- (Forall2_len _ _ _ Eh), str_columns_length. reflexivity. }
  split; [reflexivity|]. split.
  - intros i Hi. destruct (pairs_nth (fun _ : unit => "S"%char) (fun _ => "r"%char) (repeat tt (length bs)) i tt) as [H1 H2].
    { rewrite (nth_error_nth' _ tt) by (rewrite repeat_length; exact Hi). destruct (nth i _ tt). reflexivity. }
    split; [exact H1|]. replace (2 + 2 * i)%nat with (S (2 * i + 1)) by lia. exact H2.
  - eapply Forall2_Forall_r; [|exact Eh]. intros [m st] h _ Hx.
    destruct (dict_get (str_shifts bs) m) as [sh|]; [|discriminate]. apply Ok_inj in Hx. subst h.
    eexists. unfold adjust_header. reflexivity.
Qed.
Print Assumptions C81_latex_columns.

Example C81_case :
  (do s <- table_to_latex (fun a f => a ++ plain f) [(str "a_b", 3, [(str "m", (str "1.2(3)", str "0.1"))])] [] true;
   Ok (show s)) = Ok ("|l|Sr|{a b $" ++ String "009" "imes 10^{3}$};{p};|1.2(3);0.1;")%string.
Proof. vm_compute; reflexivity. Qed.

(** ** C82: non-finite estimates *)
Theorem C82_nonfinite_means_rejected :
  forall to_string to_latex argsort ud smod cmax cmin lim nf tex up t s,
  just_format_it to_string to_latex argsort t ud smod cmax cmin lim nf tex up = Ok s ->
  forall i j metric method mf ef pf, cell_at t i j metric method (mf, ef, pf) ->
  fisfin mf = true \/ (mf = finf /\ dict_get cmax metric <> None) \/ (mf = fninf /\ dict_get cmin metric <> None).
Proof.
  intros ts tl argsort ud smod cmax cmin lim nf tex up t s H i j metric method mf ef pf Hc.
  unfold just_format_it in H. destruct (decimalize 2 4 5 lim t) as [d|] eqn:Hd; [|discriminate]. cbn [bind] in H.
  destruct (format_table argsort smod true cmax cmin nf d) as [out|] eqn:Ho; [|discriminate]. clear H.
  destruct (decimalize_cells _ _ _ _ _ _ Hd) as (_ & _ & Hcells).
  destruct (Hcells _ _ _ _ _ _ _ Hc) as (mu & EB & p & (rows & Hi & Hj) & _ & H2 & _).
  pose proof (format_table_means _ _ _ _ _ _ _ _ _ _ _ Ho (nth_error_In _ _ Hi) (nth_error_In _ _ Hj)) as Hm.
  cbn [rmean] in Hm. destruct (f64_cases mf) as [Hf | [-> | [-> | ->]]]; [left; exact Hf| | |].
  - apply mu_stage_nan in H2. subst mu. destruct Hm.
  - apply (mu_stage_inf 5 EB false) in H2. subst mu. right. left. auto.
  - apply (mu_stage_inf 5 EB true) in H2. subst mu. right. right. auto.
Qed.
Print Assumptions C82_nonfinite_means_rejected.

Theorem C82_formats_for_estimates_unused :
  forall to_string to_latex argsort ud smod cmax cmin lim nf nf' tex up t,
  dict_get_def nf (str "nan") (str "nan") = dict_get_def nf' (str "nan") (str "nan") ->
  just_format_it to_string to_latex argsort t ud smod cmax cmin lim nf tex up =
  just_format_it to_string to_latex argsort t ud smod cmax cmin lim nf' tex up.
Proof.
  intros ts tl argsort ud smod cmax cmin lim nf nf' tex up t H. unfold just_format_it.
  destruct (decimalize 2 4 5 lim t) as [d|]; [|reflexivity]. cbn [bind].
  rewrite (format_table_fmt argsort smod true cmax cmin nf nf' d H). reflexivity.
Qed.
Print Assumptions C82_formats_for_estimates_unused.

Example C82_case :
  let t := [(str "NLL", [(str "iid", (finf, fnan, fnan)); (str "GPC", (f_lit 5 100, f_lit 3 1000, f_lit 1 100000))])] in
  let run cmax nf := do s <- just_format_it plain (fun a f => a ++ plain f) argsort_ins t [] None cmax [] [] nf false true; Ok (show s) in
  run [] [(str "inf", str "oo")] = Err AssertionError /\
  run [(str "NLL", 2)] [(str "inf", str "oo")] = Ok "NLL;p;|>100         ;nan;|0.0500(31);<0.0001;"%string.
Proof. split; vm_compute; reflexivity. Qed.
