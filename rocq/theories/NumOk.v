(** Both number instances satisfy the order laws. *)
From Coq Require Import Reals Lra.
From Flocq Require Import Core Plus_error BinarySingleNaN.
From Verif Require Import PyBase F64 F64Lemmas Num.
Open Scope R_scope.

(** Case analysis on boolean real comparisons. *)
Ltac rb :=
  repeat match goal with
  | H : context [Rltb ?a ?b] |- _ => let E := fresh "E" in destruct (Rltb a b) eqn:E;
        [apply Rltb_spec in E|apply Rltb_false in E]
  | H : context [Rleb ?a ?b] |- _ => let E := fresh "E" in destruct (Rleb a b) eqn:E;
        [apply Rleb_spec in E|apply Rleb_false in E]
  | |- context [Rltb ?a ?b] => let E := fresh "E" in destruct (Rltb a b) eqn:E;
        [apply Rltb_spec in E|apply Rltb_false in E]
  | |- context [Rleb ?a ?b] => let E := fresh "E" in destruct (Rleb a b) eqn:E;
        [apply Rleb_spec in E|apply Rleb_false in E]
  | |- context [Reqb ?a ?b] => let E := fresh "E" in destruct (Reqb a b) eqn:E;
        [apply Reqb_spec in E|]
  end.

Lemma Reqb_le x y : Reqb x y = Rleb x y && Rleb y x.
Proof.
  apply eq_true_iff_eq. rewrite andb_true_iff, Reqb_spec, !Rleb_spec. split; intros; lra.
Qed.

Global Instance xr_ok : num_ok xr_num.
Proof.
  constructor; cbn; unfold xsub.
  - intros []; cbn; intros; auto; rb; auto; try discriminate; lra.
  - intros [] []; cbn; intros; auto; rb; auto; try discriminate; lra.
  - intros [] [] []; cbn; intros; auto; try discriminate; rb; auto; try discriminate; lra.
  - intros [] []; cbn; intros; auto; discriminate.
  - intros [] []; cbn; intros; auto; discriminate.
  - intros [] []; cbn; intros; auto; rb; auto; try discriminate; lra.
  - intros [] []; cbn; auto using Reqb_le.
  - intros [] []; cbn; intros; auto; rb; auto; try discriminate; lra.
  - intros [] []; cbn; intros; auto; rb; auto; try discriminate; lra.
  - intros [] []; cbn; intros; auto; rb; auto; try discriminate; lra.
  - intros []; cbn; intros; auto; discriminate.
  - intros []; cbn; intros; auto; discriminate.
  - intros []; cbn; intros; auto; discriminate.
  - reflexivity.
Qed.

(** ** Doubles *)

Lemma fsub_sign x y : fisfin x = true -> fisfin y = true ->
  (fltb f0 (fsub y x) = true <-> B2R x < B2R y) /\ (fleb f0 (fsub y x) = true <-> B2R x <= B2R y).
Proof.
  intros Fx Fy. pose proof (Bminus_correct prec64 emax64 _ _ mode_NE y x Fy Fx) as C.
  simpl (round_mode mode_NE) in C. destruct (Rlt_bool _ _) eqn:O in C.
  - destruct C as (V & F & _). fold (fsub y x) in V, F. fold (fisfin (fsub y x)) in F.
    rewrite fltb_fin, fleb_fin by (auto; reflexivity). rewrite V. simpl (B2R f0).
    destruct (Rtotal_order (B2R x) (B2R y)) as [L|[E|L]].
    + assert (0 <= rnd64 (B2R y - B2R x)) as G by (apply rnd64_ge; [apply format64_0|lra]).
      assert (rnd64 (B2R y - B2R x) <> 0) as N.
      { apply round_plus_neq_0; auto with typeclass_instances; try apply generic_format_opp; try apply B2R_format. lra. }
      split; split; intros; lra.
    + rewrite E, Rminus_diag_eq, rnd64_0 by auto. split; split; intros; lra.
    + assert (rnd64 (B2R y - B2R x) <= 0) as G by (apply rnd64_le; [apply format64_0|lra]).
      assert (rnd64 (B2R y - B2R x) <> 0) as N.
      { apply round_plus_neq_0; auto with typeclass_instances; try apply generic_format_opp; try apply B2R_format. lra. }
      split; split; intros; lra.
  - destruct C as [C S]. fold (fsub y x) in C.
    assert (fsub y x = B754_infinity (Bsign y)) as E.
    { apply B2SF_inj. rewrite C. unfold binary_overflow, overflow_to_inf. reflexivity. }
    rewrite E.
    assert (forall s : bool, (fltb f0 (B754_infinity s) = negb s) /\ (fleb f0 (B754_infinity s) = negb s)) as CI
      by (intros []; split; reflexivity).
    destruct (CI (Bsign y)) as [-> ->]. clear CI E C.
    (* overflow means the operands have opposite signs and are not both zero *)
    assert (B2R y - B2R x <> 0) as NZ.
    { intros Z. rewrite Z, rnd64_0, Rabs_R0 in O. rewrite Rlt_bool_true in O by apply bpow_gt_0. discriminate. }
    assert (Bsign y = true -> B2R y <= 0 /\ 0 <= B2R x) as P1.
    { intros Sy. rewrite Sy in S. destruct x as [[]|?| |[]], y as [[]|?| |[]]; try discriminate; cbn [B2R] in *;
        try lra; split; try lra;
        try (apply F2R_le_0; cbn; lia); try (apply F2R_ge_0; cbn; lia). }
    assert (Bsign y = false -> 0 <= B2R y /\ B2R x <= 0) as P2.
    { intros Sy. rewrite Sy in S. destruct x as [[]|?| |[]], y as [[]|?| |[]]; try discriminate; cbn [B2R] in *;
        try lra; split; try lra;
        try (apply F2R_le_0; cbn; lia); try (apply F2R_ge_0; cbn; lia). }
    destruct (Bsign y); [destruct (P1 eq_refl)|destruct (P2 eq_refl)]; cbn [negb]; split; split; intros; try lra; auto; discriminate.
Qed.

Lemma bool_iff (b c : bool) (P : Prop) : (b = true <-> P) -> (c = true <-> P) -> b = c.
Proof. intros H1 H2. apply eq_true_iff_eq. tauto. Qed.

Global Instance f64_ok : num_ok f64_num.
Proof.
  constructor; cbn -[fleb fltb feqb fsub f0].
  - intros. now apply fleb_refl.
  - intros. now apply fleb_total.
  - exact fleb_trans.
  - exact fleb_notnan.
  - exact fltb_notnan.
  - intros x y Nx Ny. apply eq_true_iff_eq. rewrite negb_true_iff.
    rewrite fltb_key, fleb_false_lt by auto. reflexivity.
  - intros x y. apply eq_true_iff_eq. rewrite andb_true_iff. split.
    + intros H. destruct (feqb_notnan _ _ H). apply feqb_key in H; auto. rewrite !fleb_key by auto. lra.
    + intros [H1 H2]. destruct (fleb_notnan _ _ H1). apply feqb_key; auto.
      apply fleb_key in H1; auto. apply fleb_key in H2; auto. lra.
  - intros x y Nx Ny. destruct (fisfin x) eqn:Fx; destruct (fisfin y) eqn:Fy.
    + eapply bool_iff; [apply fsub_sign; auto|]. now apply fltb_fin.
    + destruct y as [|[]| |]; try discriminate; destruct x as [|[]| |]; try discriminate; try reflexivity;
        destruct s; reflexivity.
    + destruct x as [|[]| |]; try discriminate; destruct y as [|[]| |]; try discriminate; try reflexivity;
        destruct s; reflexivity.
    + destruct x as [|[]| |]; try discriminate; destruct y as [|[]| |]; try discriminate; reflexivity.
  - intros x y Fx Fy. eapply bool_iff; [apply fsub_sign; auto|]. now apply fleb_fin.
  - intros x y H. destruct (fisfin x) eqn:Fx; destruct (fisfin y) eqn:Fy.
    + apply fleb_fin; auto. apply (fsub_sign x y Fx Fy). exact H.
    + destruct y as [|[]| |]; try discriminate; destruct x as [|[]| |[]]; try discriminate; reflexivity.
    + destruct x as [|[]| |]; try discriminate; destruct y as [|[]| |[]]; try discriminate; reflexivity.
    + destruct x as [|[]| |]; try discriminate; destruct y as [|[]| |[]]; try discriminate; reflexivity.
  - exact fisfin_notnan.
  - intros [|[]| |[]] H; try discriminate; reflexivity.
  - intros [|[]| |[]] H; try discriminate; reflexivity.
  - reflexivity.
Qed.
