(** A concrete argsort (insertion sort of the indices), used only in worked
    examples to show that the hypothesis [argsort_ok] can be met. *)
From Coq Require Import Permutation Sorted ZifyNat.
From Verif Require Import PyBase Dec Spec_Sciprint.
Open Scope Z_scope.

Section Ins.
Variable key : nat -> Z.
Fixpoint ins_idx (i : nat) (l : list nat) : list nat :=
  match l with
  | [] => [i]
  | j :: l' => if key i <=? key j then i :: l else j :: ins_idx i l'
  end.

Lemma ins_idx_perm i l : Permutation (i :: l) (ins_idx i l).
Proof.
  induction l as [|j l IH]; cbn; [reflexivity|].
  destruct (key i <=? key j); [reflexivity|].
  etransitivity; [apply perm_swap|]. constructor. exact IH.
Qed.

Lemma ins_idx_sorted i l : StronglySorted (fun a b => key a <= key b) l ->
  StronglySorted (fun a b => key a <= key b) (ins_idx i l).
Proof.
  induction 1 as [|j l Hs IH Hf]; cbn; [repeat constructor|].
  destruct (Z.leb_spec (key i) (key j)) as [H|H].
  - constructor; [constructor; assumption|]. constructor; [assumption|].
    eapply Forall_impl; [|exact Hf]. cbn. intros; lia.
  - constructor; [exact IH|]. apply (Permutation_Forall (ins_idx_perm i l)).
    constructor; [lia|exact Hf].
Qed.
End Ins.

Definition argsort_ins (keys : list Z) : list nat :=
  fold_right (ins_idx (fun i => nth i keys 0)) [] (seq 0 (length keys)).

Lemma argsort_ins_ok : argsort_ok argsort_ins.
Proof.
  intros keys. unfold argsort_ins. generalize (seq 0 (length keys)) as l. induction l as [|i l [IH1 IH2]]; cbn.
  - split; constructor.
  - split.
    + etransitivity; [symmetry; apply ins_idx_perm|]. constructor. exact IH1.
    + apply (ins_idx_sorted (fun i => nth i keys 0)). exact IH2.
Qed.
