(** Interrupted runs and the checkpoint directory *)
From Coq Require Import Lia.
From Verif Require Import PyBase ListLemmas Checkpoint.
Open Scope list_scope.

Section Memory.
  Context {S D V W : Type}.
  Context (key_eqb : S * D -> S * D -> bool) (KEY : forall a b, key_eqb a b = true <-> a = b).
  Context (train_predict : S -> D -> res V).
  Implicit Types (st : store (S := S) (D := D) (V := V)) (finish : V -> res W) (methods : list (pystr * S)).
  Notation lookup := (lookup key_eqb).
  Notation run := (run key_eqb train_predict).

  (** The directories that some sequence of runs can leave behind: each run has
      its own data, methods, post-processing and crash point. *)
  Inductive reachable : store -> Prop :=
  | reach_empty : reachable []
  | reach_run st finish data methods crash : reachable st ->
      reachable (fst (fst (run finish true st data methods crash))).

  Definition sound st : Prop := forall s d v, lookup st (s, d) = Some v -> train_predict s d = Ok v.
  (** [st'] still has all results of [st] *)
  Definition extends st st' : Prop := forall k v, lookup st k = Some v -> lookup st' k = Some v.

  Lemma lookup_hit st k e : lookup ((k, e) :: st) k = match e with Stored v => Some v | Torn => None end.
  Proof. unfold Checkpoint.lookup. cbn [find fst]. now rewrite (proj2 (KEY k k) eq_refl). Qed.
  Lemma lookup_miss st k k' e : k' <> k -> lookup ((k', e) :: st) k = lookup st k.
  Proof.
    intros N. unfold Checkpoint.lookup. cbn [find fst]. destruct (key_eqb k k') eqn:E; [|reflexivity].
    apply KEY in E. congruence.
  Qed.
  Lemma key_dec (a b : S * D) : {a = b} + {a <> b}.
  Proof. destruct (key_eqb a b) eqn:E; [left; now apply KEY|right; intros H; apply KEY in H; congruence]. Qed.

  Lemma sound_stored st s d v : sound st -> train_predict s d = Ok v -> sound (((s, d), Stored v) :: st).
  Proof.
    intros H E s' d' v' L. destruct (key_dec (s, d) (s', d')) as [K|N].
    - injection K as <- <-. rewrite lookup_hit in L. congruence.
    - rewrite lookup_miss in L by exact N. now apply H.
  Qed.
  Lemma sound_torn st k : sound st -> sound ((k, Torn) :: st).
  Proof.
    intros H s' d' v' L. destruct (key_dec k (s', d')) as [->|N].
    - rewrite lookup_hit in L. discriminate.
    - rewrite lookup_miss in L by exact N. now apply H.
  Qed.
  Lemma extends_new st k e : lookup st k = None -> extends st ((k, e) :: st).
  Proof.
    intros H k' v L. destruct (key_dec k k') as [->|N]; [congruence|]. now rewrite lookup_miss.
  Qed.

  Definition run_store (r : store (S := S) (D := D) (V := V) * list pystr * outcome (W := W)) := fst (fst r).
  Definition run_fitted (r : store (S := S) (D := D) (V := V) * list pystr * outcome (W := W)) := snd (fst r).
  Definition run_outcome (r : store (S := S) (D := D) (V := V) * list pystr * outcome (W := W)) := snd r.

  Ltac step H :=
    match goal with
    | |- context [Checkpoint.run key_eqb train_predict ?f ?m ?st ?d ?ms ?c] => destruct (run f m st d ms c) as [[?st' ?fi] ?out] eqn:H
    end.

  Lemma run_inv finish methods : forall st data crash, sound st ->
    sound (run_store (run finish true st data methods crash)) /\ extends st (run_store (run finish true st data methods crash)).
  Proof.
    induction methods as [|(name, s) rest IH]; intros st data crash SO.
    - split; [exact SO|]. intros k v H. exact H.
    - cbn [Checkpoint.run].
      assert (forall st1 v fitted, sound st1 -> extends st st1 ->
        let r := match finish v with
          | Err e => (st1, fitted, Raised e)
          | Ok w => let '(st', f, out) := run finish true st1 data rest (match crash with Some (Datatypes.S n, k) => Some (n, k) | _ => None end) in
              (st', fitted ++ f, match out with Done t => Done ((name, w) :: t) | _ => out end)
          end in sound (run_store r) /\ extends st (run_store r)) as K.
      { intros st1 v fitted S1 E1. destruct (finish v) as [w|e]; [|split; assumption].
        specialize (IH st1 data (match crash with Some (Datatypes.S n, k) => Some (n, k) | _ => None end) S1).
        step R. unfold run_store in *. cbn in *. destruct IH as [I1 I2]. split; [exact I1|].
        intros k v' L. apply I2, E1, L. }
      destruct (lookup st (s, data)) as [v|] eqn:LK.
      + destruct crash as [[[|n] k]|]; try (apply K; [exact SO|intros ? ? X; exact X]).
        split; [exact SO|intros ? ? X; exact X].
      + destruct crash as [[[|n] k]|].
        * destruct k; [split; [exact SO|intros ? ? X; exact X]|].
          destruct (train_predict s data); [|split; [exact SO|intros ? ? X; exact X]].
          split; [now apply sound_torn|now apply extends_new].
        * destruct (train_predict s data) as [v|e] eqn:TP; [|split; [exact SO|intros ? ? X; exact X]].
          apply K; [now apply sound_stored|now apply extends_new].
        * destruct (train_predict s data) as [v|e] eqn:TP; [|split; [exact SO|intros ? ? X; exact X]].
          apply K; [now apply sound_stored|now apply extends_new].
  Qed.

  Theorem reachable_sound st : reachable st -> sound st.
  Proof.
    induction 1 as [|st finish data methods crash R IH]; [intros s d v H; discriminate|].
    exact (proj1 (run_inv finish methods st data crash IH)).
  Qed.

  (** An uninterrupted run gives what a run without checkpoints gives. *)
  Theorem run_same finish methods : forall st data st0, sound st ->
    run_outcome (run finish true st data methods None) = run_outcome (run finish false st0 data methods None).
  Proof.
    induction methods as [|(name, s) rest IH]; intros st data st0 SO; [reflexivity|].
    cbn [Checkpoint.run].
    destruct (lookup st (s, data)) as [v|] eqn:LK.
    - pose proof (SO _ _ _ LK) as TP. rewrite TP. destruct (finish v) as [w|e]; [|reflexivity].
      specialize (IH st data st0 SO). step R1. step R2. cbn in IH. subst. reflexivity.
    - destruct (train_predict s data) as [v|e] eqn:TP; [|reflexivity]. destruct (finish v) as [w|e]; [|reflexivity].
      specialize (IH (((s, data), Stored v) :: st) data st0 (sound_stored _ _ _ _ SO TP)). step R1. step R2. cbn in IH. subst. reflexivity.
  Qed.

  (** The table of a completed run *)
  Theorem run_done finish methods : forall st data t, run_outcome (run finish false st data methods None) = Done t ->
    Forall2 (fun m row => fst row = fst m /\ exists v, train_predict (snd m) data = Ok v /\ finish v = Ok (snd row)) methods t.
  Proof.
    induction methods as [|(nm, s) rest IH]; intros st data t; cbn [Checkpoint.run].
    - intros H. injection H as <-. constructor.
    - destruct (train_predict s data) as [v|e] eqn:TP; [|discriminate]. destruct (finish v) as [w|e] eqn:FV; [|discriminate].
      specialize (IH st data). step R. cbn. destruct out as [|e|t']; try discriminate. intros H. injection H as <-.
      constructor; [cbn; eauto|]. apply IH. reflexivity.
  Qed.
  (** ... and it completes when nothing raises *)
  Theorem run_completes finish methods : forall st data,
    Forall (fun m => exists v w, train_predict (snd m) data = Ok v /\ finish v = Ok w) methods ->
    exists t, run_outcome (run finish false st data methods None) = Done t.
  Proof.
    induction methods as [|(nm, s) rest IH]; intros st data F; cbn [Checkpoint.run]; [now exists []|].
    inversion F as [|? ? (v & w & TP & FV) F']; subst. cbn [snd] in TP. rewrite TP, FV.
    destruct (IH st data F') as (t & E). step R. cbn in *. subst out. eexists. reflexivity.
  Qed.

  (** Only methods without a stored result are fitted. *)
  Theorem run_fits finish methods : forall st data crash, sound st -> forall name,
    In name (run_fitted (run finish true st data methods crash)) -> exists s, In (name, s) methods /\ lookup st (s, data) = None.
  Proof.
    induction methods as [|(nm, s) rest IH]; intros st data crash SO name; [contradiction|].
    cbn [Checkpoint.run].
    assert (forall st1 v fitted, sound st1 -> extends st st1 -> (In name fitted -> name = nm /\ lookup st (s, data) = None) ->
      let r := match finish v with
        | Err e => (st1, fitted, Raised e)
        | Ok w => let '(st', f, out) := run finish true st1 data rest (match crash with Some (Datatypes.S n, k) => Some (n, k) | _ => None end) in
            (st', fitted ++ f, match out with Done t => Done ((nm, w) :: t) | _ => out end)
        end in In name (run_fitted r) -> exists s', In (name, s') ((nm, s) :: rest) /\ lookup st (s', data) = None) as K.
    { intros st1 v fitted S1 E1 F. destruct (finish v) as [w|e].
      - specialize (IH st1 data (match crash with Some (Datatypes.S n, k) => Some (n, k) | _ => None end) S1 name).
        step R. unfold run_fitted in *. cbn in *. intros H. apply in_app_or in H as [H|H].
        + destruct (F H) as (-> & L). exists s. auto.
        + destruct (IH H) as (s' & I & L). exists s'. split; [auto|].
          destruct (lookup st (s', data)) as [v'|] eqn:L'; [|reflexivity]. apply E1 in L'. congruence.
      - cbn. intros H. destruct (F H) as (-> & L). exists s. split; [now left|exact L]. }
    assert (extends st st) as ER by (intros ? ? X; exact X).
    assert (lookup st (s, data) = None -> In name [nm] -> exists s', In (name, s') ((nm, s) :: rest) /\ lookup st (s', data) = None) as SG.
    { intros L [<-|[]]. exists s. split; [now left|exact L]. }
    destruct (lookup st (s, data)) as [v|] eqn:LK.
    - destruct crash as [[[|n] k]|]; try (apply K; [exact SO|exact ER|intros []]). intros [].
    - destruct crash as [[[|n] k]|].
      + destruct k; [now apply SG|]. destruct (train_predict s data); now apply SG.
      + destruct (train_predict s data) as [v|e] eqn:TP; [|now apply SG].
        apply K; [now apply sound_stored|now apply extends_new|intros [<-|[]]; auto].
      + destruct (train_predict s data) as [v|e] eqn:TP; [|now apply SG].
        apply K; [now apply sound_stored|now apply extends_new|intros [<-|[]]; auto].
  Qed.

  (** What a run got through is stored: the first [n] methods when it crashed
      at method [n], all of them when it completed. *)
  Theorem run_progress finish methods : forall st data crash,
    sound st ->
    let r := run finish true st data methods crash in
    match run_outcome r with
    | Raised _ => True
    | Done _ => Forall (fun m => lookup (run_store r) (snd m, data) <> None) methods
    | Crashed => match crash with
                 | Some (n, _) => Forall (fun m => lookup (run_store r) (snd m, data) <> None) (firstn n methods)
                 | None => False
                 end
    end.
  Proof.
    induction methods as [|(nm, s) rest IH]; intros st data crash SO; [constructor|].
    cbn [Checkpoint.run].
    assert (forall st1 v fitted, sound st1 -> lookup st1 (s, data) <> None -> (match crash with Some (O, _) => False | _ => True end) ->
      let r := match finish v with
        | Err e => (st1, fitted, Raised e)
        | Ok w => let '(st', f, out) := run finish true st1 data rest (match crash with Some (Datatypes.S n, k) => Some (n, k) | _ => None end) in
            (st', fitted ++ f, match out with Done t => Done ((nm, w) :: t) | _ => out end)
        end in
      match run_outcome r with
      | Raised _ => True
      | Done _ => Forall (fun m => lookup (run_store r) (snd m, data) <> None) ((nm, s) :: rest)
      | Crashed => match crash with
                   | Some (n, _) => Forall (fun m => lookup (run_store r) (snd m, data) <> None) (firstn n ((nm, s) :: rest))
                   | None => False
                   end
      end) as K.
    { intros st1 v fitted S1 L C. destruct (finish v) as [w|e]; [|exact I].
      pose proof (run_inv finish rest st1 data (match crash with Some (Datatypes.S n, k) => Some (n, k) | _ => None end) S1) as (_ & EX).
      specialize (IH st1 data (match crash with Some (Datatypes.S n, k) => Some (n, k) | _ => None end) S1).
      destruct (run finish true st1 data rest _) as [[st' f] out] eqn:R. unfold run_outcome, run_store in *. cbn in *.
      assert (lookup st' (s, data) <> None) as LS.
      { destruct (lookup st1 (s, data)) as [v'|] eqn:E; [|congruence]. apply EX in E. congruence. }
      destruct out as [|e|t]; auto.
      - destruct crash as [[[|n] k]|]; try contradiction. cbn [firstn]. now constructor. }
    assert (forall e (f : list pystr), match run_outcome (st, f, @Raised W e) with Raised _ => True | _ => False end) as RT by (intros; exact I).
    destruct (lookup st (s, data)) as [v|] eqn:LK.
    - destruct crash as [[[|n] k]|]; try (apply K; auto; congruence). constructor.
    - destruct crash as [[[|n] k]|].
      + destruct k; [constructor|]. destruct (train_predict s data); [constructor|exact I].
      + destruct (train_predict s data) as [v|e] eqn:TP; [|exact I].
        apply K; [now apply sound_stored|rewrite lookup_hit; discriminate|exact I].
      + destruct (train_predict s data) as [v|e] eqn:TP; [|exact I].
        apply K; [now apply sound_stored|rewrite lookup_hit; discriminate|exact I].
  Qed.
End Memory.
