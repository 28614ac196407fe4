(** check_curve, interp1d and curve_boot on the standard curves. *)
From Coq Require Import Reals Lra Lia List Sorted Bool Permutation.
From Flocq Require Import Core BinarySingleNaN.
From Verif Require Import PyBase F64 F64Lemmas Num NumOk Util UtilProofs ListLemmas UtilProofs2 UtilProofs3 BootUtil BootProofs
  BootProofs4 BootProofs5 PerfCurves PerfProofs PerfProofs2 Spec_Curves PerfProofs3 PerfProofs4 PerfProofs5 PerfProofs7 PerfProofs8
  PerfProofs9 CurveBoot SumProofs.
Open Scope R_scope.
Open Scope list_scope.

(** ** Curves that can be evaluated on a grid *)
Section Nice.
  Context {T : Type} {NT : num T} {OK : num_ok NT}.

  Definition nice (g : list T) (c : list T * list T) : Prop :=
    length (fst c) = length (snd c) /\ (2 <= length (fst c))%nat /\
    Forall (fun x => nisfin x = true) (fst c) /\ StronglySorted le (fst c) /\
    Forall (fun v => nltb v ninf = true) (snd c) /\
    (forall x, In x g -> nleb (hd n0 (fst c)) x = true /\ nleb x (lastn (fst c)) = true).

  Lemma py_index_hd (l : list T) d : l <> [] -> py_index l 0 = Ok (hd d l).
  Proof. destruct l; [congruence|]. intros _. reflexivity. Qed.
  Lemma py_index_m1 (l : list T) d : l <> [] -> py_index l (-1) = Ok (last l d).
  Proof.
    intros N. apply py_index_last. destruct (exists_last N) as (l' & a & ->).
    rewrite last_last, app_length, nth_error_app2 by (cbn; lia). cbn [length]. replace (length l' + 1 - 1 - length l')%nat with 0%nat by lia. reflexivity.
  Qed.
  Lemma last_In (l : list T) d : l <> [] -> In (last l d) l.
  Proof. intros N. destruct (exists_last N) as (l' & a & ->). rewrite last_last. apply in_or_app. right. now left. Qed.

  Lemma check_nice_none rows k th : Forall (nice []) rows -> check_curve ((rows, k), th) None = Ok (rows, k).
  Proof.
    intros H. unfold check_curve.
    rewrite (proj2 (forallb_forall (fun c : list T * list T => (length (fst c) =? length (snd c))%nat) rows))
      by (intros c Hc; eapply Forall_forall in H; [|exact Hc]; apply Nat.eqb_eq, H). cbn [py_assert bind].
    rewrite (proj2 (forallb_forall (fun c : list T * list T => (2 <=? length (fst c))%nat) rows))
      by (intros c Hc; eapply Forall_forall in H; [|exact Hc]; apply Nat.leb_le, H). cbn [py_assert bind].
    rewrite (proj2 (forallb_forall (fun c : list T * list T => forallb nisfin (fst c)) rows)).
    2:{ intros c Hc. eapply Forall_forall in H; [|exact Hc]. destruct H as (_ & _ & F & _). apply forallb_forall.
        intros x Hx. eapply Forall_forall in F; eauto. }
    cbn [py_assert bind].
    rewrite (proj2 (forallb_forall (fun c : list T * list T => forallb (fun v => nltb v ninf) (snd c)) rows)).
    2:{ intros c Hc. eapply Forall_forall in H; [|exact Hc]. destruct H as (_ & _ & _ & _ & F & _). apply forallb_forall.
        intros x Hx. eapply Forall_forall in F; eauto. }
    cbn [py_assert bind].
    rewrite (proj2 (forallb_forall (fun c : list T * list T => forallb (nleb n0) (diff (fst c))) rows)).
    2:{ intros c Hc. eapply Forall_forall in H; [|exact Hc]. destruct H as (_ & _ & F & S & _). now apply diff_sorted_nonneg. }
    reflexivity.
  Qed.

  Lemma nice_nil g c : nice g c -> nice [] c.
  Proof. intros (A & B & C & D & E & _). repeat split; auto; contradiction. Qed.

  Lemma check_nice rows k th g : Forall (nice g) rows -> g <> [] -> check_curve ((rows, k), th) (Some g) = Ok (rows, k).
  Proof.
    intros H N. pose proof (check_nice_none rows k th (Forall_impl _ (nice_nil g) H)) as E. unfold check_curve in *.
    destruct (forallb (fun c : list T * list T => (length (fst c) =? length (snd c))%nat) rows); [|discriminate]. cbn [py_assert bind] in *.
    destruct (forallb (fun c : list T * list T => (2 <=? length (fst c))%nat) rows); [|discriminate]. cbn [py_assert bind] in *.
    destruct (forallb (fun c : list T * list T => forallb nisfin (fst c)) rows); [|discriminate]. cbn [py_assert bind] in *.
    destruct (forallb (fun c : list T * list T => forallb (fun v => nltb v ninf) (snd c)) rows); [|discriminate]. cbn [py_assert bind] in *.
    destruct (forallb (fun c : list T * list T => forallb (nleb n0) (diff (fst c))) rows); [|discriminate]. cbn [py_assert bind] in *.
    rewrite (py_index_hd g n0 N), (py_index_m1 g n0 N). cbn [bind].
    rewrite (proj2 (forallb_forall (fun c : list T * list T => nleb (hd n0 (fst c)) (hd n0 g)) rows)).
    2:{ intros c Hc. eapply Forall_forall in H; [|exact Hc]. apply H. destruct g; [congruence|now left]. }
    cbn [py_assert bind].
    rewrite (proj2 (forallb_forall (fun c : list T * list T => nleb (last g n0) (lastn (fst c))) rows)).
    2:{ intros c Hc. eapply Forall_forall in H; [|exact Hc]. apply H. now apply last_In. }
    reflexivity.
  Qed.

  Lemma hd_In (l : list T) d : l <> [] -> In (hd d l) l.
  Proof. destruct l; [congruence|now left]. Qed.

  Lemma nice_interp_prev g c : nice g c -> exists out, _interp1d g (fst c) (snd c) Previous = Ok out /\ length out = length g /\
    Forall (fun v => In v (snd c)) out.
  Proof.
    intros (L & L2 & F & S & _ & G). assert (fst c <> []) as N by (destruct (fst c); cbn in *; [lia|discriminate]).
    destruct (interp1d_previous (fst c) (snd c) g F S L L2) as (out & E & R).
    - apply Forall_forall. intros x Hx. destruct (G x Hx) as [A _]. apply (leb_notnan_ _ _ A).
    - intros x Hx. exists (hd n0 (fst c)). split; [now apply hd_In|]. now apply G.
    - exists out. split; auto. split; [symmetry; now apply Forall2_len in R|]. clear -R. induction R as [|a b l m (i & _ & H) R IH]; constructor; auto.
      eapply nth_error_In; eauto.
  Qed.

  Lemma np_interp_total x y v : length x = length y -> Forall (fun x => nisfin x = true) x -> StronglySorted le x ->
    (exists a, In a x /\ le a v) -> exists r, np_interp x y v = Ok r.
  Proof.
    intros L F S E. unfold np_interp. destruct (nisnan v) eqn:Nv; [eauto|].
    destruct (searchsorted_last x v) as (i & Hi & Ei); auto using fin_okl. rewrite Ei.
    destruct Hi as (a & Ha & _). assert (i < length x)%nat as B by (apply nth_error_Some; congruence).
    destruct (Z.of_nat i =? Z.of_nat (length x) - 1)%Z eqn:Q.
    - destruct (nth_error y i) as [b|] eqn:Eb; [|apply nth_error_None in Eb; lia]. rewrite (py_index_nat _ i b Eb). eauto.
    - apply Z.eqb_neq in Q. replace (Z.of_nat i + 1)%Z with (Z.of_nat (Datatypes.S i)) by lia.
      destruct (nth_error x (Datatypes.S i)) as [a'|] eqn:E1; [|apply nth_error_None in E1; lia].
      destruct (nth_error y i) as [b|] eqn:E2; [|apply nth_error_None in E2; lia].
      destruct (nth_error y (Datatypes.S i)) as [b'|] eqn:E3; [|apply nth_error_None in E3; lia].
      rewrite (py_index_nat _ i a Ha), (py_index_nat _ _ a' E1), (py_index_nat _ i b E2), (py_index_nat _ _ b' E3). cbn [bind]. eauto.
  Qed.

  Lemma mapM_total {A B} (f : A -> res B) l : (forall a, In a l -> exists b, f a = Ok b) ->
    exists out, mapM f l = Ok out /\ Forall2 (fun a b => f a = Ok b) l out.
  Proof.
    induction l as [|a l IH]; intros H; cbn [mapM]; [eexists; split; [reflexivity|constructor]|].
    destruct (H a (or_introl eq_refl)) as [b Eb]. destruct IH as (o & Eo & F); [intros; apply H; now right|].
    rewrite Eb, Eo. cbn [bind]. eexists. split; [reflexivity|]. now constructor.
  Qed.

  Lemma le_not_lt_ (a b : T) : nleb a b = true -> nltb b a = false.
  Proof. intros H. destruct (nltb b a) eqn:E; auto. apply lt_not_le in E. congruence. Qed.

  Lemma nice_interp g c k : nice g c -> k <> Next -> exists out, _interp1d g (fst c) (snd c) k = Ok out /\ length out = length g /\
    match k with Linear => Forall2 (fun v r => _interp1d [v] (fst c) (snd c) Linear = Ok [r]) g out | _ => Forall (fun v => In v (snd c)) out end.
  Proof.
    intros H K. destruct k; [now apply nice_interp_prev|congruence|].
    destruct H as (L & L2 & F & S & _ & G). assert (fst c <> []) as N by (destruct (fst c); cbn in *; [lia|discriminate]).
    unfold _interp1d. rewrite L, Nat.eqb_refl, <- L, (proj2 (Nat.leb_le _ _) L2), diff_sorted_nonneg by auto. cbn [py_assert bind].
    destruct (mapM_total (interp_linear (fst c) (snd c)) g) as (out & E & R).
    - intros v Hv. destruct (G v Hv) as [A B]. unfold interp_linear. rewrite (py_index_hd _ n0 N), (py_index_m1 _ n0 N). cbn [bind].
      rewrite (le_not_lt_ _ _ A). unfold lastn in B. rewrite (le_not_lt_ _ _ B). cbn [orb].
      apply np_interp_total; auto. exists (hd n0 (fst c)). split; [now apply hd_In|exact A].
    - exists out. split; auto. split; [symmetry; now apply Forall2_len in R|].
      eapply Forall2_and_in; [exact R|]. cbv beta. intros v r _ Er. cbn [mapM]. rewrite Er. reflexivity.
  Qed.

  Lemma interp_rows g rows k : Forall (nice g) rows -> k <> Next -> exists out, interp1d g rows k = Ok out /\
    Forall2 (fun c o => _interp1d g (fst c) (snd c) k = Ok o /\ length o = length g) rows out.
  Proof.
    intros H K. unfold interp1d. destruct (mapM_total (fun '(xp, yp) => _interp1d g xp yp k) rows) as (out & E & R).
    - intros [x y] Hc. eapply Forall_forall in H; [|exact Hc]. destruct (nice_interp g (x, y) k H K) as (o & Eo & _). cbn [fst snd] in Eo. eauto.
    - exists out. split; auto. eapply Forall2_and_in; [exact R|]. cbv beta. intros [x y] o Hc Eo. cbn [fst snd]. split; auto.
      eapply Forall_forall in H; [|exact Hc]. destruct (nice_interp g (x, y) k H K) as (o' & Eo' & Lo & _). cbn [fst snd] in Eo'.
      rewrite Eo in Eo'. apply Ok_inj in Eo'. now subst.
  Qed.
End Nice.

(** ** Areas of several rows at once *)
Section Area.
  Context {T : Type} {NT : num T}.
  Definition row_area (k : ikind) (m : nat) (c : list T * list T) : T :=
    match k with Previous => area_previous m (fst c) (snd c) | _ => area_linear m (fst c) (snd c) end.
  Definition area_row (k : ikind) (n m : nat) (c : list T * list T) (v : T) : Prop :=
    (2 <=? n)%nat = true /\ existsb nisnan (fst c) = false /\ (length (fst c) =? length (snd c))%nat = true /\
    existsb nisnan (snd c) = false /\ nisnan v = false /\ v = row_area k m c /\ k <> Next.
  Lemma area_single n (c : list T * list T) k v : area n [c] k = Ok [v] -> area_row k n 1 c v.
  Proof.
    unfold area. destruct (2 <=? n)%nat eqn:E0; [|discriminate]. cbn [py_assert bind existsb forallb]. rewrite !orb_false_r, !andb_true_r.
    destruct (existsb nisnan (fst c)) eqn:E1; [discriminate|]. cbn [negb py_assert bind].
    destruct (length (fst c) =? length (snd c))%nat eqn:E2; [|discriminate]. cbn [py_assert bind].
    destruct (existsb nisnan (snd c)) eqn:E3; [discriminate|]. cbn [negb py_assert bind].
    destruct k; cbn [map bind length]; [|discriminate|]; cbn [existsb]; rewrite orb_false_r;
      (match goal with |- context [nisnan ?a] => destruct (nisnan a) eqn:E end); cbn [negb py_assert bind]; try discriminate;
      intros H; apply Ok_inj in H; injection H as <-; unfold area_row; repeat split; auto; discriminate.
  Qed.

  Lemma area_rows_m n rows k (V : list T) : Forall2 (area_row k n (length rows)) rows V -> rows <> [] -> area n rows k = Ok V.
  Proof.
    intros G N. assert ((2 <=? n)%nat = true /\ k <> Next) as [E1 K] by (inversion G as [|? ? ? ? A]; subst; [congruence|split; apply A]). clear N.
    unfold area. rewrite E1. cbn [py_assert bind]. set (m := length rows) in *. clearbody m.
    assert (existsb (fun c => existsb nisnan (fst c)) rows = false /\ forallb (fun c => (length (fst c) =? length (snd c))%nat) rows = true /\
      existsb (fun c => existsb nisnan (snd c)) rows = false /\ existsb nisnan V = false /\
      V = map (row_area k m) rows) as (A1 & A2 & A3 & A4 & A5).
    { clear E1. induction G as [|c v rows V (_ & B1 & B2 & B3 & B4 & B5 & _) G (I1 & I2 & I3 & I4 & I5)]; [repeat split; reflexivity|].
      cbn [existsb forallb map]. rewrite B1, B2, B3, B4, I1, I2, I3, I4. repeat split; auto. now rewrite <- B5, <- I5. }
    rewrite A1, A2, A3. cbn [negb py_assert bind]. destruct k; [|congruence|]; cbn [bind]; unfold row_area in A5; rewrite <- A5, A4; reflexivity.
  Qed.
End Area.

(* in exact arithmetic the number of rows makes no difference *)
Lemma row_area_xr k m m' c : row_area (T := xr) k m c = row_area k m' c.
Proof. destruct k; unfold row_area, area_previous, area_linear, nansum; now rewrite !row_sum_xr. Qed.
Lemma area_rows n rows k (V : list xr) : Forall2 (fun c v => area n [c] k = Ok [v]) rows V -> rows <> [] -> area n rows k = Ok V.
Proof.
  intros H. apply area_rows_m. generalize (length rows). intros m.
  induction H as [|c v rows V A _ IH]; constructor; auto. apply area_single in A as (A1 & A2 & A3 & A4 & A5 & A6 & A7).
  unfold area_row. rewrite (row_area_xr k m 1). repeat split; auto.
Qed.

(** ** Exact arithmetic *)

(** what the areas and the interpolated values of a curve may be *)
Definition unit_value (v : xr) : Prop := exists r, v = Fin r /\ 0 <= r <= 1.
Definition gain_value (v : xr) : Prop := v = NInf \/ exists r, v = Fin r /\ r <= 1.

Definition unit_grid (g : list R) : Prop := forall x, In x g -> 0 <= x <= 1.

(** A curve function that works for every input. *)
Definition sound_curve (Q : xr -> Prop) (f : curve_fun xr) : Prop :=
  forall s y sw, valid_input s y sw ->
  exists rows k th areas, f y (map Fin s) (option_map (map (map Fin)) sw) = Ok ((rows, k), th) /\ k <> Next /\
    length rows = length (weight_rows sw (length y)) /\ rows <> [] /\
    curve_area (rows, k) = Ok areas /\ length areas = length rows /\ Forall Q areas /\
    (forall g, unit_grid g -> Forall (nice (map Fin g)) rows /\
      exists out, interp1d (map Fin g) rows k = Ok out /\ length out = length rows /\ Forall (fun o => length o = length g /\ Forall Q o) out).

Lemma weight_rows_ne s y sw : valid_input s y sw -> weight_rows sw (length y) <> [].
Proof. intros (_ & _ & H). destruct sw; cbn; [apply H|discriminate]. Qed.

Lemma nice_fin g xs (ys : list xr) : length xs = length ys -> (2 <= length xs)%nat -> StronglySorted Rle xs -> hd 1 xs = 0 -> last xs 0 = 1 ->
  Forall (fun v => nltb v PInf = true) ys -> unit_grid g -> nice (map Fin g) (map Fin xs, ys).
Proof.
  intros L L2 S H0 H1 B G. unfold nice. cbn [fst snd]. rewrite map_length. split; auto. split; auto. split; [apply Forall_fin|].
  split; [now apply sorted_fin|]. split; auto. intros x Hx. apply in_map_iff in Hx as (r & <- & Hr). specialize (G r Hr).
  assert (hd n0 (map Fin xs) = Fin 0) as -> by (destruct xs; cbn in *; [lia|now rewrite H0]).
  rewrite lastn_fin by (destruct xs; cbn in *; [lia|discriminate]). rewrite H1. split; apply Rleb_spec; lra.
Qed.

Lemma unit_lt v : unit_value v -> nltb v PInf = true.
Proof. intros (r & -> & _). reflexivity. Qed.
Lemma gain_lt v : gain_value v -> nltb v PInf = true.
Proof. intros [->|(r & -> & _)]; reflexivity. Qed.

Lemma unit_curve (k : ikind) f : k <> Next ->
  (forall s y sw, valid_input s y sw -> exists X Y D, f y (map Fin s) (option_map (map (map Fin)) sw) =
     Ok ((map (fun w => (map Fin (X w), map Fin (Y w))) (weight_rows sw (length y)), k), PInf :: map Fin D) /\ (1 <= length D)%nat /\
     forall w, In w (weight_rows sw (length y)) -> StronglySorted Rle (X w) /\ hd 1 (X w) = 0 /\ last (X w) 0 = 1 /\
       length (X w) = S (length D) /\ length (Y w) = S (length D) /\ Forall (fun v => 0 <= v <= 1) (Y w) /\ 0 <= rarea k (X w) (Y w) <= 1) ->
  sound_curve unit_value f.
Proof.
  intros K H s y sw V. destruct (H s y sw V) as (X & Y & D & E & LD & W). pose proof (weight_rows_ne _ _ _ V) as NE.
  set (ws := weight_rows sw (length y)) in *.
  exists (map (fun w => (map Fin (X w), map Fin (Y w))) ws), k, (PInf :: map Fin D), (map (fun w => Fin (rarea k (X w) (Y w))) ws).
  split; [exact E|]. split; [exact K|]. split; [now rewrite map_length|]. split; [intros Q; apply map_eq_nil in Q; contradiction|].
  assert (forall w, In w ws -> area (S (length D)) [(map Fin (X w), map Fin (Y w))] k = Ok [Fin (rarea k (X w) (Y w))]) as Ar.
  { intros w Hw. destruct (W w Hw) as (_ & _ & _ & L1 & L2 & _). rewrite <- L1. apply area_exact; auto; lia. }
  split.
  { unfold curve_area. cbn [fst snd]. destruct ws as [|w0 ws'] eqn:Ew; [congruence|]. cbn [map]. cbn [fst]. rewrite map_length.
    destruct (W w0 (or_introl eq_refl)) as (_ & _ & _ & L1 & _). rewrite L1.
    apply area_rows; [|discriminate].
    change (Forall2 (fun c v => area (S (length D)) [c] k = Ok [v]) (map (fun w => (map Fin (X w), map Fin (Y w))) (w0 :: ws'))
      (map (fun w => Fin (rarea k (X w) (Y w))) (w0 :: ws'))).
    clear -Ar. induction (w0 :: ws') as [|w l IH]; constructor; [apply Ar; now left|]. apply IH. intros; apply Ar. now right. }
  split; [now rewrite !map_length|].
  split; [apply Forall_forall; intros v Hv; apply in_map_iff in Hv as (w & <- & Hw); eexists; split; [reflexivity|]; apply (W w Hw)|].
  intros g G.
  assert (Forall (nice (map Fin g)) (map (fun w => (map Fin (X w), map Fin (Y w))) ws)) as N.
  { apply Forall_forall. intros c Hc. apply in_map_iff in Hc as (w & <- & Hw). destruct (W w Hw) as (S1 & S2 & S3 & S4 & S5 & S6 & _).
    apply nice_fin; auto; [rewrite map_length; lia|lia|]. apply Forall_forall. intros v Hv. apply in_map_iff in Hv as (r & <- & _). reflexivity. }
  split; auto.
  destruct (interp_rows (map Fin g) _ k N K) as (out & Eo & F). exists out. split; auto. split; [symmetry; now apply Forall2_len in F|].
  apply Forall_forall. intros o Ho. apply In_nth_error in Ho as [i Ei].
  assert (exists c, nth_error (map (fun w => (map Fin (X w), map Fin (Y w))) ws) i = Some c) as [c Ec].
  { destruct (nth_error (map _ ws) i) eqn:Q; eauto. apply nth_error_None in Q. apply Forall2_len in F.
    assert (i < length out)%nat by (apply nth_error_Some; congruence). lia. }
  assert (_interp1d (map Fin g) (fst c) (snd c) k = Ok o /\ length o = length (map Fin g)) as [Eio Lo].
  { clear -F Ei Ec. revert i Ei Ec. induction F; intros [|i] Ei Ec; cbn in *; try discriminate; [|eauto].
    injection Ei as <-. injection Ec as <-. auto. }
  rewrite map_length in Lo. split; auto.
  apply nth_error_In in Ec. rewrite Forall_forall in N. specialize (N c Ec).
  apply in_map_iff in Ec as (w & <- & Hw). destruct (W w Hw) as (S1 & S2 & S3 & S4 & S5 & S6 & _). cbn [fst snd] in *.
  destruct (nice_interp (map Fin g) _ k N K) as (o' & Eo' & _ & P). cbn [fst snd] in *. rewrite Eio in Eo'. apply Ok_inj in Eo'. subst o'.
  rewrite Forall_forall in S6.
  destruct k; [| congruence |].
  - eapply Forall_impl; [|exact P]. cbv beta. intros v Hv. apply in_map_iff in Hv as (r & <- & Hr). exists r. split; auto.
  - apply Forall_forall. intros v Hv. apply In_nth_error in Hv as [j Ej].
    assert (exists x, nth_error g j = Some x) as [x Ex].
    { destruct (nth_error g j) eqn:Q; eauto. apply nth_error_None in Q. assert (j < length o)%nat by (apply nth_error_Some; congruence). lia. }
    assert (_interp1d [Fin x] (map Fin (X w)) (map Fin (Y w)) Linear = Ok [v]) as Ev.
    { clear -P Ej Ex. revert o P j Ej Ex. induction g as [|a g IH]; intros o P j Ej Ex; [destruct j; discriminate|].
      inversion P; subst. destruct j; cbn in *; [injection Ej as <-; injection Ex as <-; auto|eauto]. }
    assert (X w <> [] /\ Y w <> []) as [NX NY] by (split; intros Q; rewrite Q in *; cbn in *; lia).
    destruct (interp1d_draws Linear (X w) (Y w) x 0 1) as (r & Er & Dr); auto; try lia.
    + destruct (X w); [congruence|]. cbn in *. now rewrite S2.
    + rewrite <- S3. destruct (exists_last NX) as (l' & a & ->). rewrite last_last, app_length, nth_error_app2 by (cbn; lia).
      cbn [length]. replace (length l' + 1 - 1 - length l')%nat with 0%nat by lia. reflexivity.
    + apply G. eapply nth_error_In; eauto.
    + rewrite Ev in Er. apply Ok_inj in Er. injection Er as ->. exists r. split; auto.
      destruct Dr as (i' & (xa & Xa & La & Ha) & [[_ Hy]|(x0 & x1 & y0 & y1 & Ex0 & Ex1 & Ey0 & Ey1 & ->)]).
      * apply S6. eapply nth_error_In; eauto.
      * assert (x0 = xa) as -> by congruence. specialize (Ha _ _ (Nat.lt_succ_diag_r i') Ex1).
        pose proof (S6 y0 (nth_error_In _ _ Ey0)) as B0. pose proof (S6 y1 (nth_error_In _ _ Ey1)) as B1.
        set (t := (x - xa) / (x1 - xa)). assert (0 <= t <= 1) as Bt.
        { unfold t. split; [apply Rle_mult_inv_pos; lra|]. apply Rmult_le_reg_r with (x1 - xa); [lra|]. unfold Rdiv. rewrite Rmult_assoc, Rinv_l by lra. lra. }
        replace (y0 + (y1 - y0) / (x1 - xa) * (x - xa)) with (y0 * (1 - t) + y1 * t) by (unfold t; field; lra). nra.
Qed.

Lemma fpr_range s y w v : vrow s y w -> In v (tpr s y w) -> 0 <= v <= 1.
Proof.
  intros V Hv. destruct (roc_shape s y w V) as (_ & S & _ & H0 & _ & H1 & _ & _).
  destruct (tpr s y w) as [|a l] eqn:E; [contradiction|]. cbn in H0. subst a. inversion S as [|? ? S' F]; subst. rewrite Forall_forall in F.
  destruct Hv as [<-|Hv]; [lra|]. split; [now apply F|]. 
  destruct (exists_last (l := l) ltac:(intros ->; contradiction)) as (l' & b & ->). rewrite app_comm_cons, last_last in H1. subst b.
  apply in_app_or in Hv as [Hv|[<-|[]]]; [|lra]. clear -S' Hv. induction l' as [|c l' IH]; [contradiction|]. inversion S'; subst.
  destruct Hv as [->|Hv]; [|auto]. rewrite Forall_forall in H2. apply H2. apply in_or_app. right. now left.
Qed.

Lemma D_len s : s <> [] -> (1 <= length (D s))%nat.
Proof. intros N. apply D_nonempty in N. destruct (D s); cbn; [congruence|lia]. Qed.

Lemma two_class_or y : two_class y \/ one_class y.
Proof.
  unfold two_class, one_class. destruct (in_dec bool_dec true y); destruct (in_dec bool_dec false y); tauto.
Qed.

Lemma auc_range s y w : vrow s y w -> 0 <= rarea Linear (fpr s y w) (tpr s y w) <= 1.
Proof.
  intros V. destruct (two_class_or y) as [T|T].
  - rewrite auc_mann_whitney by auto. now apply mann_whitney_range.
  - rewrite one_class_auc by auto. lra.
Qed.

Theorem roc_sound : sound_curve unit_value roc_curve.
Proof.
  apply (unit_curve Linear); [discriminate|]. intros s y sw V.
  exists (fpr s y), (tpr s y), (D s). split; [now apply roc_exact|]. split; [apply D_len, V|]. intros w Hw.
  pose proof (weight_rows_ok _ _ _ _ V Hw) as R. destruct (roc_shape s y w R) as (S1 & _ & H0 & _ & H1 & _ & L1 & L2).
  repeat split; auto; try apply auc_range; auto. apply Forall_forall. intros v. now apply fpr_range.
Qed.

Theorem rp_sound : sound_curve unit_value recall_precision_curve.
Proof.
  apply (unit_curve Previous); [discriminate|]. intros s y sw V.
  exists (tpr s y), (pcol s y), (D s). split; [now apply rp_exact|]. split; [apply D_len, V|]. intros w Hw.
  pose proof (weight_rows_ok _ _ _ _ V Hw) as R. destruct (roc_shape s y w R) as (_ & S1 & _ & H0 & _ & H1 & _ & L1).
  repeat split; auto; try apply rp_area_range; auto.
  - unfold pcol. cbn [length]. now rewrite map_length.
  - apply Forall_forall. intros v. now apply pcol_range.
Qed.

Theorem prg_sound : sound_curve gain_value prg_curve.
Proof.
  intros s y sw V. pose proof (weight_rows_ne _ _ _ V) as NE. set (ws := weight_rows sw (length y)) in *.
  assert (forall w, In w ws -> vrow s y w) as R by (intros; eapply weight_rows_ok; eauto).
  assert (forall w, length (rgcol s y w) = S (length (D s)) /\ length (pgcol s y w) = S (length (D s))) as Len.
  { intros w. unfold rgcol, pgcol. cbn [length]. now rewrite !map_length. }
  pose proof (D_len s ltac:(apply V)) as LD.
  assert (exists areas, Forall2 (fun w v => area (S (length (D s))) [(map Fin (rgcol s y w), pgcol s y w)] Previous = Ok [v] /\ gain_value v) ws areas) as [areas FA].
  { clear NE. induction ws as [|w l IH]; [exists []; constructor|]. destruct IH as [a Fa]; [intros; apply R; now right|].
    destruct (prg_area s y w (R w (or_introl eq_refl))) as (v & E & G). rewrite (proj1 (Len w)) in E. exists (v :: a). constructor; auto. }
  exists (map (fun w => (map Fin (rgcol s y w), pgcol s y w)) ws), Previous, (PInf :: map Fin (D s)), areas.
  split; [now apply prg_exact|]. split; [discriminate|]. split; [now rewrite map_length|].
  split; [intros Q; apply map_eq_nil in Q; contradiction|].
  split.
  { unfold curve_area. cbn [fst snd]. destruct ws as [|w0 ws']; [congruence|]. cbn [map]. cbn [fst]. rewrite map_length, (proj1 (Len w0)).
    apply area_rows; [|discriminate]. clear -FA.
    change (Forall2 (fun c v => area (S (length (D s))) [c] Previous = Ok [v]) (map (fun w => (map Fin (rgcol s y w), pgcol s y w)) (w0 :: ws')) areas).
    induction FA as [|w v l a [E _] FA IH]; constructor; auto. }
  split; [rewrite map_length; symmetry; now apply Forall2_len in FA|].
  split; [clear -FA; induction FA as [|w v l a [_ G] FA IH]; constructor; auto|].
  assert (forall w v, In w ws -> In v (pgcol s y w) -> gain_value v) as GV.
  { intros w v Hw Hv. destruct (pgcol_value _ _ _ _ Hv) as [->|[r ->]]; [now left|right]. exists r. split; auto.
    apply (pgcol_le1 _ _ _ _ (R w Hw)) in Hv. now apply Rleb_spec. }
  intros g G.
  assert (Forall (nice (map Fin g)) (map (fun w => (map Fin (rgcol s y w), pgcol s y w)) ws)) as N.
  { apply Forall_forall. intros c Hc. apply in_map_iff in Hc as (w & <- & Hw). destruct (Len w) as [L1 L2].
    apply nice_fin; auto; [lia|lia|now apply rgcol_sorted, R|now apply rgcol_last, R|]. apply Forall_forall. intros v Hv. eapply gain_lt, GV; eauto. }
  split; auto.
  destruct (interp_rows (map Fin g) _ Previous N ltac:(discriminate)) as (out & Eo & F). exists out. split; auto.
  split; [symmetry; now apply Forall2_len in F|].
  assert (Forall2 (fun c o => nice (map Fin g) c /\ (forall v, In v (snd c) -> gain_value v) /\
    _interp1d (map Fin g) (fst c) (snd c) Previous = Ok o /\ length o = length (map Fin g)) (map (fun w => (map Fin (rgcol s y w), pgcol s y w)) ws) out) as F'.
  { eapply Forall2_and_in; [exact F|]. cbv beta. intros c o Hc [A B]. rewrite Forall_forall in N. split; auto. split; auto.
    apply in_map_iff in Hc as (w & <- & Hw). cbn [snd]. intros v Hv. eapply GV; eauto. }
  clear -F'. induction F' as [|c o l m (N & V & E & L) F IH]; constructor; auto. rewrite map_length in L. split; auto.
  destruct (nice_interp_prev _ _ N) as (o' & E' & _ & P). rewrite E in E'. apply Ok_inj in E'. subst o'.
  eapply Forall_impl; [|exact P]. auto.
Qed.
