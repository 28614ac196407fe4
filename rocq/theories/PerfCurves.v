(** * mlpaper/perf_curves.py

    Matrices of shape (n_boot, n) are lists of rows.  Integer counts (the
    unweighted case) are kept as integers until the curve is assembled and then
    converted; the conversion is exact below 2^53 samples, and from there on
    numpy computes with int64 products rounded to double by [true_divide],
    which is what the double product gives (below 2^31 samples). *)
From Coq Require Import Reals.
From Verif Require Import PyBase F64 Num Util.
Open Scope Z_scope.

Section Curves.
  Context {T : Type} {NT : num T}.

  (** line 6: 1e-10 *)
  Definition EPSILON : T := ndiv n1 (nofZ (10 ^ 10)).

  (** [l[-1]] of a non-empty row *)
  Definition lastn (l : list T) : T := last l n0.

  (** ** _add_pseudo_points, lines 17-51 *)

  (** lines 44-50 for one row of the matrices *)
  Definition pseudo_row (fps tps : list T) : list T * list T :=
    let fps_fix := neqb (lastn fps) n0 in
    let tps_fix := neqb (lastn tps) n0 in
    let fps := if fps_fix then map (nmul EPSILON) tps else fps in
    let tps := if tps_fix then map (nmul EPSILON) fps else tps in
    (fps, tps).

  Definition _add_pseudo_points (fps tps : list (list T)) : res (list (list T) * list (list T)) :=
    assert! (length fps =? length tps)%nat;
    assert! (forallb (fun p => (length (fst p) =? length (snd p))%nat) (combine fps tps));
    assert! (negb (length (concat fps) =? 0)%nat);
    let r := map2 pseudo_row fps tps in
    Ok (map fst r, map snd r).

  (** ** _binary_clf_curve, lines 54-136 *)

  (** [np.argsort(l, kind="mergesort")]: the stable sorting permutation. *)
  Fixpoint insert_idx (p : T * nat) (l : list (T * nat)) : list (T * nat) :=
    match l with
    | [] => [p]
    | q :: l' => if nleb (fst p) (fst q) then p :: l else q :: insert_idx p l'
    end.
  Definition argsort_stable (l : list T) : list nat :=
    map snd (fold_right insert_idx [] (combine l (seq 0 (length l)))).

  (** [np.where(m)[0]] *)
  Fixpoint where_from (i : nat) (m : list bool) : list nat :=
    match m with
    | [] => []
    | b :: m' => if b then i :: where_from (S i) m' else where_from (S i) m'
    end.
  Definition where_ (m : list bool) : list nat := where_from 0 m.

  Definition b2z (b : bool) : Z := if b then 1 else 0.
  Fixpoint cumsumZ_from (acc : Z) (l : list Z) : list Z :=
    match l with [] => [] | a :: l' => (acc + a) :: cumsumZ_from (acc + a) l' end.
  Definition cumsumZ (l : list Z) : list Z := cumsumZ_from 0 l.

  (** [np.abs]; [np.abs(-0.0)] is [0.0] *)
  Definition nabs (x : T) : T := if nleb x n0 then nsub n0 x else x.
  (** [np.isclose(a, b)] with the default tolerances rtol=1e-5, atol=1e-8 *)
  Definition isclose (a b : T) : bool :=
    if nisfin a && nisfin b
    then nleb (nabs (nsub a b)) (nadd (ndiv n1 (nofZ (10 ^ 8))) (nmul (ndiv n1 (nofZ (10 ^ 5))) (nabs b)))
    else neqb a b.
  Definition allclose (a b : list T) : bool := forallb (fun p => isclose (fst p) (snd p)) (combine a b).

  (** [np.maximum.accumulate] *)
  Fixpoint max_acc_from (m : T) (l : list T) : list T :=
    match l with [] => [] | a :: l' => let m' := nmax m a in m' :: max_acc_from m' l' end.
  Definition max_accumulate (l : list T) : list T :=
    match l with [] => [] | a :: l' => a :: max_acc_from a l' end.

  (** lines 102-106: counts at the thresholds; [y_true] is already sorted *)
  Definition counts_unweighted (y_true : list bool) (tidx : list nat) : res (list (list T) * list (list T)) :=
    let tps := take (cumsumZ (map b2z y_true)) tidx in
    let fps := map2 (fun i t => 1 + Z.of_nat i - t) tidx tps in
    assert! ((last fps 0 =? Z.of_nat (length (filter negb y_true))) &&
             (last tps 0 =? Z.of_nat (length (filter (fun b => b) y_true))));
    Ok ([map nofZ fps], [map nofZ tps]).

  (** lines 108-119; [desc] are the sorting indices. *)
  Definition counts_weighted (y_true : list bool) (desc tidx : list nat) (sample_weight : list (list T))
    : res (list (list T) * list (list T)) :=
    assert! (forallb (fun r => (length r =? length y_true)%nat) sample_weight);
    assert! (1 <=? length sample_weight)%nat;
    assert! (forallb (forallb nisfin) sample_weight);
    assert! (forallb (forallb (nltb n0)) sample_weight);
    let weight := map (fun r => take r desc) sample_weight in
    let tps := map (fun r => take (cumsum (map2 (fun b w => nmul (nofZ (b2z b)) w) y_true r)) tidx) weight in
    let fps := map2 (fun r t => map2 nsub (take (cumsum r) tidx) t) weight tps in
    assert! (allclose (map lastn fps) (map (fun r => row_sum (length sample_weight) (mask (map negb y_true) r)) weight));
    assert! (allclose (map lastn tps) (map (fun r => row_sum (length sample_weight) (mask y_true r)) weight));
    Ok (fps, tps).

  Definition _binary_clf_curve (y_true : list bool) (y_score : list T) (sample_weight : option (list (list T)))
    : res (list (list T) * list (list T) * list T) :=
    assert! (length y_score =? length y_true)%nat;
    assert! (forallb nisfin y_score);
    assert! (1 <=? length y_true)%nat;
    let desc := rev (argsort_stable y_score) in
    let y_score := take y_score desc in
    let y_true := take y_true desc in
    let distinct := where_ (map (fun d => negb (neqb d n0)) (diff y_score)) in
    let tidx := distinct ++ [(length y_true - 1)%nat] in
    do p <- (match sample_weight with
             | None => counts_unweighted y_true tidx
             | Some sw => counts_weighted y_true desc tidx sw
             end);
    let '(fps, tps) := p in
    (* lines 122-125 *)
    let fps := map (cons n0) fps in
    let tps := map (cons n0) tps in
    let thresholds := ninf :: take y_score tidx in
    assert! (2 <=? length thresholds)%nat;
    do q <- _add_pseudo_points fps tps;
    let '(fps, tps) := q in
    assert! (forallb (fun r => nltb n0 (lastn r)) fps && forallb (fun r => nltb n0 (lastn r)) tps);
    (* line 133 *)
    let fps := map max_accumulate fps in
    assert! (forallb (fun r => forallb (nleb n0) (diff r)) fps &&
             forallb (fun r => forallb (nleb n0) (diff r)) tps);
    Ok (fps, tps, thresholds).

  (** A curve: the rows (x, y) of one bootstrap replicate each, and how to
      interpolate. *)
  Definition curve := (list (list T * list T) * ikind)%type.

  (** [np.true_divide(r, r[-1:])] *)
  Definition div_last (r : list T) : list T := map (fun x => ndiv x (lastn r)) r.

  (** [row[0] = row[1]] *)
  Definition back_fill (row : list T) : list T :=
    match row with _ :: b :: l => b :: b :: l | _ => row end.

  (** ** roc_curve, lines 144-177 *)
  Definition roc_curve (y_true : list bool) (y_score : list T) (sw : option (list (list T)))
    : res (curve * list T) :=
    do r <- _binary_clf_curve y_true y_score sw;
    let '(fps, tps, thresholds) := r in
    Ok ((combine (map div_last fps) (map div_last tps), Linear), thresholds).

  (** ** recall_precision_curve, lines 180-220 *)
  Definition recall_precision_curve (y_true : list bool) (y_score : list T) (sw : option (list (list T)))
    : res (curve * list T) :=
    do r <- _binary_clf_curve y_true y_score sw;
    let '(fps, tps, thresholds) := r in
    let recall := map div_last tps in
    let precision := map2 (map2 (fun t f => ndiv t (nadd t f))) tps fps in
    let precision := map back_fill precision in
    assert! (forallb (forallb (nleb n0)) precision && forallb (forallb (fun p => nleb p n1)) precision);
    Ok ((combine recall precision, Previous), thresholds).

  (** ** prg_curve, lines 223-264 *)

  (** lines 248-261 for one row; returns rec_gain before and after line 261 *)
  Definition gain_row (fps tps : list T) : list T * list T :=
    let n_neg := lastn fps in
    let n_pos := lastn tps in
    let fns := map (nsub n_pos) tps in
    let den := map (nmul n_neg) tps in
    let rec_gain := map2 (fun a d => nsub n1 (ndiv (nmul n_pos a) d)) fns den in
    let prec_gain := map2 (fun a d => nsub n1 (ndiv (nmul n_pos a) d)) fps den in
    (rec_gain, back_fill prec_gain).

  Definition prg_curve (y_true : list bool) (y_score : list T) (sw : option (list (list T)))
    : res (curve * list T) :=
    do r <- _binary_clf_curve y_true y_score sw;
    let '(fps, tps, thresholds) := r in
    let g := map2 gain_row fps tps in
    let rec_gain := map fst g in
    let prec_gain := map snd g in
    assert! (negb (existsb (fun r => existsb (fun d => nltb d n0) (diff r)) rec_gain));
    let rec_gain := map (map (nmax n0)) rec_gain in
    assert! (forallb (forallb (fun x => nleb x n1)) rec_gain);
    assert! (forallb (fun p => forallb (fun q => neqb (fst q) n0 || nleb (snd q) n1) (combine (fst p) (snd p)))
               (combine rec_gain prec_gain));
    Ok ((combine rec_gain prec_gain, Previous), thresholds).
End Curves.
Arguments curve T : clear implicits.
