(** * mlpaper/boot_util.py *)
From Coq Require Import Reals.
From Verif Require Import PyBase F64 Num Util.
Open Scope Z_scope.

Section Boot.
  Context {T : Type} {NT : num T}.

  (** ** boot_weights, lines 5-30.
      [counts] is the outcome of [np.random.multinomial(N, p_BS, size=n_boot)],
      one row of [N] integers per replicate. *)
  Definition boot_weights (counts : list (list Z)) (N n_boot : Z) (epsilon : T) : res (list (list T)) :=
    assert! (1 <=? N);
    assert! (1 <=? n_boot);
    Ok (map (map (fun k => nmax epsilon (nofZ k))) counts).

  (** What the multinomial generator can return. *)
  Definition multinomial_outcome (N n_boot : Z) (counts : list (list Z)) : Prop :=
    Z.of_nat (length counts) = n_boot /\
    Forall (fun row => Z.of_nat (length row) = N /\ Forall (fun k => 0 <= k) row /\
                       fold_right Z.add 0 row = N) counts.

  (** ** confidence_to_percentiles, lines 33-58 *)
  Definition confidence_to_percentiles (confidence : T) : res (T * T) :=
    assert! (nltb n0 confidence && nltb confidence n1);
    let alpha := nmul nhalf (nsub n1 confidence) in
    Ok (nmul (nofZ 100) alpha, nmul (nofZ 100) (nsub n1 alpha)).

  (** [np.percentile(b, perc, interpolation='lower' or 'higher')] of a vector
      (numpy 1.15.0): entry [floor] or [ceil] of [perc / 100 * (n - 1)] of the
      sorted vector.  For an empty vector numpy raises too. *)
  Definition np_percentile (higher : bool) (b : list T) (perc : T) : res T :=
    let q := ndiv perc (nofZ 100) in
    if nltb q n0 || nltb n1 q then Err ValueError else
    let indices := nmul q (nofZ (Z.of_nat (length b) - 1)) in
    py_index (sort b) (if higher then nceilZ indices else nfloorZ indices).

  (** ** percentile, lines 61-91 (one vector of replicates) *)
  Definition percentile (b : list T) (confidence : T) : res (T * T) :=
    assert! (negb (existsb nisnan b));
    do p <- confidence_to_percentiles confidence;
    do lb <- np_percentile false b (fst p);
    do ub <- np_percentile true b (snd p);
    Ok (lb, ub).

  (** ** basic, lines 94-118 *)
  Definition basic (b : list T) (original_estimate confidence : T) : res (T * T) :=
    do p <- percentile b confidence;
    let two := nofZ 2 in
    Ok (nsub (nmul two original_estimate) (snd p), nsub (nmul two original_estimate) (fst p)).

  (** [np.fmax]: NaN operands are ignored. *)
  Definition nfmax (a b : T) : T := if nleb b a || nisnan b then a else b.

  (** ** error_bar, lines 121-148 *)
  Definition error_bar (b : list T) (original_estimate confidence : T) : res T :=
    do p <- percentile b confidence;
    let EB := nfmax (nsub (snd p) original_estimate) (nsub original_estimate (fst p)) in
    assert! (negb (nltb EB n0));
    assert! (implb (nisfin original_estimate) (negb (nisnan EB)));
    Ok EB.

  (** ** significance, lines 151-177 *)
  Inductive reference := Scalar (r : T) | Paired (l : list T).
  Definition ref_values (b : list T) (r : reference) : list T :=
    match r with Scalar v => repeat v (length b) | Paired l => l end.

  (** [np.mean] of a boolean vector. *)
  Definition mean_bool (l : list bool) : T :=
    ndiv (nofZ (Z.of_nat (length (filter (fun x => x) l)))) (nofZ (Z.of_nat (length l))).

  Definition significance (b : list T) (r : reference) : res T :=
    assert! (match r with Scalar _ => true | Paired l => (length l =? length b)%nat end);
    assert! (negb (existsb nisnan b));
    assert! (match r with Scalar v => negb (nisnan v) | Paired l => negb (existsb nisnan l) end);
    let rv := ref_values b r in
    let pval := nmul (nofZ 2) (nmin (mean_bool (map2 nleb b rv)) (mean_bool (map2 nleb rv b))) in
    Ok (nmin n1 pval).
End Boot.
Arguments reference T : clear implicits.

(** [np.mean] of a vector; [np.mean(x * weight, axis=1)], mlpaper.py 262 and
    the weighted estimates of classification.py, is [weighted_mean] for one row
    of weights. *)
Definition nmean {T} {NT : num T} (l : list T) : T := ndiv (psum l) (nofZ (Z.of_nat (length l))).
Definition weighted_mean {T} {NT : num T} (x weight : list T) : T := nmean (map2 nmul x weight).
