(** * mlpaper/mlpaper.py *)
From Coq Require Import Reals.
From Verif Require Import PyBase F64 Num Util BootUtil PerfCurves.
Open Scope Z_scope.

(** The special functions of numpy and scipy that mlpaper.py calls.
    - [t_sf df x], [t_ppf df q]: survival function and inverse CDF of Student's
      t distribution, [scipy.stats.t.sf] and [scipy.stats.t.ppf];
    - [eig2 p q]: the eigenvalues of the companion matrix of [z^2 + p z + q],
      [None] when they are not real. *)
Class fn (T : Type) := {
  nsqrt : T -> T; nexp : T -> T; nlog : T -> T;
  t_sf : Z -> T -> T; t_ppf : Z -> T -> T;
  eig2 : T -> T -> option (T * T)
}.

(** Exact instance, for any distribution functions [sf] and [ppf]. *)
Definition xsqrt (x : xr) : xr :=
  match x with Fin r => if Rltb r 0 then NaN else Fin (sqrt r) | PInf => PInf | _ => NaN end.
Definition fn_xr (sf ppf : Z -> R -> R) : fn xr := {|
  nsqrt := xsqrt; nexp := xexp; nlog := xlog;
  t_sf := fun df x => match x with Fin r => Fin (sf df r) | PInf => Fin 0 | NInf => Fin 1 | NaN => NaN end;
  t_ppf := fun df q => match q with Fin r => Fin (ppf df r) | _ => NaN end;
  eig2 := fun p q =>
    match p, q with
    | Fin p, Fin q =>
        let disc := (p * p - 4 * q)%R in
        if Rltb disc 0 then None
        else Some (Fin ((- p + sqrt disc) / 2)%R, Fin ((- p - sqrt disc) / 2)%R)
    | _, _ => None
    end
|}.

(** Double instance: correctly rounded square root, everything else from the
    mathematical libraries and left unspecified. *)
Definition fn_f64 (fexp flog : f64 -> f64) (sf ppf : Z -> f64 -> f64)
    (eig : f64 -> f64 -> option (f64 * f64)) : fn f64 := {|
  nsqrt := fsqrt; nexp := fexp; nlog := flog; t_sf := sf; t_ppf := ppf; eig2 := eig
|}.

Definition N_BOOT : Z := 1000.

Inductive eb_method := Mt | Mbernstein | Mboot | Mother.

Section Stat.
  Context {T : Type} {NT : num T} {FT : fn T}.

  Definition lenT (x : list T) : T := nofZ (Z.of_nat (length x)).
  Definition nopp (x : T) : T := nsub n0 x.

  (** [np.var(x, ddof)] and [np.std(x, ddof)] *)
  Definition nvar (ddof : Z) (x : list T) : T :=
    let m := nmean x in
    ndiv (psum (map (fun a => nmul (nsub a m) (nsub a m)) x)) (nofZ (Z.max (Z.of_nat (length x) - ddof) 0)).
  Definition nstd (ddof : Z) (x : list T) : T := nsqrt (nvar ddof x).

  (** [np.all(lower <= x) and np.all(x <= upper)] *)
  Definition within (lower upper : T) (x : list T) : bool :=
    forallb (fun a => nleb lower a) x && forallb (fun a => nleb a upper) x.
  (** [(len(x) <= 1) or (not np.all(np.isfinite(x)))] *)
  Definition degenerate (x : list T) : bool := (Z.of_nat (length x) <=? 1) || negb (forallb nisfin x).

  (** ** clip_EB, lines 19-63.  The arguments are scalars. *)
  Definition clip_EB (mu EB lower upper min_EB : T) : res T :=
    assert! (nleb n0 (nsub upper lower));
    assert! (nleb n0 min_EB && nltb min_EB ninf);
    if nltb mu lower || nltb upper mu then Err ValueError else
    if nltb (nsub upper lower) (nmul (nofZ 2) min_EB) then Err ValueError else
    let EB_trivial := nfmax (nsub upper mu) (nsub mu lower) in
    assert! (negb (nltb EB_trivial min_EB));
    Ok (nclip EB min_EB EB_trivial).

  (** ** t_test, lines 66-93.  [scipy.stats.ttest_1samp(x, 0.0)] (scipy 1.1.0)
      is spelt out in [ttest_1samp]. *)
  Definition ttest_1samp (x : list T) : T :=
    let d := nsub (nmean x) n0 in
    let denom := nsqrt (ndiv (nvar 1 x) (lenT x)) in
    let t := ndiv d denom in
    nmul (t_sf (Z.of_nat (length x) - 1) (nabs t)) (nofZ 2).

  Definition t_test (x : list T) : res T :=
    assert! (negb (existsb nisnan x));
    if degenerate x then Ok n1 else
    let pval := ttest_1samp x in
    do pval <- (if nisnan pval
                then assert! (nleb (nvar 1 x) (ndiv n1 (nofZ (10 ^ 100))));
                     Ok (if neqb (nmean x) n0 then n1 else n0)
                else Ok pval);
    assert! (nleb n0 pval && nleb pval n1);
    Ok pval.

  (** ** t_EB, lines 96-127.  [t.interval(c, df)] is the pair of quantiles
      [(1 - c) / 2] and [(1 + c) / 2]; [sem(x)] is [std(x, ddof=1) / sqrt(n)]. *)
  Definition t_EB (x : list T) (confidence : T) : res T :=
    assert! (negb (existsb nisnan x));
    assert! (nltb n0 confidence && nltb confidence n1);
    if degenerate x then Ok ninf else
    let df := Z.of_nat (length x) - 1 in
    let LB := t_ppf df (ndiv (nsub n1 confidence) (nofZ 2)) in
    let UB := t_ppf df (ndiv (nadd n1 confidence) (nofZ 2)) in
    assert! (negb (nltb UB LB));
    let sem := ndiv (nstd 1 x) (nsqrt (lenT x)) in
    let EB := nmul (nmul nhalf sem) (nsub UB LB) in
    assert! (nleb n0 EB);
    Ok EB.

  (** [np.roots([a, b, c])] (numpy 1.15.0): trailing and leading zeros are
      removed, each trailing zero gives a root 0 and the rest go through the
      companion matrix.  [None] when the roots are complex. *)
  Definition np_roots (a b c : T) : option (list T) :=
    let z x := neqb x n0 in
    if z a && z b && z c then Some []
    else if z b && z c then Some [n0; n0]
    else if z c then (if z a then Some [n0] else Some [ndiv (nopp b) a; n0])
    else if z a then (if z b then Some [] else Some [ndiv (nopp c) b])
    else match eig2 (ndiv b a) (ndiv c a) with Some (r, s) => Some [r; s] | None => None end.

  (** ** bernstein_test, lines 130-190 *)
  Definition bernstein_test (x : list T) (lower upper : T) : res T :=
    assert! (negb (existsb nisnan x));
    let range_ := nsub upper lower in
    assert! (nleb n0 range_);
    assert! (within lower upper x);
    if degenerate x then Ok n1 else
    if neqb range_ n0 || neqb range_ ninf then Ok n1 else
    let N := lenT x in
    let mu := nmean x in
    let std := nstd 0 x in
    let a := ndiv (nmul (nofZ 3) range_) N in
    let b := nmul std (nsqrt (ndiv (nofZ 2) N)) in
    let c := nopp (nabs mu) in
    assert! (nisfin a && nisfin b && nisfin c);
    match np_roots a b c with
    | None => Err AssertionError
    | Some coef_roots =>
        assert! (length coef_roots =? 2)%nat;
        assert! (existsb (fun r => nleb r n0) coef_roots);
        assert! (existsb (fun r => nleb n0 r) coef_roots);
        let m := match coef_roots with r :: l => fold_left nmax l r | [] => n0 end in
        let B := nmul m m in
        let delta := nmul (nofZ 3) (nexp (nopp B)) in
        let pval := nmin n1 delta in
        assert! (nleb n0 pval && nleb pval n1);
        Ok pval
    end.

  (** ** bernstein_EB, lines 193-247 *)
  Definition bernstein_EB (x : list T) (lower upper confidence : T) : res T :=
    assert! (negb (existsb nisnan x));
    let range_ := nsub upper lower in
    assert! (nleb n0 range_);
    assert! (within lower upper x);
    assert! (nltb n0 confidence && nltb confidence n1);
    if degenerate x then Ok range_ else
    let N := lenT x in
    let delta := nsub n1 confidence in
    let A := nlog (ndiv (nofZ 3) delta) in
    let EB := nadd (nmul (nstd 0 x) (nsqrt (ndiv (nmul (nofZ 2) A) N)))
                   (ndiv (nmul (nmul (nofZ 3) A) range_) N) in
    assert! (nleb n0 EB);
    Ok EB.

  (** ** _boot_EB_and_test, lines 250-275.  [counts] is the outcome of the
      multinomial draw inside [bu.boot_weights]. *)
  Definition _boot_EB_and_test (counts : list (list Z)) (x : list T) (confidence : T) (n_boot : Z)
      (return_EB return_test return_CI : bool) : res (T * T * (T * T)) :=
    assert! (negb (existsb nisnan x));
    if degenerate x then Ok (ninf, n1, (nninf, ninf)) else
    do weight <- boot_weights counts (Z.of_nat (length x)) n_boot n0;
    let mu_boot := map (weighted_mean x) weight in
    do pval <- (if return_test then significance mu_boot (Scalar n0) else Ok n1);
    do EB <- (if return_EB then error_bar mu_boot (nmean x) confidence else Ok ninf);
    do CI <- (if return_CI then percentile mu_boot confidence else Ok (nninf, ninf));
    Ok (EB, pval, CI).

  (** ** boot_test, lines 278-296; [confidence] keeps its default 0.95, which
      is not used. *)
  Definition boot_test (counts : list (list Z)) (x : list T) (n_boot : Z) : res T :=
    do r <- _boot_EB_and_test counts x (ndiv (nofZ 95) (nofZ 100)) n_boot false true false;
    let pval := snd (fst r) in
    assert! (nleb n0 pval && nleb pval n1);
    Ok pval.

  (** ** boot_EB, lines 299-320 *)
  Definition boot_EB (counts : list (list Z)) (x : list T) (confidence : T) (n_boot : Z) : res T :=
    do r <- _boot_EB_and_test counts x confidence n_boot true false false;
    let EB := fst (fst r) in
    assert! (nleb n0 EB);
    Ok EB.

  (** ** get_mean_and_EB, lines 323-365 *)
  Definition get_mean_and_EB (counts : list (list Z)) (x : list T) (confidence min_EB lower upper : T)
      (method : eb_method) : res (T * T) :=
    assert! (within lower upper x);
    do EB <- match method with
             | Mt => t_EB x confidence
             | Mbernstein => bernstein_EB x lower upper confidence
             | Mboot => boot_EB counts x confidence N_BOOT
             | Mother => Err AssertionError
             end;
    do mu <- clip_chk isclose (nmean x) lower upper;
    do EB <- clip_EB mu EB lower upper min_EB;
    Ok (mu, EB).

  (** ** get_test, lines 368-398 *)
  Definition get_test (counts : list (list Z)) (x : list T) (lower upper : T) (method : eb_method) : res T :=
    match method with
    | Mt => t_test x
    | Mbernstein => bernstein_test x lower upper
    | Mboot => boot_test counts x N_BOOT
    | Mother => Err AssertionError
    end.

  (** ** get_mean_EB_test, lines 401-449 *)
  Definition get_mean_EB_test (counts : list (list Z)) (x : list T) (confidence min_EB lower upper : T)
      (method : eb_method) : res (T * T * T) :=
    assert! (within lower upper x);
    do r <- match method with
            | Mt => do EB <- t_EB x confidence; do pval <- t_test x; Ok (EB, pval)
            | Mbernstein =>
                do EB <- bernstein_EB x lower upper confidence;
                do pval <- bernstein_test x lower upper; Ok (EB, pval)
            | Mboot => do r <- _boot_EB_and_test counts x confidence N_BOOT true true false; Ok (fst r)
            | Mother => Err AssertionError
            end;
    do mu <- clip_chk isclose (nmean x) lower upper;
    do EB <- clip_EB mu (fst r) lower upper min_EB;
    Ok (mu, EB, snd r).

  (** ** loss_summary_table, lines 457-539.
      A loss table is a pandas DataFrame with two-level columns: the levels
      [lt_metrics], [lt_methods], and the labelled columns.  Selecting a label
      that is missing raises KeyError, a label that occurs twice gives a
      two-dimensional array.  [draw metric method test] is the outcome of the
      multinomial draw made for that cell, [test] telling the draw of
      [get_test] from that of the error bar. *)
  Record loss_table_t := {
    lt_metrics : list pystr;
    lt_methods : list pystr;
    lt_len : nat;
    lt_cols : list ((pystr * pystr) * list T)
  }.

  Definition label_eqb (a b : pystr * pystr) : bool :=
    pystr_eqb (fst a) (fst b) && pystr_eqb (snd a) (snd b).
  Definition select (t : loss_table_t) (label : pystr * pystr) : res (list T) :=
    match filter (fun c => label_eqb label (fst c)) (lt_cols t) with
    | [] => Err KeyError
    | [c] => Ok (snd c)
    | _ => Err AssertionError
    end.

  Record cell := { cell_mean : T; cell_error : T; cell_pval : T }.

  Definition summary_cell (draw : pystr -> pystr -> bool -> list (list Z)) (t : loss_table_t)
      (ref_method : pystr) (pairwise_CI : bool) (confidence : T) (method_EB : eb_method)
      (metric : pystr) (lower upper : T) (loss_ref : list T) (method : pystr) : res cell :=
    do loss <- select t (metric, method);
    assert! (negb (existsb nisnan loss));
    assert! (within lower upper loss);
    let mu := nmean loss in
    let deltas := map2 nsub loss loss_ref in
    let range_ := nsub upper lower in
    let self_comparison := pystr_eqb method ref_method in
    if pairwise_CI then
      if self_comparison then Ok {| cell_mean := mu; cell_error := nnan; cell_pval := nnan |} else
      do r <- get_mean_EB_test (draw metric method false) deltas confidence n0 (nopp range_) range_ method_EB;
      Ok {| cell_mean := mu; cell_error := snd (fst r); cell_pval := snd r |}
    else
      do r <- get_mean_and_EB (draw metric method false) loss confidence n0 lower upper method_EB;
      assert! (neqb (fst r) mu);
      if self_comparison then Ok {| cell_mean := mu; cell_error := snd r; cell_pval := nnan |} else
      do pval <- get_test (draw metric method true) deltas (nopp range_) range_ method_EB;
      Ok {| cell_mean := mu; cell_error := snd r; cell_pval := pval |}.

  Definition loss_summary_table (draw : pystr -> pystr -> bool -> list (list Z)) (t : loss_table_t)
      (ref_method : pystr) (pairwise_CI : bool) (confidence : T) (method_EB : eb_method)
      (limits : dict (T * T)) : res (list ((pystr * pystr) * cell)) :=
    assert! (existsb (pystr_eqb ref_method) (lt_methods t));
    assert! (1 <=? lt_len t)%nat && (1 <=? length (lt_metrics t))%nat;
    do rows <- mapM (fun metric =>
      let lim := dict_get_def limits metric (nninf, ninf) in
      let lower := fst lim in
      let upper := snd lim in
      assert! (nleb lower upper);
      do loss_ref <- select t (metric, ref_method);
      assert! (negb (existsb nisnan loss_ref));
      assert! (within lower upper loss_ref);
      mapM (fun method =>
        do c <- summary_cell draw t ref_method pairwise_CI confidence method_EB metric lower upper loss_ref method;
        Ok ((metric, method), c)) (lt_methods t)) (lt_metrics t);
    Ok (concat rows).
End Stat.
Arguments loss_table_t T : clear implicits.
Arguments cell T : clear implicits.
