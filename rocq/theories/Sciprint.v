(** Model of /repo/mlpaper/sciprint.py (and the constants it uses from
    /repo/mlpaper/constants.py, and remove_chars from /repo/mlpaper/util.py).
    Definitions only; the proofs are in other files. *)
From Verif Require Import PyBase F64 Dec.
Open Scope Z_scope.

(** ** General utils *)

(** sciprint.py:39-53 [all_same], on integers (its only use, line 763). *)
Definition all_same (L : list Z) : bool :=
  match L with [] => true | a :: _ => forallb (fun x => x =? a) L end.

(** sciprint.py:56-72 [floor_mod]; Python's [//] is floor division, as is
    Coq's [Z.div] (mod = 0, which Python rejects, is excluded by callers). *)
Definition floor_mod (x md : Z) : Z := (x / md) * md.

(** sciprint.py:75-91 [ceil_mod]. *)
Definition ceil_mod (x md : Z) : Z := floor_mod x (- md).

(** util.py:117-134 [_remove_chars_py3]. *)
Definition remove_chars (x_str del_chars : pystr) : pystr :=
  filter (fun c => negb (mem_char c del_chars)) x_str.

(** sciprint.py:94-110 [str_print_len]. *)
Definition str_print_len (x_str : pystr) : Z := strlen (remove_chars x_str (str ",.")).

(** ** Decimal utils *)

(** sciprint.py:31-32. *)
Definition D_INF : dec := DInf false.
Definition D_NINF : dec := DInf true.
Definition D_ZERO : dec := DFin false 0 0.

(** sciprint.py:29: NAN_STR = str(np.nan). *)
Definition NAN_STR : pystr := str "nan".

(** sciprint.py:126-140 [decimal_all_finite]. *)
Definition decimal_all_finite (l : list dec) : bool := forallb d_is_finite l.

(** Exponent field of a DecimalTuple: an integer, 'F' (infinite) or 'n' (NaN). *)
Inductive expo := Eint (k : Z) | EF | En.

(** DecimalTuple.exponent of [x.as_tuple()]. *)
Definition as_tuple_exponent (x : dec) : expo :=
  match x with DFin _ _ e => Eint e | DInf _ => EF | DNaN => En end.

(** sciprint.py:143-166 [decimal_from_tuple], for the digit tuple (1,) that
    all callers use (see [decimal_1ek]). *)
Definition decimal_from_tuple_1 (signed : bool) (ex : expo) : dec :=
  match ex with Eint k => DFin signed 1 k | EF => DInf signed | En => DNaN end.

(** sciprint.py:169-185 [as_tuple_chk]; returns the fields of the tuple. *)
Definition as_tuple_chk (x : dec) : res (bool * N * Z) :=
  match x with DFin s c e => Ok (s, c, e) | _ => Err ValueError end.

(** sciprint.py:188-204 [decimal_1ek]. *)
Definition decimal_1ek (k : expo) (signed : bool) : dec := decimal_from_tuple_1 signed k.

(** sciprint.py:207-221 [decimal_eps]. *)
Definition decimal_eps (x : dec) : dec := decimal_1ek (as_tuple_exponent x) false.

(** sciprint.py:224-248 [decimal_to_dot]. *)
Definition decimal_to_dot (x : dec) : bool :=
  match x with DFin _ _ e => e <=? 0 | _ => false end.

(** sciprint.py:251-274 [create_decimal]. *)
Definition create_decimal (x : f64) (dgs : Z) (m : rmode) : res dec :=
  assert! (1 <=? dgs);
  Ok (d_plus dgs m (d_of_float x)).

(** sciprint.py:277-292 [digit_str]. *)
Definition digit_str (x : dec) : res pystr :=
  do '(_, c, _) <- as_tuple_chk x;
  Ok (map digchar (digits c)).

(** ** Convert into decimal *)

(** A performance table: for each metric (in the order of [columns.levels])
    the rows of (method, (mean, error, p)).  Models the pandas DataFrame with
    hierarchical columns metric x (mean, error, p) that sciprint.py:300-373
    and 698-800 access by label; the label bookkeeping assertions
    (lines 338-347, 743-748) hold by construction of this type. *)
Definition ptable (V : Type) := list (pystr * list (pystr * (V * V * V))).

(** sciprint.py:352: limits dictionary lookup [EB_limit.get(metric, "F")]. *)
Definition limit_expo (d : dict Z) (metric : pystr) : expo :=
  match dict_get d metric with Some k => Eint k | None => EF end.

(** sciprint.py:354-372: body of the inner loop of [decimalize]. *)
Definition decimalize_cell (err_digits pval_digits default_digits : Z) (EB_clip : dec)
           (cell : f64 * f64 * f64) : res (dec * dec * dec) :=
  let '(mean_f, err_f, pval_f) := cell in
  do EB <- create_decimal err_f err_digits ROUND_CEILING;
  do ok <- (if d_is_nan EB then Ok true else d_le D_ZERO EB);
  assert! ok;
  do keep <- (if d_is_nan EB then Ok true else d_le EB EB_clip);
  let EB := if keep : bool then EB else D_INF in
  do mu <- (if d_is_finite EB && negb (d_is_zero EB)
            then d_quantize (d_of_float mean_f) EB ROUND_HALF_UP
            else create_decimal mean_f default_digits ROUND_HALF_UP);
  do pval <- d_quantize (d_of_float pval_f) (decimal_1ek (Eint (- pval_digits)) false) ROUND_CEILING;
  do okp <- (if d_is_nan pval then Ok true
             else do a <- d_le D_ZERO pval;
                  if a : bool then d_le pval (DFin false 1 0) else Ok false);
  assert! okp;
  Ok (mu, EB, pval).

(** sciprint.py:300-373 [decimalize]. *)
Definition decimalize (err_digits pval_digits default_digits : Z) (EB_limit : dict Z)
           (t : ptable f64) : res (ptable dec) :=
  assert! (1 <=? pval_digits);
  mapM (fun '(metric, rows) =>
          let EB_clip := decimal_1ek (limit_expo EB_limit metric) false in
          do rows' <- mapM (fun '(method, cell) =>
                              do c <- decimalize_cell err_digits pval_digits default_digits EB_clip cell;
                              Ok (method, c)) rows;
          Ok (metric, rows')) t.

(** ** Decimal to string *)

(** constants.py:22-24: GEN_FMT = "{0:,f}", ABOVE_FMT = ">" + GEN_FMT,
    BELOW_FMT = "<" + GEN_FMT.  The optional below_fmt/above_fmt arguments of
    the functions below are fixed to these defaults (no caller in /repo passes
    anything else). *)
Definition GEN_FMT (x : dec) : pystr := d_format x.
Definition ABOVE_FMT (x : dec) : pystr := ">"%char :: d_format x.
Definition BELOW_FMT (x : dec) : pystr := "<"%char :: d_format x.

(** str(float(mu)) for an infinite Decimal (line 440). *)
Definition inf_str (s : bool) : pystr := if s then str "-inf" else str "inf".

(** sciprint.py:381-456 [print_estimate]. *)
Definition print_estimate (mu EB : dec) (shift : Z) (min_clip max_clip : dec)
           (non_finite_fmt : dict pystr) : res pystr :=
  assert! (d_eq min_clip D_NINF || d_is_finite min_clip);
  assert! (d_eq max_clip D_INF || d_is_finite max_clip);
  do ordered <- d_lt min_clip max_clip;
  assert! ordered;
  do above <- (if negb (d_is_nan mu) then d_lt max_clip mu else Ok false);
  if above : bool then
    assert! (d_is_finite max_clip);
    Ok (ABOVE_FMT (d_scaleb max_clip shift))
  else
  do below <- (if negb (d_is_nan mu) then d_lt mu min_clip else Ok false);
  if below : bool then
    assert! (d_is_finite min_clip);
    Ok (BELOW_FMT (d_scaleb min_clip shift))
  else
  match mu with
  | DNaN => Ok (dict_get_def non_finite_fmt NAN_STR NAN_STR)
  | DInf s => Ok (dict_get_def non_finite_fmt (inf_str s) (inf_str s))
  | DFin _ _ mu_exp =>
      let mu_shifted := d_scaleb mu shift in
      if negb (decimal_to_dot mu_shifted) then Err ValueError
      else
      let std_str := GEN_FMT mu_shifted in
      do std_str <- (if d_is_finite EB then
                       do ok <- (if d_is_zero EB then Ok true
                                 else do '(_, _, e1) <- as_tuple_chk mu;
                                      do '(_, _, e2) <- as_tuple_chk EB;
                                      Ok (e1 =? e2));
                       assert! ok;
                       do nonneg <- d_le D_ZERO EB;
                       assert! nonneg;
                       do EB_str <- digit_str EB;
                       Ok (std_str ++ str "(" ++ EB_str ++ str ")")
                     else Ok std_str);
      assert! (negb (mem_char "E"%char std_str));
      Ok std_str
  end.

(** sciprint.py:459-496 [print_pval]. *)
Definition print_pval (pval : dec) (non_finite_fmt : dict pystr) : res pystr :=
  let pval_eps := decimal_eps pval in
  if d_is_nan pval then Ok (dict_get_def non_finite_fmt NAN_STR NAN_STR)
  else
  do small <- d_le pval pval_eps;
  if small : bool then
    do a <- d_le D_ZERO pval;
    do b <- (if a : bool then d_le pval pval_eps else Ok false);
    assert! b;
    Ok (BELOW_FMT pval_eps)
  else
    do a <- d_lt pval_eps pval;
    do b <- (if a : bool then d_le pval (DFin false 1 0) else Ok false);
    assert! b;
    Ok (GEN_FMT pval).

(** Python's range(a, b + 1). *)
Definition zrange (a b : Z) : list Z :=
  map (fun i => a + Z.of_nat i) (seq 0 (Z.to_nat (b - a + 1))).

(** [-mu.as_tuple().exponent] for finite decimals (line 536). *)
Definition fin_exponent (x : dec) : Z := match x with DFin _ _ e => e | _ => 0 end.

(** sciprint.py:499-554 [get_shift_range]. *)
Definition get_shift_range (xs : list dec) (shift_mod : Z) : res (Z * Z * bool) :=
  assert! (1 <=? Z.of_nat (length xs));
  assert! (1 <=? shift_mod);
  assert! (forallb d_is_finite xs);
  do max_shift_0 <- py_min (map (fun mu => - fin_exponent mu) xs);
  let max_shift := floor_mod max_shift_0 shift_mod in
  assert! ((max_shift mod shift_mod =? 0) && (max_shift <=? max_shift_0));
  do min_shift_0 <- py_min (map (fun mu => - d_adjusted mu) xs);
  let min_shift := ceil_mod min_shift_0 shift_mod in
  assert! ((min_shift mod shift_mod =? 0) && (min_shift_0 <=? min_shift));
  let all_small := max_shift <? min_shift in
  let min_shift := if all_small then max_shift else min_shift in
  assert! (min_shift <=? max_shift);
  assert! (existsb (fun k => k mod shift_mod =? 0) (zrange min_shift max_shift));
  Ok (min_shift, max_shift, all_small).

(** Lines 620: longest printed estimate at one shift. *)
Definition max_print_len (zip_list : list (dec * dec)) (shift : Z) : res Z :=
  do ls <- mapM (fun '(mu, EB) =>
                   do s <- print_estimate mu EB shift D_NINF D_INF [];
                   Ok (str_print_len s)) zip_list;
  py_max ls.

(** Lines 612-624: the search loop; [best] is (best_shift, best_len), None
    standing for (None, inf). *)
Fixpoint find_shift_loop (zip_list : list (dec * dec)) (shift_mod : Z)
         (L : list Z) (best : option (Z * Z)) : res (option (Z * Z)) :=
  match L with
  | [] => Ok best
  | shift :: L' =>
      if negb (shift mod shift_mod =? 0) then find_shift_loop zip_list shift_mod L' best
      else
      do max_len <- max_print_len zip_list shift;
      let best' := match best with
                   | None => Some (shift, max_len)
                   | Some (_, best_len) =>
                       if max_len <? best_len then Some (shift, max_len) else best
                   end in
      find_shift_loop zip_list shift_mod L' best'
  end.

(** sciprint.py:557-626 [find_shift].  [argsort] stands for numpy's default
    (unstable) argsort: it maps a list of keys to a list of indices. *)
Definition find_shift (argsort : list Z -> list nat) (mean_list err_list : list dec)
           (shift_mod : Z) : res Z :=
  assert! (Nat.eqb (length mean_list) (length err_list));
  assert! (forallb d_is_finite mean_list);
  assert! (1 <=? shift_mod);
  match mean_list with
  | [] => Ok 0
  | _ =>
      do '(min_shift, max_shift, _) <- get_shift_range mean_list shift_mod;
      let L := zrange min_shift max_shift in
      let idx := argsort (map Z.abs L) in
      let L := map (fun i => nth i L 0) idx in
      do best <- find_shift_loop (combine mean_list err_list) shift_mod L None;
      match best with
      | None => Err AssertionError
      | Some (best_shift, _) => Ok best_shift
      end
  end.

(** sciprint.py:629-668 [find_last_dig]. *)
Definition find_last_dig (num_str : pystr) : res Z :=
  let pos := find_char "." num_str in
  assert! (negb (pos =? 0));
  do pos <- (if pos <? 0 then
               let p := find_char "(" num_str in
               assert! (negb (p =? 0)); Ok p
             else Ok pos);
  do pos <- (if pos <? 0 then
               let p := strlen num_str in
               assert! (negb (p =? 0)); Ok p
             else Ok pos);
  Ok (pos - 1).

(** sciprint.py:671-695 [pad_num_str]. *)
Definition pad_num_str (num_str_list : list pystr) (pad : ascii) : res (list pystr) :=
  do rights <- mapM (fun ss => do p <- find_last_dig ss; Ok (strlen ss - p)) num_str_list;
  do max_right <- py_max rights;
  mapM (fun ss => do p <- find_last_dig ss;
                  Ok (ss ++ rep_char pad (max_right - (strlen ss - p)))) num_str_list.

(** One formatted metric: shift used and rows of (method, (estimate, p)). *)
Definition fmt_block := (pystr * Z * list (pystr * (pystr * pystr)))%type.

(** Line 770: [(min_clip <= mean_series) & (mean_series <= max_clip)].  With
    pinned pandas 0.24 a Decimal NaN is not treated as null, so the Decimal
    comparison raises. *)
Definition clip_mask (min_clip max_clip : dec) (means : list dec) : res (list bool) :=
  do a <- mapM (fun mu => d_le min_clip mu) means;
  do b <- mapM (fun mu => d_le mu max_clip) means;
  Ok (map (fun '(x, y) => andb x y) (combine a b)).

(** Boolean indexing [series[idx]]. *)
Definition select {A} (mask : list bool) (l : list A) : list A :=
  map snd (filter fst (combine mask l)).

(** Line 763: exponents of the finite p-values. *)
Definition finite_expos (l : list dec) : list Z :=
  flat_map (fun p => match p with DFin _ _ e => [e] | _ => [] end) l.

(** sciprint.py:758-799: the body of the loop over metrics in [format_table].
    The warning of line 773-774 (never reached: [len(idx)] is the number of
    methods) and the ValueError object built without [raise] in line 781-782
    have no effect and do not appear. *)
Definition format_metric (argsort : list Z -> list nat) (shift_mod : option Z) (pad : bool)
           (crap_limit_max crap_limit_min : dict Z) (non_finite_fmt : dict pystr)
           (metric : pystr) (rows : list (pystr * (dec * dec * dec))) : res fmt_block :=
  let means := map (fun '(_, (mu, _, _)) => mu) rows in
  let errs := map (fun '(_, (_, EB, _)) => EB) rows in
  let pvals := map (fun '(_, (_, _, p)) => p) rows in
  assert! (all_same (finite_expos pvals));
  let min_clip := decimal_1ek (limit_expo crap_limit_min metric) true in
  let max_clip := decimal_1ek (limit_expo crap_limit_max metric) false in
  do idx <- clip_mask min_clip max_clip means;
  assert! (decimal_all_finite (select idx means));
  do best_shift <- match shift_mod with
                   | None => Ok 0
                   | Some md => find_shift argsort (select idx means) (select idx errs) md
                   end;
  do out <- mapM (fun '(method, (mu, EB, p)) =>
                    do e <- print_estimate mu EB best_shift min_clip max_clip non_finite_fmt;
                    do ps <- print_pval p non_finite_fmt;
                    Ok (method, (e, ps))) rows;
  if pad then
    do padded <- pad_num_str (map (fun '(_, (e, _)) => e) out) " "%char;
    Ok (metric, best_shift,
        map (fun '((method, (_, ps)), e) => (method, (e, ps))) (combine out padded))
  else Ok (metric, best_shift, out).

(** sciprint.py:698-800 [format_table]; the shifts dictionary is returned
    inside the blocks. *)
Definition format_table (argsort : list Z -> list nat) (shift_mod : option Z) (pad : bool)
           (crap_limit_max crap_limit_min : dict Z) (non_finite_fmt : dict pystr)
           (t : ptable dec) : res (list fmt_block) :=
  assert! (forallb (fun '(_, rows) => negb (Nat.eqb (length rows) 0)) t);
  assert! (negb (Nat.eqb (length t) 0));
  mapM (fun '(metric, rows) =>
          format_metric argsort shift_mod pad crap_limit_max crap_limit_min non_finite_fmt
                        metric rows) t.

(** ** Headers *)

(** constants.py:34-54 [_PREFIX]. *)
Definition PREFIX : list (Z * pystr) :=
  [(-24, str "y"); (-21, str "z"); (-18, str "a"); (-15, str "f"); (-12, str "p");
   (-9, str "n"); (-6, str "u"); (-3, str "m"); (-2, str "c"); (-1, str "d");
   (0, []); (3, str "k"); (6, str "M"); (9, str "G"); (12, str "T");
   (15, str "P"); (18, str "E"); (21, str "Z"); (24, str "Y")].

(** constants.py:56-57 [_PREFIX_TEX]: a copy with -6 mapped to $\mu$. *)
Definition PREFIX_TEX : list (Z * pystr) :=
  map (fun '(k, v) => if k =? -6 then (k, str "$\mu$") else (k, v)) PREFIX.

Fixpoint zdict_get {V} (d : list (Z * V)) (k : Z) : option V :=
  match d with
  | [] => None
  | (k', v) :: d' => if k =? k' then Some v else zdict_get d' k
  end.

(** "%d" % k *)
Definition fmt_d (k : Z) : pystr :=
  (if k <? 0 then str "-" else []) ++ map digchar (digits (Z.to_N (Z.abs k))).

(** The character that the escape "\t" in the non-raw literal of line 833
    denotes. *)
Definition TAB : ascii := "009"%char.

(** sciprint.py:833: fmt_shift % (metric, shift).  The literal
    "%s $\times 10^{%d}$" is not raw, so its "\t" is a TAB character. *)
Definition fmt_shift (use_tex : bool) (metric_str : pystr) (shift : Z) : pystr :=
  if use_tex
  then metric_str ++ str " $" ++ [TAB] ++ str "imes 10^{" ++ fmt_d shift ++ str "}$"
  else metric_str ++ str " x 1e" ++ fmt_d shift.

(** The two column kinds of a formatted table (constants.py:15,18-19). *)
Inductive fstat := EST_COL | PVAL_COL.

(** sciprint.py:838-867: body of the loop of [adjust_headers] for a header
    (metric, stat) with [metric in shifts]. *)
Definition adjust_header (shift : Z) (unit : option pystr) (use_prefix use_tex : bool)
           (metric : pystr) (stat : fstat) : pystr :=
  let prefix_dict := if use_tex then PREFIX_TEX else PREFIX in
  let rev_shift := - shift in
  let metric_str := replace_char "_" " " metric in
  let h :=
    match stat with
    | PVAL_COL => str "p"
    | EST_COL =>
        match unit with
        | None => if negb (shift =? 0) then fmt_shift use_tex metric_str shift else metric_str
        | Some u =>
            match (if use_prefix then zdict_get prefix_dict rev_shift else None) with
            | Some prefix => metric_str ++ str " (" ++ prefix ++ u ++ str ")"
            | None =>
                if negb (shift =? 0)
                then fmt_shift use_tex metric_str shift ++ str " (" ++ u ++ str ")"
                else metric_str ++ str " (" ++ u ++ str ")"
            end
        end
    end in
  if use_tex then str "{" ++ h ++ str "}" else h.

(** sciprint.py:803-868 [adjust_headers]. *)
Definition adjust_headers (headers : list (pystr * fstat)) (shifts : dict Z)
           (unit_dict : dict pystr) (use_prefix use_tex : bool) : res (list pystr) :=
  mapM (fun '(metric, stat) =>
          match dict_get shifts metric with
          | None => Err AssertionError
          | Some shift =>
              Ok (adjust_header shift (dict_get unit_dict metric) use_prefix use_tex metric stat)
          end) headers.
