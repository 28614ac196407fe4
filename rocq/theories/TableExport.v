(** Model of the table export functions of mlpaper/sciprint.py
    ([table_to_latex], [table_to_string], [just_format_it]).
    Definitions only; the proofs are in other files. *)
From Verif Require Import PyBase F64 Dec Sciprint.
Open Scope Z_scope.

(** The object-typed frame that the export functions build from the formatted
    table (sciprint.py:915-917, 957-959): row labels, column labels and the
    entries row by row. *)
Record sframe := SFrame { sf_index : list pystr; sf_columns : list pystr; sf_values : list (list pystr) }.

(** sciprint.py:750-753: [columns], [index] and [values] of the frame
    perf_tbl_str that [format_table] fills, and the dictionary [shifts], in
    terms of the blocks of the model of [format_table].  The rows of all
    blocks carry the same labels (one index for the whole frame). *)
Definition str_columns (bs : list fmt_block) : list (pystr * fstat) :=
  flat_map (fun '(metric, _, _) => [(metric, EST_COL); (metric, PVAL_COL)]) bs.

Definition str_shifts (bs : list fmt_block) : dict Z :=
  map (fun '(metric, shift, _) => (metric, shift)) bs.

Definition str_index (bs : list fmt_block) : list pystr :=
  match bs with [] => [] | (_, _, rows) :: _ => map fst rows end.

Definition str_values (bs : list fmt_block) : list (list pystr) :=
  map (fun j => flat_map (fun '(_, _, rows) => match nth_error rows j with
                                               | Some (_, (e, p)) => [e; p]
                                               | None => []
                                               end) bs)
      (seq 0 (length (str_index bs))).

(** sciprint.py:910-917 and 954-959: the new headers and the relabelled
    frame. *)
Definition relabelled (bs : list fmt_block) (unit_dict : dict pystr) (use_prefix use_tex : bool)
  : res sframe :=
  do new_headers <- adjust_headers (str_columns bs) (str_shifts bs) unit_dict use_prefix use_tex;
  Ok (SFrame (str_index bs) new_headers (str_values bs)).

Section Render.
  (** pandas' text output is arbitrary: [DataFrame.to_string(index=True,
      index_names=False)] and [DataFrame.to_latex(escape=False,
      column_format=..., index_names=False)] as functions of the frame. *)
  Context (to_string : sframe -> pystr) (to_latex : pystr -> sframe -> pystr).

  (** sciprint.py:871-920 [table_to_latex]. *)
  Definition table_to_latex (bs : list fmt_block) (unit_dict : dict pystr) (use_prefix : bool) : res pystr :=
    let n := length (str_columns bs) in
    assert! (Nat.eqb (n mod 2) 0);
    let align := str "|l" ++ concat (repeat (str "|Sr") (n / 2)) ++ str "|" in
    do f <- relabelled bs unit_dict use_prefix true;
    Ok (to_latex align f).

  (** sciprint.py:923-961 [table_to_string]. *)
  Definition table_to_string (bs : list fmt_block) (unit_dict : dict pystr) (use_prefix : bool) : res pystr :=
    do f <- relabelled bs unit_dict use_prefix false;
    Ok (to_string f).

  (** sciprint.py:964-1035 [just_format_it]: [decimalize] with its default
      err_digits=2, pval_digits=4, default_digits=5 (sciprint.py:300),
      [format_table] with its default pad=True (sciprint.py:698). *)
  Definition just_format_it (argsort : list Z -> list nat) (perf_tbl_fp : ptable f64)
             (unit_dict : dict pystr) (shift_mod : option Z)
             (crap_limit_max crap_limit_min EB_limit : dict Z) (non_finite_fmt : dict pystr)
             (use_tex use_prefix : bool) : res pystr :=
    do perf_tbl_dec <- decimalize 2 4 5 EB_limit perf_tbl_fp;
    do bs <- format_table argsort shift_mod true crap_limit_max crap_limit_min non_finite_fmt perf_tbl_dec;
    if use_tex then table_to_latex bs unit_dict use_prefix
    else table_to_string bs unit_dict use_prefix.
End Render.
