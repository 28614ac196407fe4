(** Specification vocabulary for the number formatting properties.  Nothing
    here uses the model's functions; it only uses the data types. *)
From Coq Require Import Permutation Sorted Reals.
From Flocq Require Import Core.
From Verif Require Import PyBase Dec.
Open Scope Z_scope.

(** ** Real values *)

Definition radix10 : radix := Build_radix 10 (refl_equal true).

(** [10^k] as a real. *)
Definition p10 (k : Z) : R := bpow radix10 k.

(** The real value of the finite decimal with sign [s], coefficient [c] and
    exponent [e]. *)
Definition dR (s : bool) (c : N) (e : Z) : R :=
  (IZR (if s then - Z.of_N c else Z.of_N c) * p10 e)%R.

(** ** Correct rounding to a grid of step [u] *)

(** [v] is [x] rounded upwards. *)
Definition rounds_up (x v u : R) : Prop := (x <= v < x + u)%R.

(** [v] is [x] rounded to nearest, ties away from zero. *)
Definition rounds_half_up (x v u : R) : Prop :=
  (Rabs (v - x) <= u / 2)%R /\ (Rabs (v - x) = u / 2 -> Rabs x < Rabs v)%R.

(** ** Reading numbers back from text *)

Definition char_digit (a : ascii) : option N :=
  let n := N_of_ascii a in
  if (N.leb 48 n && N.leb n 57)%bool then Some (n - 48)%N else None.

(** Scan an unsigned fixed point number: commas are skipped before the point;
    the result is the integer made of all digits and the number of digits after
    the point. *)
Fixpoint scan (s : pystr) (acc : N) (dot : option nat) : option (N * nat) :=
  match s with
  | [] => Some (acc, match dot with Some k => k | None => O end)
  | a :: s' =>
      match char_digit a with
      | Some d => scan s' (10 * acc + d)%N (option_map S dot)
      | None =>
          if Ascii.eqb a "." then
            match dot with None => scan s' acc (Some O) | Some _ => None end
          else if Ascii.eqb a "," then
            match dot with None => scan s' acc None | Some _ => None end
          else None
      end
  end.

(** A text is read as (sign, integer, decimals): [-1,234.50] is
    (true, 123450, 2).  At least one character must follow the sign. *)
Definition read_number (s : pystr) : option (bool * N * nat) :=
  match s with
  | [] => None
  | a :: s' =>
      if Ascii.eqb a "-" then
        match s' with
        | [] => None
        | _ => option_map (fun '(c, k) => (true, c, k)) (scan s' 0 None)
        end
      else option_map (fun '(c, k) => (false, c, k)) (scan s 0 None)
  end.

(** Split a text [number(error)] at the parenthesis. *)
Fixpoint split_paren (s : pystr) : pystr * option pystr :=
  match s with
  | [] => ([], None)
  | a :: s' => if Ascii.eqb a "(" then ([], Some s')
               else let '(u, v) := split_paren s' in (a :: u, v)
  end.

Definition strip_close (s : pystr) : option pystr :=
  match rev s with
  | a :: r => if Ascii.eqb a ")" then Some (rev r) else None
  | [] => None
  end.

(** Read [number(error)]: the number and, if present, the error digits. *)
Definition read_estimate (s : pystr) : option ((bool * N * nat) * option N) :=
  let '(num, err) := split_paren s in
  match read_number num, err with
  | Some r, None => Some (r, None)
  | Some r, Some e =>
      match strip_close e with
      | Some e' => match read_number e' with
                   | Some (false, c, O) => Some (r, Some c)
                   | _ => None
                   end
      | None => None
      end
  | None, _ => None
  end.

(** Proper thousands grouping of the integer part: split at the commas, the
    first group has one to three digits, all others exactly three. *)
Definition is_digit_char (a : ascii) : Prop := char_digit a <> None.
Inductive grouped_tail : pystr -> Prop :=
| gt_nil : grouped_tail []
| gt_cons a b c s : is_digit_char a -> is_digit_char b -> is_digit_char c ->
                    grouped_tail s -> grouped_tail ("," :: a :: b :: c :: s)%char.
Definition well_grouped (s : pystr) : Prop :=
  exists h t, s = h ++ t /\ (1 <= length h <= 3)%nat /\ Forall is_digit_char h /\ grouped_tail t.

(** ** Order on decimals including infinities (NaN is unordered) *)
Definition ext_lt (x y : dec) : Prop :=
  match x, y with
  | DNaN, _ | _, DNaN => False
  | DInf a, DInf b => a = true /\ b = false
  | DInf a, DFin _ _ _ => a = true
  | DFin _ _ _, DInf b => b = false
  | DFin s c e, DFin s' c' e' => (dR s c e < dR s' c' e')%R
  end.

(** Admissible clip limits: each finite or the matching infinity, in order. *)
Definition clip_ok (mn mx : dec) : Prop :=
  (mn = DInf true \/ exists s c e, mn = DFin s c e) /\
  (mx = DInf false \/ exists s c e, mx = DFin s c e) /\ ext_lt mn mx.

(** Error bars that go with a mean of exponent [e]: non-finite, zero, or
    positive with the same exponent. *)
Definition err_ok (EB : dec) (e : Z) : Prop :=
  match EB with
  | DFin s c e' => c = 0%N \/ (s = false /\ e' = e)
  | _ => True
  end.

(** ** Shifts *)

(** After multiplying by [10^sh] the number is known down to the units. *)
Definition known_to_dot (x : dec) (sh : Z) : Prop :=
  match x with DFin _ _ e => e + sh <= 0 | _ => False end.

(** After multiplying by [10^sh] the leading digit is at or left of the units
    place; for a zero (which has no magnitude) its exponent decides. *)
Definition reaches_units (x : dec) (sh : Z) : Prop :=
  match x with
  | DFin s c e => if N.eqb c 0 then 0 <= e + sh else (1 <= Rabs (dR s c e) * p10 sh)%R
  | _ => False
  end.

(** ** Sorting oracle: numpy's argsort returns the indices in an order that
    sorts the keys; the order of equal keys is unspecified. *)
Definition argsort_ok (argsort : list Z -> list nat) : Prop :=
  forall keys, Permutation (argsort keys) (seq 0 (length keys))
    /\ StronglySorted (fun i j => nth i keys 0 <= nth j keys 0) (argsort keys).

(** Number of characters other than ',' and '.'. *)
Definition visible_width (s : pystr) : Z :=
  Z.of_nat (length (filter (fun c => negb (Ascii.eqb c "," || Ascii.eqb c ".")) s)).

(** ** Alignment *)

(** Index of the first [c]; the length of the string if there is none. *)
Fixpoint index_or_end (c : ascii) (s : pystr) : nat :=
  match s with
  | [] => O
  | a :: s' => if Ascii.eqb a c then O else S (index_or_end c s')
  end.

(** Position of the decimal point: the first '.', or else the first '(', or
    else the end of the text. *)
Definition point_pos (s : pystr) : nat :=
  if mem_char "." s then index_or_end "." s else index_or_end "(" s.

(** ** Tables *)

(** Metric number [i] of a table is [metric] and its row number [j] is that of
    [method], holding the cell [v]. *)
Definition cell_at {V} (t : list (pystr * list (pystr * V))) (i j : nat)
           (metric method : pystr) (v : V) : Prop :=
  exists rows, nth_error t i = Some (metric, rows) /\ nth_error rows j = Some (method, v).

(** ** Units *)

(** The power of ten of a SI prefix symbol (BIPM table; "u" and "$\mu$" stand
    for micro, the empty text for no prefix). *)
Definition si_power (sym : string) : option Z :=
  match sym with
  | "Y" => Some 24 | "Z" => Some 21 | "E" => Some 18 | "P" => Some 15 | "T" => Some 12
  | "G" => Some 9 | "M" => Some 6 | "k" => Some 3 | "" => Some 0
  | "d" => Some (-1) | "c" => Some (-2) | "m" => Some (-3)
  | "u" | "$\mu$" => Some (-6) | "n" => Some (-9) | "p" => Some (-12) | "f" => Some (-15)
  | "a" => Some (-18) | "z" => Some (-21) | "y" => Some (-24)
  | _ => None
  end%string.
