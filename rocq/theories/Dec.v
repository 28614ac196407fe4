(** Model of the parts of Python's [decimal] module used by
    /repo/mlpaper/sciprint.py.  The rules are those of the General Decimal
    Arithmetic specification as implemented by CPython (Lib/_pydecimal.py and
    libmpdec agree on them).

    Simplifications: the exponent limits Emin/Emax/Etiny of the context
    (+-999999) are not modelled, sNaN and NaN payloads are identified with
    NaN, and InvalidOperation is the only trapped signal that can arise. *)
From Verif Require Import PyBase F64.
Open Scope Z_scope.

(** A decimal is [(-1)^s * c * 10^e], an infinity or NaN. *)
Inductive dec :=
| DFin (s : bool) (c : N) (e : Z)
| DInf (s : bool)
| DNaN.

Definition d_is_finite (x : dec) : bool := match x with DFin _ _ _ => true | _ => false end.
Definition d_is_nan (x : dec) : bool := match x with DNaN => true | _ => false end.
Definition d_is_zero (x : dec) : bool := match x with DFin _ c _ => N.eqb c 0 | _ => false end.

(** ** Decimal digits of the coefficient *)

Fixpoint ldig (fuel : nat) (n : N) : list N :=
  match fuel with
  | O => []
  | S f => if N.eqb n 0 then [] else N.modulo n 10 :: ldig f (N.div n 10)
  end.
(** Digits of [n], most significant first, no leading zeros; "0" for 0. *)
Definition digits (n : N) : list N :=
  if N.eqb n 0 then [0%N] else rev (ldig (N.size_nat n) n).
Definition ndig (n : N) : Z := Z.of_nat (length (digits n)).
(** Exactly [k] digits of [n mod 10^k], most significant first. *)
Fixpoint fixdig (k : nat) (n : N) : list N :=
  match k with
  | O => []
  | S k' => fixdig k' (N.div n 10) ++ [N.modulo n 10]
  end.
Definition digchar (d : N) : ascii := ascii_of_N (48 + d).

(** Exponent of the leading digit: [Decimal.adjusted]. *)
Definition d_adjusted (x : dec) : Z :=
  match x with DFin _ c e => e + ndig c - 1 | _ => 0 end.

(** ** Rounding *)

Inductive rmode := ROUND_CEILING | ROUND_HALF_UP | ROUND_HALF_EVEN.

Definition pow10 (k : Z) : N := N.pow 10 (Z.to_N k).

(** Divide the coefficient of a number of sign [s] by [10^k] (k >= 0),
    rounding the magnitude as the mode demands. *)
Definition round_coef (m : rmode) (s : bool) (c : N) (k : Z) : N :=
  let q := N.div c (pow10 k) in
  let r := N.modulo c (pow10 k) in
  let up := match m with
            | ROUND_CEILING => negb s && negb (N.eqb r 0)
            | ROUND_HALF_UP => N.leb (pow10 k) (2 * r)
            | ROUND_HALF_EVEN => N.ltb (pow10 k) (2 * r)
                                 || (N.eqb (pow10 k) (2 * r) && N.odd q)
            end in
  if up then N.succ q else q.

(** Decimal._fix: round a finite number to [prec] significant digits. *)
Definition d_fix (prec : Z) (m : rmode) (s : bool) (c : N) (e : Z) : dec :=
  if (ndig c <=? prec) then DFin s c e
  else
    let k := ndig c - prec in
    let q := round_coef m s c k in
    if (ndig q <=? prec) then DFin s q (e + k)
    else DFin s (N.div q 10) (e + k + 1).

(** Unary plus in a context of precision [prec] and rounding [m]; a zero loses
    its sign (no supported mode is ROUND_FLOOR). *)
Definition d_plus (prec : Z) (m : rmode) (x : dec) : dec :=
  match x with
  | DFin s c e => if N.eqb c 0 then DFin false 0 e else d_fix prec m s c e
  | _ => x
  end.

(** Precision of the default context. *)
Definition default_prec : Z := 28.

(** x.quantize(y, rounding=m) in the default context. *)
Definition d_quantize (x y : dec) (m : rmode) : res dec :=
  match x, y with
  | DNaN, _ | _, DNaN => Ok DNaN
  | DInf s, DInf _ => Ok (DInf s)
  | DInf _, DFin _ _ _ | DFin _ _ _, DInf _ => Err InvalidOperation
  | DFin s c e, DFin _ _ e' =>
      let q := if e' <=? e then N.mul c (pow10 (e - e')) else round_coef m s c (e' - e) in
      if negb (N.eqb c 0) && (default_prec <? ndig q) then Err InvalidOperation
      else Ok (DFin s q e')
  end.

(** x.scaleb(k) in the default context (result is rounded to 28 digits). *)
Definition d_scaleb (x : dec) (k : Z) : dec :=
  match x with
  | DFin s c e => d_fix default_prec ROUND_HALF_EVEN s c (e + k)
  | _ => x
  end.

(** ** Comparison *)

Definition sval (s : bool) (c : N) : Z := if s then - Z.of_N c else Z.of_N c.

Definition d_cmp (x y : dec) : option comparison :=
  match x, y with
  | DNaN, _ | _, DNaN => None
  | DInf a, DInf b => Some (match a, b with
                            | true, false => Lt | false, true => Gt | _, _ => Eq end)
  | DInf a, DFin _ _ _ => Some (if a then Lt else Gt)
  | DFin _ _ _, DInf b => Some (if b then Gt else Lt)
  | DFin s c e, DFin s' c' e' =>
      let m := Z.min e e' in
      Some (Z.compare (sval s c * 10 ^ (e - m)) (sval s' c' * 10 ^ (e' - m)))
  end.

(** Ordering comparisons with NaN signal InvalidOperation. *)
Definition d_lt (x y : dec) : res bool :=
  match d_cmp x y with
  | None => Err InvalidOperation
  | Some Lt => Ok true | Some _ => Ok false
  end.
Definition d_le (x y : dec) : res bool :=
  match d_cmp x y with
  | None => Err InvalidOperation
  | Some Gt => Ok false | Some _ => Ok true
  end.
(** [==] with NaN is False. *)
Definition d_eq (x y : dec) : bool :=
  match d_cmp x y with Some Eq => true | _ => false end.

(** ** Conversion from binary floats *)

(** Remove common factors 2 from [m / 2^k]. *)
Fixpoint reduce2 (m : positive) (k : nat) {struct k} : positive * nat :=
  match k, m with
  | S k', xO m' => reduce2 m' k'
  | _, _ => (m, k)
  end.

(** Decimal(x) for a float: exact.  A float with reduced fraction [n / 2^k] is
    [n * 5^k * 10^-k]. *)
Definition d_of_float (x : f64) : dec :=
  match x with
  | B754_zero s => DFin s 0 0
  | B754_infinity s => DInf s
  | B754_nan => DNaN
  | B754_finite s m e _ =>
      if 0 <=? e then DFin s (Npos m * 2 ^ Z.to_N e) 0
      else let '(n, k) := reduce2 m (Z.to_nat (- e)) in
           DFin s (Npos n * 5 ^ N.of_nat k) (- Z.of_nat k)
  end.

(** ** Formatting: "{0:,f}".format(x) *)

(** Insert a comma after every third character of a least-significant-first
    string. *)
Fixpoint commas_rev (l : pystr) : pystr :=
  match l with
  | a :: b :: c :: ((_ :: _) as t) => a :: b :: c :: ","%char :: commas_rev t
  | _ => l
  end.
Definition group3 (l : pystr) : pystr := rev (commas_rev (rev l)).

Definition d_format (x : dec) : pystr :=
  match x with
  | DNaN => str "NaN"
  | DInf s => (if s then str "-" else []) ++ str "Infinity"
  | DFin s c e =>
      (if s then str "-" else []) ++
      (if 0 <=? e then group3 (map digchar (digits (c * pow10 e)))
       else let k := Z.to_nat (- e) in
            group3 (map digchar (digits (N.div c (pow10 (- e)))))
            ++ str "." ++ map digchar (fixdig k c))
  end.
