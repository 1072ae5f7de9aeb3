(** * Numbers ([Number], layouts/src/value/mod.rs 29-252)

    [Number] is [Qc].  The conversions from machine integers and floats (143-181) are the obvious
    inclusions and are not modelled; [Display] is in DisplayModel.v. *)

From Coq Require Import String Ascii List Bool Arith NArith ZArith QArith Qcanon.
From Coq Require Decimal DecimalString.
Import ListNotations.
From Verif Require Import Base TermModel.
Open Scope list_scope.
Local Open Scope Z_scope.

(** [BigRational::numer] and [denom]: the canonical fraction. *)
Definition numer (q : Qc) : Z := Qnum (this q).
Definition denom (q : Qc) : Z := Zpos (Qden (this q)).

(** [Number::is_integer] — layouts/src/value/mod.rs 37-39. *)
Definition is_integer (q : Qc) : bool := denom q =? 1.

(** [Number::as_integer] — layouts/src/value/mod.rs 41-47. *)
Definition as_integer (q : Qc) : option Z := if is_integer q then Some (numer q) else None.

(** [BigInt::bits] (num_bigint): the number of bits of the magnitude, none for zero. *)
Definition bits (z : Z) : Z := match Z.abs z with 0 => 0 | m => Z.log2 m + 1 end.

(** [iter_u64_digits().next()] (num_bigint): the lowest 64 bits of the magnitude; zero has no digit. *)
Definition first_u64_digit (z : Z) : option Z :=
  if z =? 0 then None else Some (Z.abs z mod 2 ^ 64).

(** [NativeNumber] — layouts/src/value/mod.rs 128-132.  A float is left as the rational given to [to_f64]: rounding
    is not modelled. *)
Inductive native_number : Type :=
| NU64 (n : Z)
| NI64 (n : Z)
| NF64 (q : Qc).

(** [n as i64] of an unsigned 64 bits number: two's complement. *)
Definition as_i64 (n : Z) : Z := if n <? 2 ^ 63 then n else n - 2 ^ 64.

(** [Number::as_native] — layouts/src/value/mod.rs 57-80. *)
Definition as_native (q : Qc) : outcome Empty_set native_number :=
  if is_integer q then
    let n := numer q in
    if n <? 0 then
      if bits n <? 64 then
        match first_u64_digit n with
        | Some u => Ok (NI64 (- as_i64 u))
        | None => Panic "as_native: next().unwrap()"
        end
      else Ok (NF64 q)
    else
      if bits n <=? 64 then
        match first_u64_digit n with
        | Some u => Ok (NU64 u)
        | None => Panic "as_native: next().unwrap()"
        end
      else Ok (NF64 q)
  else Ok (NF64 q).

(** The loop of [decimal_representation] — layouts/src/value/mod.rs 100-106.  [seen] holds the keys of [map]; division of
    [BigInt]s truncates. *)
Fixpoint decimal_loop (fuel : nat) (den rem : Z) (seen : list Z) (fraction : string)
  : outcome Empty_set (string * Z) :=
  match fuel with
  | O => OutOfFuel
  | S fuel' =>
      if (rem =? 0) || existsb (Z.eqb rem) seen then Ok (fraction, rem)
      else
        let rem' := rem * 10 in
        decimal_loop fuel' den (Z.rem rem' den) (rem :: seen)
          (fraction ++ integer_print (Z.quot rem' den))
  end.

(** [Number::decimal_representation] — layouts/src/value/mod.rs 87-125. *)
Definition decimal_representation (fuel : nat) (q : Qc) : outcome Empty_set (option string) :=
  let negative := numer q <? 0 in
  let rem := if negative then - numer q else numer q in
  let* (fraction, rem) := decimal_loop fuel (denom q) (Z.rem rem (denom q)) [] EmptyString in
  let output := ((if negative then "-" else "") ++ integer_print (Z.quot (numer q) (denom q)))%string in
  if rem =? 0
  then Ok (Some (if String.eqb fraction "" then output else output ++ "." ++ fraction)%string)
  else Ok None.

(** Enough turns for the loop, which stops after at most [denom q] of them
    ([NumberProofs.decimal_representation_total]). *)
Definition decimal_fuel (q : Qc) : nat := S (Pos.to_nat (Qden (this q))).
Definition decimal_string (q : Qc) : outcome Empty_set (option string) :=
  decimal_representation (decimal_fuel q) q.

(** ** Lexical forms of external crates *)

Definition is_digit (c : ascii) : bool := let n := N_of_ascii c in ((48 <=? n) && (n <=? 57))%N.
Definition digit_of (c : ascii) : Z := Z.of_N (N_of_ascii c) - 48.

(** The digits in front, and the rest. *)
Fixpoint span_digits (s : string) : list Z * string :=
  match s with
  | String c s' => if is_digit c then let (ds, r) := span_digits s' in (digit_of c :: ds, r) else ([], s)
  | EmptyString => ([], s)
  end.

Definition number_of (ds : list Z) : Z := fold_left (fun v d => 10 * v + d) ds 0.

(** [xsd_types::Decimal::parse_xsd] (external; the grammar of [xsd:decimal]: [(+|-)?(d+(.d* )?|.d+)]), called by
    layouts/src/value/mod.rs 188-219. *)
Definition xsd_unsigned (s : string) : option Qc :=
  let (ip, r) := span_digits s in
  match r with
  | EmptyString =>
      match ip with [] => None | _ => Some (Q2Qc (inject_Z (number_of ip))) end
  | String "."%char r' =>
      let (fp, r'') := span_digits r' in
      match r'', (ip ++ fp)%list with
      | EmptyString, _ :: _ => Some (Q2Qc (number_of (ip ++ fp) # Z.to_pos (10 ^ Z.of_nat (length fp))))
      | _, _ => None
      end
  | _ => None
  end.
Definition xsd_decimal_parse (s : string) : option Qc :=
  match s with
  | String "-"%char r => option_map Qcopp (xsd_unsigned r)
  | String "+"%char r => xsd_unsigned r
  | _ => xsd_unsigned s
  end.

(** [json_syntax::NumberBuf::from_str] (external): the grammar of JSON numbers (RFC 8259),
    [-?(0|[1-9]d* )(.d+)?((e|E)(+|-)?d+)?]. *)
Definition json_exponent (s : string) : bool :=
  let digits s := match span_digits s with (_ :: _, EmptyString) => true | _ => false end in
  match s with
  | EmptyString => true
  | String c r =>
      if (Ascii.eqb c "e" || Ascii.eqb c "E")%char then
        match r with
        | String d r' => if (Ascii.eqb d "+" || Ascii.eqb d "-")%char then digits r' else digits r
        | EmptyString => false
        end
      else false
  end.
Definition json_unsigned (s : string) : bool :=
  let (ip, r) := span_digits s in
  match ip with
  | [] => false
  | d :: ip' =>
      (negb (d =? 0) || match ip' with [] => true | _ => false end) &&
      match r with
      | String "."%char r' =>
          match span_digits r' with
          | (_ :: _, r'') => json_exponent r''
          | _ => false
          end
      | _ => json_exponent r
      end
  end.
Definition json_number (s : string) : bool :=
  match s with
  | String "-"%char r => json_unsigned r
  | _ => json_unsigned s
  end.

(** [TryFrom<Number> for json_syntax::NumberBuf] — layouts/src/value/mod.rs 226-238 (and, with the feature [arbitrary_precision],
    [serde_json::Number], 240-252).  [None] is [NonJsonNumber]. *)
Definition number_to_json (q : Qc) : outcome Empty_set (option string) :=
  let* o := decimal_string q in
  match o with
  | Some s => if json_number s then Ok (Some s) else Ok None
  | None => Ok None
  end.

(** [From<NumberBuf> for Number] — layouts/src/value/mod.rs 199-208 (and 188-197, 210-219). *)
Definition number_from_json (s : string) : outcome Empty_set Qc :=
  match xsd_decimal_parse s with
  | Some q => Ok q
  | None => Panic "from json number: parse_xsd().unwrap()"
  end.
