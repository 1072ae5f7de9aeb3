(** * C67: the texts that are read as numbers, for all texts

    The conversions from JSON numbers (layouts/src/value/mod.rs 188-219) rest on the lexical space of [xsd:decimal]: a sign, digits, and digits after a
    point. *)

From Coq Require Import String Ascii List Bool Arith NArith ZArith QArith Qcanon Lia.
Import ListNotations.
From Verif Require Import Base TermModel NumberModel NumberSpec NumberProofs NumberProperties.
Open Scope list_scope.
Open Scope string_scope.

(** ** Specification *)
Inductive sign : Type := no_sign | plus | minus.
Definition sign_text (s : sign) : string := match s with no_sign => "" | plus => "+" | minus => "-" end.
Definition signed (s : sign) (q : Qc) : Qc := match s with minus => Qcopp q | _ => q end.

(** [s] is a sign, the digits [ip], and possibly a point and the digits [fp]; there is at least one digit. *)
Definition Decimal (s : string) (q : Qc) : Prop :=
  exists sg ip fp (point : bool), digits ip /\ digits fp /\ (ip ++ fp)%list <> []%list /\ (point = false -> fp = []%list) /\
    s = (sign_text sg ++ digits_text ip ++ if point then "." ++ digits_text fp else "") /\
    q = signed sg (scaled (digits_value (ip ++ fp)%list) (length fp)).

(** ** Proof *)
Lemma digit_inv c : is_digit c = true -> exists d, d < 10 /\ c = digit_char d /\ digit_of c = Z.of_nat d.
Proof.
  destruct c as [[] [] [] [] [] [] [] []]; intros H; try discriminate H;
    first [exists 0; split; [lia|split; reflexivity]|exists 1; split; [lia|split; reflexivity]|exists 2; split; [lia|split; reflexivity]
          |exists 3; split; [lia|split; reflexivity]|exists 4; split; [lia|split; reflexivity]|exists 5; split; [lia|split; reflexivity]
          |exists 6; split; [lia|split; reflexivity]|exists 7; split; [lia|split; reflexivity]|exists 8; split; [lia|split; reflexivity]
          |exists 9; split; [lia|split; reflexivity]].
Qed.

Lemma span_inv s : forall zs r, span_digits s = (zs, r) -> exists ds, digits ds /\ zs = map Z.of_nat ds /\ s = digits_text ds ++ r.
Proof.
  induction s as [|c s IH]; cbn [span_digits]; intros zs r.
  - intros [= <- <-]. exists []%list. repeat split. constructor.
  - destruct (is_digit c) eqn:D.
    + destruct (span_digits s) as [zs' r'] eqn:E. intros [= <- <-]. destruct (IH _ _ eq_refl) as (ds & DS & -> & ->).
      destruct (digit_inv c D) as (d & L & -> & ->). exists (d :: ds). split; [now constructor|]. split; reflexivity.
    + intros [= <- <-]. exists []%list. repeat split. constructor.
Qed.

(** Without a sign. *)
Definition Unsigned (s : string) (q : Qc) : Prop :=
  exists ip fp (point : bool), digits ip /\ digits fp /\ (ip ++ fp)%list <> []%list /\ (point = false -> fp = []%list) /\
    s = (digits_text ip ++ if point then "." ++ digits_text fp else "") /\ q = scaled (digits_value (ip ++ fp)%list) (length fp).

Lemma unsigned_exact s q : xsd_unsigned s = Some q <-> Unsigned s q.
Proof.
  split.
  - unfold xsd_unsigned. destruct (span_digits s) as [zs r] eqn:E. destruct (span_inv _ _ _ E) as (ip & DI & -> & ->). destruct r as [|c r].
    + destruct ip as [|i ip]; [discriminate|]. cbn [map]. intros [= <-]. exists (i :: ip), []%list, false. rewrite app_nil_r.
      split; [exact DI|]. split; [constructor|]. split; [discriminate|]. split; [reflexivity|]. split; [reflexivity|].
      change (Z.of_nat i :: map Z.of_nat ip)%list with (map Z.of_nat (i :: ip)). rewrite number_of_digits. reflexivity.
    + destruct c as [[] [] [] [] [] [] [] []]; try discriminate. destruct (span_digits r) as [zf r'] eqn:F.
      destruct (span_inv _ _ _ F) as (fp & DF & -> & ->). destruct r'; [|discriminate]. rewrite <- map_app, number_of_digits, map_length.
      destruct (ip ++ fp)%list as [|x l] eqn:A; [discriminate|]. cbn [map]. intros [= <-]. exists ip, fp, true. rewrite A.
      split; [exact DI|]. split; [exact DF|]. split; [discriminate|]. split; [discriminate|]. split; [|reflexivity].
      rewrite append_nil_r. reflexivity.
  - intros (ip & fp & point & DI & DF & NE & PF & -> & ->). unfold xsd_unsigned. destruct point.
    + rewrite span_text by (trivial; reflexivity). change ("." ++ digits_text fp) with (String "."%char (digits_text fp)). cbn match.
      rewrite <- (append_nil_r (digits_text fp)), span_text by (trivial; exact Logic.I).
      rewrite <- map_app, number_of_digits, map_length. destruct (ip ++ fp)%list; [contradiction|]. reflexivity.
    + rewrite (PF eq_refl) in *. rewrite app_nil_r in *. rewrite span_text by (trivial; exact Logic.I).
      destruct ip as [|i ip]; [contradiction|]. cbn [map]. change (Z.of_nat i :: map Z.of_nat ip)%list with (map Z.of_nat (i :: ip)).
      rewrite number_of_digits. reflexivity.
Qed.

Lemma unsigned_head s q : Unsigned s q -> match s with String c _ => c <> "-"%char /\ c <> "+"%char | EmptyString => True end.
Proof.
  intros (ip & fp & point & DI & DF & NE & PF & -> & ->). destruct DI as [|d ip L DI].
  - destruct point; [split; discriminate|exact Logic.I].
  - cbn. destruct (digit_not_sign d L) as (A & B & _). now split.
Qed.

Lemma decimal_exact s q : xsd_decimal_parse s = Some q <-> Decimal s q.
Proof.
  assert (U : forall sg s q, Unsigned s q -> Decimal (sign_text sg ++ s) (signed sg q)).
  { intros sg s' q' (ip & fp & point & A & B & C & D & -> & ->). exists sg, ip, fp, point. repeat split; assumption. }
  assert (V : forall s q, Decimal s q -> exists sg s' q', Unsigned s' q' /\ s = sign_text sg ++ s' /\ q = signed sg q').
  { intros s' q' (sg & ip & fp & point & A & B & C & D & -> & ->). exists sg. do 2 eexists. split; [|split; reflexivity].
    exists ip, fp, point. repeat split; assumption. }
  split.
  - intros H. assert (C : (exists r, s = String "-" r) \/ (exists r, s = String "+" r) \/ xsd_decimal_parse s = xsd_unsigned s).
    { destruct s as [|c s]; [right; right; reflexivity|].
      destruct c as [[] [] [] [] [] [] [] []]; first [right; right; reflexivity|left; eexists; reflexivity|right; left; eexists; reflexivity]. }
    destruct C as [[r ->]|[[r ->]|C]].
    + cbn [xsd_decimal_parse] in H. destruct (xsd_unsigned r) as [q'|] eqn:E; [|discriminate]. injection H as <-. apply (U minus), unsigned_exact, E.
    + apply (U plus), unsigned_exact, H.
    + rewrite C in H. apply (U no_sign), unsigned_exact, H.
  - intros H. destruct (V s q H) as (sg & s' & q' & N & -> & ->). pose proof (unsigned_head _ _ N) as HD. apply unsigned_exact in N. destruct sg; cbn [sign_text signed append].
    + destruct s' as [|c s']; [exact N|]. destruct HD as [A B].
      destruct c as [[] [] [] [] [] [] [] []]; first [exact N|now elim A|now elim B].
    + exact N.
    + cbn [xsd_decimal_parse]. now rewrite N.
Qed.

(** C67, the numbers.  A text is read as a number exactly when it is a decimal numeral, and as the number that it denotes; any other text panics. *)
Theorem C67_number_text s q : number_from_json s = Ok q <-> Decimal s q.
Proof.
  rewrite <- decimal_exact. unfold number_from_json. destruct (xsd_decimal_parse s); split; intros H; congruence.
Qed.
Theorem C67_number_panics s : (exists w, number_from_json s = Panic w) <-> forall q, ~ Decimal s q.
Proof.
  split.
  - intros [w H] q D. apply C67_number_text in D. congruence.
  - intros H. unfold number_from_json. destruct (xsd_decimal_parse s) as [q|] eqn:E; [|eauto]. elim (H q). now apply decimal_exact.
Qed.

(** Cases: signs, leading zeros, no digit on one side of the point; no exponent, no lone point. *)
Lemma read_as s q : match number_from_json s with Ok q' => (this q' == this q)%Q | _ => False end -> number_from_json s = Ok q.
Proof. destruct (number_from_json s); try contradiction. intros H. f_equal. now apply Qc_is_canon. Qed.
Example texts_read :
  number_from_json "-01.50" = Ok (Q2Qc (-3 # 2)) /\ number_from_json "+7" = Ok (Q2Qc 7) /\ number_from_json ".5" = Ok (Q2Qc (1 # 2)) /\
  number_from_json "5." = Ok (Q2Qc 5) /\ (exists w, number_from_json "1e3" = Panic w) /\ (exists w, number_from_json "." = Panic w).
Proof.
  repeat split; try (eexists; reflexivity).
  all: apply read_as; vm_compute; reflexivity.
Qed.
Example text_decimal : Decimal "-01.50" (Q2Qc (-3 # 2)).
Proof. apply C67_number_text. exact (proj1 texts_read). Qed.

Print Assumptions C67_number_text.
Print Assumptions C67_number_panics.
