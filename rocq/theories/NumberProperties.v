(** * Numbers: C44 and C45 *)

From Coq Require Import String Ascii List Bool Arith NArith ZArith QArith Qcanon Lia.
Import ListNotations.
From Verif Require Import Base TermModel NumberModel NumberSpec NumberProofs.
Open Scope list_scope.
Local Open Scope Z_scope.

(** ** Reading numerals back *)

Lemma digit_head ds s c : digits ds -> ds <> [] -> (forall d, (d < 10)%nat -> digit_char d <> c) ->
  match (digits_text ds ++ s)%string with String c' _ => c' <> c | EmptyString => False end.
Proof. intros D N H. destruct D as [|d ds Hd D]; [contradiction|]. cbn. now apply H. Qed.

Lemma digit_not_sign d : (d < 10)%nat -> digit_char d <> "-"%char /\ digit_char d <> "+"%char /\ digit_char d <> "."%char.
Proof. intros H. do 10 (destruct d as [|d]; [repeat split; discriminate|]). lia. Qed.

Lemma parse_text ds s : digits ds -> ds <> [] ->
  xsd_decimal_parse (digits_text ds ++ s) = xsd_unsigned (digits_text ds ++ s) /\
  json_number (digits_text ds ++ s) = json_unsigned (digits_text ds ++ s).
Proof.
  intros D N. destruct D as [|d ds Hd D]; [contradiction|].
  do 10 (destruct d as [|d]; [split; reflexivity|]). lia.
Qed.

Lemma frac_text (fp : list nat) : no_digit (match fp with [] => "" | _ => "." ++ digits_text fp end)%string.
Proof. now destruct fp. Qed.

Lemma unsigned_numeral ip fp : digits ip -> digits fp -> ip <> [] ->
  xsd_unsigned (digits_text ip ++ match fp with [] => "" | _ => "." ++ digits_text fp end)%string =
  Some (scaled (digits_value (ip ++ fp)) (length fp)).
Proof.
  intros D F N. unfold xsd_unsigned. rewrite span_text by (trivial; apply frac_text).
  destruct fp as [|f fp].
  - destruct ip as [|i ip]; [contradiction|]. rewrite app_nil_r, number_of_digits. reflexivity.
  - change ("." ++ digits_text (f :: fp))%string with (String "."%char (digits_text (f :: fp))).
    cbn match. rewrite <- (append_nil_r (digits_text (f :: fp))), span_text by (trivial; exact I).
    rewrite <- map_app, number_of_digits, map_length.
    destruct ip as [|i ip]; [contradiction|]. reflexivity.
Qed.

(** A numeral is read back as the number it denotes; in particular it denotes one number. *)
Lemma denotes_parse s q : Denotes s q -> xsd_decimal_parse s = Some q.
Proof.
  intros (neg & ip & fp & D & F & N & -> & ->). unfold numeral. destruct neg.
  - match goal with |- xsd_decimal_parse (_ ++ ?x) = _ => change (option_map Qcopp (xsd_unsigned x) = Some (- scaled (digits_value (ip ++ fp)) (length fp))%Qc) end.
    now rewrite unsigned_numeral.
  - match goal with |- xsd_decimal_parse (_ ++ ?x) = ?y => change (xsd_decimal_parse x = y) end. rewrite (proj1 (parse_text ip _ D N)). now apply unsigned_numeral.
Qed.

Lemma denotes_unique s q q' : Denotes s q -> Denotes s q' -> q = q'.
Proof. intros A B. apply denotes_parse in A, B. congruence. Qed.

(** ** C44 *)

(** [decimal_representation] ends. *)
Theorem C44_decimal_total q : exists o, decimal_string q = Ok o.
Proof. apply decimal_representation_total. unfold decimal_fuel, denom. lia. Qed.

(** [Qc] comparison with -1 in terms of the fraction. *)
Lemma gt_m1 q : (- (1) < q)%Qc <-> - denom q < numer q.
Proof.
  unfold Qclt, denom, numer. change (this (- (1))%Qc) with (-1 # 1)%Q.
  unfold Qlt. cbn [Qnum Qden]. lia.
Qed.

Lemma finite_some q s : decimal_string q = Ok (Some s) -> Finite q.
Proof.
  intros E. apply decimal_shape in E as (fp & _ & _ & E & _). pose proof (denom_pos q).
  apply finite_iff. exists (length fp). apply Z.mod_divide; [lia|].
  destruct (Z.abs_eq_or_opp (numer q)) as [A|A]; rewrite A in E at 1.
  - rewrite E. apply Z.divide_factor_r.
  - apply Z.divide_opp_r. rewrite <- Z.mul_opp_l, E. apply Z.divide_factor_r.
Qed.

(** It answers [None] exactly for the numbers without finite decimal expansion. *)
Theorem C44_decimal_none q : decimal_string q = Ok None <-> ~ Finite q.
Proof.
  split.
  - intros E. exact (decimal_shape q _ None E).
  - intros N. destruct (C44_decimal_total q) as ([s|] & E); [|assumption].
    destruct N. eapply finite_some. exact E.
Qed.

(** The text for a number above -1, in detail. *)
Lemma decimal_text q s : - denom q < numer q -> decimal_string q = Ok (Some s) ->
  exists ip fp, digits ip /\ digits fp /\ ip <> [] /\ s = numeral (numer q <? 0) ip fp /\
    q = (if numer q <? 0 then Qcopp (scaled (digits_value (ip ++ fp)) (length fp))
         else scaled (digits_value (ip ++ fp)) (length fp)) /\
    (match ip with d :: _ :: _ => d <> 0%nat | _ => True end).
Proof.
  intros G E. apply decimal_shape in E as (fp & F & -> & V & _). pose proof (denom_pos q) as P.
  assert (Q0 : 0 <= Z.quot (numer q) (denom q) /\ Z.quot (numer q) (denom q) = Z.abs (numer q) / denom q).
  { destruct (Z.ltb_spec (numer q) 0).
    - rewrite Z.div_small by lia. replace (numer q) with (- - numer q) by lia.
      rewrite Z.quot_opp_l, Z.quot_small by lia. lia.
    - rewrite Z.quot_div_nonneg, Z.abs_eq by lia. split; [apply Z.div_pos; lia|reflexivity]. }
  destruct Q0 as [Q0 Q1].
  destruct (integer_print_nonneg _ Q0) as (ip & D & N & T & W & Z0).
  exists ip, fp. split; [assumption|]. split; [assumption|]. split; [assumption|]. split; [|split; [|assumption]].
  - unfold numeral. rewrite T. reflexivity.
  - rewrite <- Q1, <- W, <- value_app in V.
    destruct (Z.ltb_spec (numer q) 0).
    + apply opp_iff, scaled_iff. rewrite numer_opp, denom_opp. rewrite Z.abs_neq in V by lia. exact V.
    + apply scaled_iff. rewrite Z.abs_eq in V by lia. exact V.
Qed.

(** Above -1 the text denotes exactly the number. *)
Theorem C44_decimal_exact_partial q s :
  (- (1) < q)%Qc -> decimal_string q = Ok (Some s) -> Denotes s q.
Proof.
  intros G E. apply gt_m1 in G. destruct (decimal_text q s G E) as (ip & fp & A & B & C & D & F & _).
  exists (numer q <? 0), ip, fp. auto.
Qed.

(** From -1 downwards the text has two signs: it is no numeral at all. *)
Theorem C44_decimal_negative q s :
  (q <= - (1))%Qc -> decimal_string q = Ok (Some s) -> forall q', ~ Denotes s q'.
Proof.
  intros G E q' (neg & ip & fp & D & _ & N & S & _). apply decimal_shape in E as (gp & _ & -> & _).
  pose proof (denom_pos q) as P.
  assert (L : numer q <= - denom q).
  { destruct (Z.le_gt_cases (numer q) (- denom q)) as [|X]; [assumption|].
    apply gt_m1 in X. exfalso. exact (Qclt_not_le _ _ X G). }
  destruct (Z.ltb_spec (numer q) 0); [|lia].
  assert (X : exists u, integer_print (Z.quot (numer q) (denom q)) = String "-" u).
  { assert (Y : Z.quot (numer q) (denom q) < 0).
    { replace (numer q) with (- - numer q) by lia. rewrite Z.quot_opp_l by lia.
      rewrite Z.quot_div_nonneg by lia.
      assert (1 <= - numer q / denom q) by (apply Z.div_le_lower_bound; lia). lia. }
    destruct (Z.quot (numer q) (denom q)); try lia. eexists. reflexivity. }
  destruct X as [u X]. rewrite X in S. unfold numeral in S.
  destruct ip as [|i ip]; [contradiction|]. inversion_clear D as [|? ? Hi _].
  destruct (digit_not_sign i Hi) as [N1 _].
  destruct neg; cbn [append digits_text] in S; [injection S as S1|injection S as S1]; congruence.
Qed.

(** C44 is false: -1 has a finite expansion but is written [--1]. *)
Theorem C44_decimal_refuted :
  exists q s, Finite q /\ decimal_string q = Ok (Some s) /\ ~ Denotes s q.
Proof.
  exists (Q2Qc (-1 # 1)), "--1"%string. split; [|split].
  - exists 0%nat, (-1). apply Qc_is_canon. reflexivity.
  - vm_compute. reflexivity.
  - apply (C44_decimal_negative (Q2Qc (-1 # 1))); [discriminate|vm_compute; reflexivity].
Qed.

(** ** C45 *)

(** [as_native] panics on zero: the other half of the property holds. *)
Theorem C45_native_refuted : exists q m, q = Q2Qc (inject_Z 0) /\ as_native q = Panic m.
Proof. do 2 eexists. split; [reflexivity|vm_compute; reflexivity]. Qed.

Lemma of_Z_fraction n : numer (Q2Qc (inject_Z n)) = n /\ denom (Q2Qc (inject_Z n)) = 1.
Proof.
  unfold numer, denom, Q2Qc. cbn [this].
  assert (E : Qred (inject_Z n) = inject_Z n).
  { apply Qred_identity. cbn. apply Z.gcd_1_r. }
  rewrite E. split; reflexivity.
Qed.

Lemma fraction_integer q : denom q = 1 -> q = Q2Qc (inject_Z (numer q)).
Proof.
  intros H. apply Qc_is_canon. unfold Q2Qc. cbn [this]. rewrite Qred_correct. unfold Qeq, inject_Z. cbn [Qnum Qden].
  unfold denom, numer in *. lia.
Qed.

Lemma bits_lt z n : 0 < n -> (bits z <= n <-> Z.abs z < 2 ^ n).
Proof.
  intros Hn. unfold bits. destruct (Z.eq_dec z 0) as [->|N].
  - cbn [Z.abs]. split; intros; [apply Z.pow_pos_nonneg; lia|lia].
  - destruct (Z.abs z) as [|p|p] eqn:E; [lia| |lia].
    rewrite Z.log2_lt_pow2 by lia. lia.
Qed.

(** What a native number denotes: a machine integer denotes itself; a float is the nearest to the number
    (not modelled). *)
Definition native_integer (n : native_number) : option Z :=
  match n with NU64 n => Some n | NI64 n => Some n | NF64 _ => None end.

(** The number returned is a machine integer of the announced type. *)
Definition native_in_range (n : native_number) : Prop :=
  match n with
  | NU64 n => 0 <= n < 2 ^ 64
  | NI64 n => - 2 ^ 63 <= n < 2 ^ 63
  | NF64 _ => True
  end.

(** Non-zero integers between -2^63 (excluded) and 2^64 (excluded) are returned exactly. *)
Theorem C45_native_integers_partial (n : Z) : n <> 0 -> - 2 ^ 63 < n < 2 ^ 64 ->
  exists x, as_native (Q2Qc (inject_Z n)) = Ok x /\ native_integer x = Some n /\ native_in_range x.
Proof.
  intros N B. destruct (of_Z_fraction n) as [E1 E2]. unfold as_native, is_integer. rewrite E1, E2. cbn [Z.eqb Pos.eqb].
  unfold first_u64_digit. rewrite (proj2 (Z.eqb_neq n 0) N).
  destruct (Z.ltb_spec n 0).
  - destruct (Z.ltb_spec (bits n) 64) as [L|L].
    + rewrite Z.mod_small by lia. unfold as_i64.
      destruct (Z.ltb_spec (Z.abs n) (2 ^ 63)); [|lia].
      eexists. split; [reflexivity|]. split; [cbn; f_equal; lia|unfold native_in_range; lia].
    + exfalso. assert (~ bits n <= 63) as X by lia. apply X. apply bits_lt; lia.
  - destruct (Z.leb_spec (bits n) 64) as [L|L].
    + rewrite Z.mod_small by lia.
      eexists. split; [reflexivity|]. split; [cbn; f_equal; lia|unfold native_in_range; lia].
    + exfalso. assert (~ bits n <= 64) as X by lia. apply X. apply bits_lt; lia.
Qed.

(** The only panic is on zero. *)
Theorem C45_native_panic q : (exists x, as_native q = Ok x) \/ (q = Q2Qc (inject_Z 0) /\ exists m, as_native q = Panic m).
Proof.
  unfold as_native, is_integer. destruct (Z.eqb_spec (denom q) 1) as [E|E]; [|eauto].
  unfold first_u64_digit. destruct (Z.ltb_spec (numer q) 0).
  - destruct (bits (numer q) <? 64); [|eauto]. destruct (Z.eqb_spec (numer q) 0); [lia|eauto].
  - destruct (bits (numer q) <=? 64); [|eauto]. destruct (Z.eqb_spec (numer q) 0) as [Z|Z]; [|eauto].
    right. split; [|eauto]. rewrite <- Z. now apply fraction_integer.
Qed.

(** Whatever is returned as a machine integer is the number (no silent wrap), and the others are sent to [to_f64] unchanged. *)
Theorem C45_native_exact q x : as_native q = Ok x ->
  (forall n, native_integer x = Some n -> q = Q2Qc (inject_Z n) /\ native_in_range x) /\
  (forall q', x = NF64 q' -> q' = q /\ ~ exists n, n <> 0 /\ - 2 ^ 63 < n < 2 ^ 64 /\ q = Q2Qc (inject_Z n)).
Proof.
  intros H. split.
  - intros n Hn. destruct (Z.eq_dec (denom q) 1) as [E|E].
    + rewrite (fraction_integer q E) in H |- *. set (z := numer q) in *.
      destruct (of_Z_fraction z) as [E1 E2]. unfold as_native, is_integer in H. rewrite E1, E2 in H.
      cbn [Z.eqb Pos.eqb] in H. unfold first_u64_digit in H.
      destruct (Z.eqb_spec z 0) as [Z|Z].
      { rewrite Z in H. discriminate H. }
      assert (z < 0 /\ Z.abs z < 2 ^ 63 \/ 0 < z /\ Z.abs z < 2 ^ 64) as B.
      { destruct (Z.ltb_spec z 0).
        - destruct (Z.ltb_spec (bits z) 64) as [L|L]; [|injection H as <-; discriminate].
          left. split; [lia|]. apply bits_lt; lia.
        - destruct (Z.leb_spec (bits z) 64) as [L|L]; [|injection H as <-; discriminate].
          right. split; [lia|]. apply bits_lt; lia. }
      destruct (C45_native_integers_partial z Z ltac:(lia)) as (y & Y1 & Y2 & Y3).
      unfold as_native, is_integer in Y1. rewrite E1, E2 in Y1. cbn [Z.eqb Pos.eqb] in Y1.
      unfold first_u64_digit in Y1. rewrite (proj2 (Z.eqb_neq z 0) Z) in Y1.
      rewrite Y1 in H. injection H as <-. rewrite Y2 in Hn. injection Hn as <-. auto.
    + unfold as_native, is_integer in H. rewrite (proj2 (Z.eqb_neq _ _) E) in H. injection H as <-. discriminate.
  - intros q' ->. split.
    + unfold as_native in H. destruct (is_integer q); [|congruence].
      destruct (numer q <? 0); [destruct (bits (numer q) <? 64)|destruct (bits (numer q) <=? 64)];
        try destruct (first_u64_digit (numer q)); congruence.
    + intros (n & N & B & E). subst q. destruct (C45_native_integers_partial n N B) as (y & Y & Y2 & _).
      rewrite Y in H. injection H as ->. discriminate.
Qed.

(** -2^63, the least [i64], is sent to [to_f64]. *)
Theorem C45_min_i64 : as_native (Q2Qc (inject_Z (- 2 ^ 63))) = Ok (NF64 (Q2Qc (inject_Z (- 2 ^ 63)))).
Proof. vm_compute. reflexivity. Qed.

(** ** Witnesses *)

Example C44_example : decimal_string (Q2Qc (13 # 40)) = Ok (Some "0.325"%string) /\ (- (1) < Q2Qc (13 # 40))%Qc /\
  decimal_string (Q2Qc (-3 # 4)) = Ok (Some "-0.75"%string) /\
  decimal_string (Q2Qc (1234567 # 100)) = Ok (Some "12345.67"%string) /\
  decimal_string (Q2Qc (5 # 7)) = Ok None /\
  decimal_string (Q2Qc (-7 # 2)) = Ok (Some "--3.5"%string).
Proof. vm_compute. repeat split; reflexivity. Qed.

Example C45_example :
  as_native (Q2Qc (inject_Z 18446744073709551615)) = Ok (NU64 18446744073709551615) /\
  as_native (Q2Qc (inject_Z (-42))) = Ok (NI64 (-42)).
Proof. vm_compute. split; reflexivity. Qed.

Print Assumptions C44_decimal_total.
Print Assumptions C44_decimal_none.
Print Assumptions C44_decimal_exact_partial.
Print Assumptions C44_decimal_negative.
Print Assumptions C44_decimal_refuted.
Print Assumptions C45_native_integers_partial.
Print Assumptions C45_native_panic.
Print Assumptions C45_native_exact.
