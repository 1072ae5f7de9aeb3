(** * C91: the text of a value determines it, and is JSON when the value is *)

From Coq Require Import String Ascii List Bool Arith NArith ZArith QArith Qcanon Lia.
Import ListNotations.
From Verif Require Import Base BaseProofs ValueModel ValueProofs TermModel NumberModel NumberSpec NumberProofs NumberProperties JsonModel
  JsonSpec JsonProperties DisplayModel DisplaySpec.
Open Scope list_scope.
Open Scope nat_scope.
Open Scope string_scope.

(** ** Splitting texts *)

Fixpoint all_chars (P : ascii -> bool) (s : string) : bool :=
  match s with EmptyString => true | String c s' => P c && all_chars P s' end.
Definition stops (P : ascii -> bool) (s : string) : Prop :=
  match s with EmptyString => True | String c _ => P c = false end.

Lemma split_text P a : forall b k k', all_chars P a = true -> all_chars P b = true -> stops P k -> stops P k' ->
  a ++ k = b ++ k' -> a = b /\ k = k'.
Proof.
  induction a as [|c a IH]; intros [|c' b] k k' Ha Hb Hk Hk' E; cbn [append all_chars] in *.
  - auto.
  - apply andb_true_iff in Hb as [Hb _]. rewrite E in Hk. cbn in Hk. congruence.
  - apply andb_true_iff in Ha as [Ha _]. rewrite <- E in Hk'. cbn in Hk'. congruence.
  - injection E as -> E. apply andb_true_iff in Ha as [_ Ha]. apply andb_true_iff in Hb as [_ Hb].
    destruct (IH b k k' Ha Hb Hk Hk' E) as [-> ->]. auto.
Qed.
Lemma all_chars_app P a b : all_chars P (a ++ b) = all_chars P a && all_chars P b.
Proof. induction a as [|c a IH]; cbn; [reflexivity|]. rewrite IH. apply andb_assoc. Qed.

(** The characters that end a number, a keyword or a byte string. *)
Definition plain (c : ascii) : bool :=
  negb (existsb (Ascii.eqb c) [","; ":"; "["; "]"; "{"; "}"; """"]%char).

Definition numeric (c : ascii) : bool := is_digit c || Ascii.eqb c "-".

Lemma digits_numeric ds : digits ds -> all_chars numeric (digits_text ds) = true.
Proof.
  induction 1 as [|d ds Hd _ IH]; [reflexivity|]. cbn [digits_text all_chars]. rewrite IH, andb_true_r.
  unfold numeric. now rewrite (proj1 (digit_char_facts d Hd)).
Qed.

Lemma integer_opp z : (0 < z)%Z -> integer_print (- z) = String "-" (integer_print z).
Proof. destruct z; try discriminate. reflexivity. Qed.
Lemma integer_numeral z : exists neg ds, digits ds /\ ds <> [] /\ integer_print z = numeral neg ds [] /\
  (match ds with d :: _ :: _ => d <> 0 | _ => True end) /\ z = (if neg then - digits_value ds else digits_value ds)%Z.
Proof.
  destruct (Z_lt_le_dec z 0) as [L|L].
  - destruct (integer_print_nonneg (- z)) as (ds & D & N & E & V & Z0); [lia|]. exists true, ds.
    split; [exact D|]. split; [exact N|]. split; [|split; [exact Z0|lia]].
    replace z with (- - z)%Z at 1 by lia. rewrite integer_opp, E by lia. unfold numeral. rewrite append_nil_r. reflexivity.
  - destruct (integer_print_nonneg z L) as (ds & D & N & E & V & Z0). exists false, ds.
    split; [exact D|]. split; [exact N|]. split; [|split; [exact Z0|lia]].
    rewrite E. unfold numeral. rewrite append_nil_r. reflexivity.
Qed.

Lemma integer_first z : exists c t, integer_print z = String c t /\ numeric c = true /\ all_chars numeric t = true.
Proof.
  destruct (integer_numeral z) as (neg & ds & D & N & -> & _). unfold numeral. rewrite append_nil_r.
  apply digits_numeric in D as A. destruct ds as [|d ds]; [contradiction|]. destruct neg.
  - eexists _, _. split; [reflexivity|]. split; [reflexivity|exact A].
  - cbn [append]. cbn [digits_text all_chars] in *. apply andb_true_iff in A as [A B]. eauto.
Qed.
Lemma integer_numeric z : all_chars numeric (integer_print z) = true.
Proof. destruct (integer_first z) as (c & t & -> & A & B). cbn [all_chars]. now rewrite A, B. Qed.

Lemma integer_print_inj z z' : integer_print z = integer_print z' -> z = z'.
Proof. intros E. assert (H := integer_parse_print z). rewrite E, integer_parse_print in H. congruence. Qed.

Lemma numeric_facts c : numeric c = true ->
  plain c = true /\ Ascii.eqb c "/" = false /\ Ascii.eqb c "n" = false /\ Ascii.eqb c "t" = false /\ Ascii.eqb c "f" = false /\ Ascii.eqb c "x" = false.
Proof. destruct c as [[|] [|] [|] [|] [|] [|] [|] [|]]; vm_compute; intro; try discriminate; repeat split. Qed.
Lemma all_chars_imp (P P' : ascii -> bool) s : (forall c, P c = true -> P' c = true) -> all_chars P s = true -> all_chars P' s = true.
Proof.
  intros H. induction s as [|c s IH]; [reflexivity|]. cbn. rewrite !andb_true_iff. intros [A B]. auto.
Qed.

(** ** Numbers *)

Lemma fraction_eq (q q' : Qc) : numer q = numer q' -> denom q = denom q' -> q = q'.
Proof.
  unfold numer, denom. intros N D. apply Qc_is_canon. destruct (this q) as [n d], (this q') as [n' d']. cbn in *.
  injection D as ->. subst. apply Qeq_refl.
Qed.

Lemma number_display_inj q q' : number_display q = number_display q' -> q = q'.
Proof.
  unfold number_display, is_integer. set (P := fun c => negb (Ascii.eqb c "/")).
  assert (A : forall z, all_chars P (integer_print z) = true).
  { intro z. apply (all_chars_imp numeric); [|apply integer_numeric]. intros c Hc. unfold P.
    destruct (numeric_facts c Hc) as (_ & -> & _). reflexivity. }
  intros E.
  assert (H : integer_print (numer q) = integer_print (numer q') /\
    (if Z.eqb (denom q) 1 then "" else "/" ++ integer_print (denom q)) =
    (if Z.eqb (denom q') 1 then "" else "/" ++ integer_print (denom q'))).
  { apply (split_text P); [apply A|apply A| | |].
    - destruct (Z.eqb (denom q) 1); cbn; auto.
    - destruct (Z.eqb (denom q') 1); cbn; auto.
    - destruct (Z.eqb (denom q) 1), (Z.eqb (denom q') 1); rewrite ?append_nil_r; exact E. }
  destruct H as [N D]. apply integer_print_inj in N. apply fraction_eq; [exact N|].
  destruct (Z.eqb_spec (denom q) 1) as [->|_], (Z.eqb_spec (denom q') 1) as [->|_]; try discriminate D; [reflexivity|].
  injection D as D. now apply integer_print_inj.
Qed.

Lemma number_first q : exists c t, number_display q = String c t /\ numeric c = true /\ all_chars plain (String c t) = true.
Proof.
  assert (A : forall z, all_chars plain (integer_print z) = true).
  { intro z. apply (all_chars_imp numeric); [|apply integer_numeric]. intros c Hc. apply (numeric_facts c Hc). }
  destruct (integer_first (numer q)) as (c & t & E & Hc & Ht). unfold number_display. destruct (is_integer q).
  - exists c, t. split; [exact E|]. split; [exact Hc|]. rewrite <- E. apply A.
  - exists c, (t ++ "/" ++ integer_print (denom q)). split; [now rewrite E|]. split; [exact Hc|].
    change (String c (t ++ "/" ++ integer_print (denom q))) with (String c t ++ "/" ++ integer_print (denom q)).
    rewrite <- E, !all_chars_app, !A. reflexivity.
Qed.

(** ** Byte strings *)

Lemma byte_facts c : all_chars plain (byte_display c) = true.
Proof. destruct c as [[|] [|] [|] [|] [|] [|] [|] [|]]; vm_compute; reflexivity. Qed.
Definition hex_value (c : ascii) : nat := let n := nat_of_ascii c in if Nat.ltb n 58 then n - 48 else n - 87.
Definition byte_of (a b : ascii) : ascii := ascii_of_nat (16 * hex_value a + hex_value b).
Lemma byte_read c : exists a b, byte_display c = String a (String b "") /\ byte_of a b = c.
Proof.
  exists (hex_digit (nat_of_ascii c / 16)), (hex_digit (nat_of_ascii c mod 16)). split; [reflexivity|].
  destruct c as [[|] [|] [|] [|] [|] [|] [|] [|]]; vm_compute; reflexivity.
Qed.
Lemma bytes_plain s : all_chars plain (bytes_display s) = true.
Proof. induction s as [|c s IH]; [reflexivity|]. cbn [bytes_display]. now rewrite all_chars_app, IH, (byte_facts c). Qed.
Lemma bytes_inj s : forall s', bytes_display s = bytes_display s' -> s = s'.
Proof.
  induction s as [|c s IH]; intros [|c' s']; cbn [bytes_display].
  - reflexivity.
  - destruct (byte_read c') as (a & b & -> & _). discriminate.
  - destruct (byte_read c) as (a & b & -> & _). discriminate.
  - destruct (byte_read c) as (a & b & -> & <-), (byte_read c') as (a' & b' & -> & <-). cbn [append].
    intros [= <- <- E]. f_equal. now apply IH.
Qed.

Section Display.
Context {J : JsonText} {JL : JsonTextLaws}.

(** ** Literals *)

Definition textual (l : literal) : Prop := exists s, l = LText s.

Lemma atom_plain l : ~ textual l -> exists c t, literal_display l = String c t /\ all_chars plain (String c t) = true.
Proof.
  intros N. destruct l as [|[|]|q|s|s]; cbn [literal_display].
  - eexists _, _. split; reflexivity.
  - eexists _, _. split; reflexivity.
  - eexists _, _. split; reflexivity.
  - destruct (number_first q) as (c & t & E & _ & A). eauto.
  - exists "x"%char, (bytes_display s). split; [reflexivity|]. cbn [all_chars]. now rewrite bytes_plain.
  - destruct N. now exists s.
Qed.

Lemma atom_inj l l' : ~ textual l -> ~ textual l' -> literal_display l = literal_display l' -> l = l'.
Proof.
  intros N N' E.
  assert (NUM : forall q t c, number_display q = String c t ->
    Ascii.eqb c "n" = false /\ Ascii.eqb c "t" = false /\ Ascii.eqb c "f" = false /\ Ascii.eqb c "x" = false).
  { intros q t c Eq. destruct (number_first q) as (c' & t' & E' & Hc & _). rewrite E' in Eq. injection Eq as -> _.
    destruct (numeric_facts c Hc) as (_ & _ & H). exact H. }
  destruct l as [|[|]|q|s|s], l' as [|[|]|q'|s'|s']; cbn [literal_display append] in E; try discriminate E; try reflexivity;
    try (destruct N; now eexists); try (destruct N'; now eexists);
    try (symmetry in E; apply NUM in E as (A & B & C & D); vm_compute in A, B, C, D; discriminate);
    try (apply NUM in E as (A & B & C & D); vm_compute in A, B, C, D; discriminate).
  - f_equal. now apply number_display_inj.
  - f_equal. injection E as E. now apply bytes_inj.
Qed.

Lemma textual_dec l : textual l \/ ~ textual l.
Proof. destruct l; try (right; intros [? ?]; discriminate). left. now eexists. Qed.

(** ** Values *)

Fixpoint list_display (i : nat) (l : list value) : string :=
  match l with
  | [] => ""
  | v :: l' => (if Nat.ltb 0 i then "," else "") ++ value_display v ++ list_display (S i) l'
  end.
Fixpoint map_display (i : nat) (m : list (value * value)) : string :=
  match m with
  | [] => ""
  | (k, v) :: m' => (if Nat.ltb 0 i then "," else "") ++ value_display k ++ ":" ++ value_display v ++ map_display (S i) m'
  end.
Lemma display_list l : value_display (VList l) = "[" ++ list_display 0 l ++ "]".
Proof. reflexivity. Qed.
Lemma display_map m : value_display (VMap m) = "{" ++ map_display 0 m ++ "}".
Proof. reflexivity. Qed.

Definition opening (c : ascii) : bool := negb (existsb (Ascii.eqb c) [","; ":"; "]"; "}"]%char).

Lemma display_first v : exists c t, value_display v = String c t /\ opening c = true.
Proof.
  destruct v as [l|m|l].
  - cbn [value_display]. destruct (textual_dec l) as [[s ->]|N].
    + cbn [literal_display]. destruct (json_string_quote s) as [t ->]. eexists _, _. split; reflexivity.
    + destruct (atom_plain l N) as (c & t & E & A). exists c, t. split; [exact E|]. cbn [all_chars] in A.
      apply andb_true_iff in A as [A _]. unfold plain in A. unfold opening. cbn [existsb] in *.
      rewrite !negb_orb, !andb_true_iff in *. tauto.
  - rewrite display_map. eexists _, _. split; reflexivity.
  - rewrite display_list. eexists _, _. split; reflexivity.
Qed.

Definition determined (v : value) : Prop := forall v' k k', stops plain k -> stops plain k' ->
  value_display v ++ k = value_display v' ++ k' -> v = v' /\ k = k'.

Lemma list_stops i l k : stops plain (list_display (S i) l ++ String "]" k).
Proof. destruct l; reflexivity. Qed.
Lemma map_stops i m k : stops plain (map_display (S i) m ++ String "}" k).
Proof. destruct m as [|[? ?] ?]; reflexivity. Qed.

Lemma list_determined l : Forall determined l -> forall i l' k k',
  list_display i l ++ String "]" k = list_display i l' ++ String "]" k' -> l = l' /\ k = k'.
Proof.
  induction 1 as [|v l Hv _ IH]; intros i [|v' l'] k k' E; cbn [list_display] in E.
  - injection E as ->. auto.
  - exfalso. destruct (display_first v') as (c & t & Ev & O). destruct i as [|i]; cbn [Nat.ltb Nat.leb append] in E; [|discriminate E].
    rewrite Ev in E. cbn [append] in E. injection E as <- _. discriminate O.
  - exfalso. destruct (display_first v) as (c & t & Ev & O). destruct i as [|i]; cbn [Nat.ltb Nat.leb append] in E; [|discriminate E].
    rewrite Ev in E. cbn [append] in E. injection E as -> _. discriminate O.
  - assert (E' : value_display v ++ (list_display (S i) l ++ String "]" k) = value_display v' ++ (list_display (S i) l' ++ String "]" k')).
    { destruct i as [|i]; cbn [Nat.ltb Nat.leb] in E; rewrite !append_assoc in E; cbn [append] in E; [exact E|now injection E]. }
    apply Hv in E' as [-> E']; [|apply list_stops ..]. apply IH in E' as [-> ->]. auto.
Qed.

Lemma map_determined m : Forall (fun kv => determined (fst kv) /\ determined (snd kv)) m -> forall i m' k k',
  map_display i m ++ String "}" k = map_display i m' ++ String "}" k' -> m = m' /\ k = k'.
Proof.
  induction 1 as [|[x v] m [Hx Hv] _ IH]; intros i [|[x' v'] m'] k k' E; cbn [map_display fst snd] in *.
  - injection E as ->. auto.
  - exfalso. destruct (display_first x') as (c & t & Ev & O). destruct i as [|i]; cbn [Nat.ltb Nat.leb append] in E; [|discriminate E].
    rewrite Ev in E. cbn [append] in E. injection E as <- _. discriminate O.
  - exfalso. destruct (display_first x) as (c & t & Ev & O). destruct i as [|i]; cbn [Nat.ltb Nat.leb append] in E; [|discriminate E].
    rewrite Ev in E. cbn [append] in E. injection E as -> _. discriminate O.
  - assert (E' : value_display x ++ String ":" (value_display v ++ (map_display (S i) m ++ String "}" k)) =
                 value_display x' ++ String ":" (value_display v' ++ (map_display (S i) m' ++ String "}" k'))).
    { destruct i as [|i]; cbn [Nat.ltb Nat.leb] in E; rewrite !append_assoc in E; cbn [append] in E; rewrite ?append_assoc in E;
        [exact E|now injection E]. }
    apply Hx in E' as [-> E']; [|reflexivity ..]. injection E' as E'. apply Hv in E' as [-> E']; [|apply map_stops ..].
    apply IH in E' as [-> ->]. auto.
Qed.

Lemma value_determined v : determined v.
Proof.
  induction v as [l|m IH|l IH] using value_ind'; intros v' k k' Hk Hk' E.
  - destruct (textual_dec l) as [[s ->]|N].
    + cbn [value_display literal_display] in E. destruct v' as [l'|m'|l'].
      * destruct (textual_dec l') as [[s' ->]|N'].
        -- cbn [value_display literal_display] in E. apply json_string_ends in E as [-> ->]. auto.
        -- exfalso. destruct (atom_plain l' N') as (c & t & E' & A). destruct (json_string_quote s) as [t' Et].
           cbn [value_display] in E. rewrite E', Et in E. injection E as <- _. discriminate A.
      * exfalso. destruct (json_string_quote s) as [t' Et]. rewrite display_map, Et in E. discriminate E.
      * exfalso. destruct (json_string_quote s) as [t' Et]. rewrite display_list, Et in E. discriminate E.
    + destruct (atom_plain l N) as (c & t & El & A). cbn [value_display] in E. destruct v' as [l'|m'|l'].
      * destruct (textual_dec l') as [[s' ->]|N'].
        -- exfalso. destruct (json_string_quote s') as [t' Et]. cbn [value_display literal_display] in E. rewrite El, Et in E.
           injection E as -> _. discriminate A.
        -- destruct (atom_plain l' N') as (c' & t' & El' & A'). cbn [value_display] in E.
           destruct (split_text plain (literal_display l) (literal_display l') k k') as [E1 ->]; try assumption.
           ++ now rewrite El.
           ++ now rewrite El'.
           ++ split; [|reflexivity]. f_equal. now apply atom_inj.
      * exfalso. rewrite display_map, El in E. injection E as -> _. discriminate A.
      * exfalso. rewrite display_list, El in E. injection E as -> _. discriminate A.
  - rewrite display_map in E. destruct v' as [l'|m'|l'].
    + exfalso. cbn [value_display] in E. destruct (textual_dec l') as [[s' ->]|N'].
      * destruct (json_string_quote s') as [t' Et]. cbn [literal_display] in E. rewrite Et in E. discriminate E.
      * destruct (atom_plain l' N') as (c & t & El & A). rewrite El in E. injection E as <- _. discriminate A.
    + rewrite display_map, !append_assoc in E. cbn [append] in E. injection E as E. apply (map_determined m IH) in E as [-> ->]. auto.
    + discriminate E.
  - rewrite display_list in E. destruct v' as [l'|m'|l'].
    + exfalso. cbn [value_display] in E. destruct (textual_dec l') as [[s' ->]|N'].
      * destruct (json_string_quote s') as [t' Et]. cbn [literal_display] in E. rewrite Et in E. discriminate E.
      * destruct (atom_plain l' N') as (c & t & El & A). rewrite El in E. injection E as <- _. discriminate A.
    + discriminate E.
    + rewrite display_list, !append_assoc in E. cbn [append] in E. injection E as E. apply (list_determined l IH) in E as [-> ->]. auto.
Qed.

(** C91.  Two values with the same text are the same value. *)
Theorem C91_injective v v' : value_display v = value_display v' -> v = v'.
Proof.
  intros E. apply (value_determined v v' "" ""); [exact I|exact I|]. now rewrite E.
Qed.

(** ** JSON *)

Lemma concat_list l : forall i ts, Forall2 (fun v t => value_display v = t) l ts ->
  list_display i l = match ts with [] => "" | _ => (if Nat.ltb 0 i then "," else "") ++ String.concat "," ts end.
Proof.
  induction l as [|v l IH]; intros i ts F; inversion F as [|? t ? ts' Ev F']; subst; [reflexivity|]. cbn [list_display].
  rewrite (IH (S i) ts' F'). cbn [Nat.ltb Nat.leb]. f_equal. destruct ts' as [|t' ts']; [apply append_nil_r|reflexivity].
Qed.
Lemma concat_map m : forall i ts, Forall2 (fun kv t => value_display (fst kv) ++ ":" ++ value_display (snd kv) = t) m ts ->
  map_display i m = match ts with [] => "" | _ => (if Nat.ltb 0 i then "," else "") ++ String.concat "," ts end.
Proof.
  induction m as [|[x v] m IH]; intros i ts F; inversion F as [|? t ? ts' Ev F']; subst; [reflexivity|]. cbn [map_display fst snd].
  rewrite (IH (S i) ts' F'). cbn [Nat.ltb Nat.leb]. f_equal. destruct ts' as [|t' ts'].
  - now rewrite append_nil_r.
  - cbn [String.concat]. now rewrite !append_assoc.
Qed.

Lemma integer_denotes q : denom q = 1%Z -> Denotes (number_display q) q /\ json_number (number_display q) = true.
Proof.
  intros D. unfold number_display, is_integer. rewrite D, Z.eqb_refl.
  destruct (integer_numeral (numer q)) as (neg & ds & Hd & N & E & Z0 & V). split.
  - exists neg, ds, []. split; [exact Hd|]. split; [constructor|]. split; [exact N|]. split; [exact E|].
    rewrite app_nil_r. cbn [length]. assert (P : (10 ^ Z.of_nat 0 = 1)%Z) by reflexivity. destruct neg.
    + rewrite opp_iff. apply scaled_iff. rewrite numer_opp, denom_opp, P, D. lia.
    + apply scaled_iff. rewrite P, D. lia.
  - rewrite E. apply json_numeral; auto. constructor.
Qed.

(** C91.  The text of a value without byte string, without fraction, and whose keys are strings, is the JSON text of
    the document that says the same. *)
Theorem C91_json v : ~ NotJson fractional v -> exists j, JsonOf v j /\ JsonTextOf j (value_display v).
Proof.
  induction v as [l|m IH|l IH] using value_ind'; intros N.
  - destruct l as [|b|q|s|s].
    + exists JNull. split; constructor.
    + exists (JBool b). split; [constructor|]. destruct b; constructor.
    + destruct (Z.eq_dec (denom q) 1) as [D|D].
      * destruct (integer_denotes q D) as [A B]. exists (JNum (number_display q)). split; now constructor.
      * destruct N. constructor. intros z ->. apply D. apply of_Z_fraction.
    + destruct N. constructor.
    + exists (JStr s). split; constructor.
  - assert (H : exists o ts, Forall2 (fun kv e => fst kv = VLit (LText (fst e)) /\ JsonOf (snd kv) (snd e)) m o /\
      Forall2 (fun e t => exists t', JsonTextOf (snd e) t' /\ t = json_string (fst e) ++ ":" ++ t') o ts /\
      Forall2 (fun kv t => value_display (fst kv) ++ ":" ++ value_display (snd kv) = t) m ts).
    { induction IH as [|[x v] m [Hx Hv] _ IHm].
      - exists [], []. auto.
      - destruct IHm as (o & ts & A & B & C).
        + intros H. apply N. inversion H; subst; [eapply nj_key; [right; eassumption|assumption]|eapply nj_value; [right; eassumption|assumption]].
        + cbn [fst snd] in *. destruct Hv as (j & Hj & Ht); [intros H; apply N; eapply nj_value; [now left|exact H]|].
          assert (exists s, x = VLit (LText s)) as [s ->].
          { destruct x as [[| | | |s]| |]; try (destruct N; eapply nj_key; [now left|intros; discriminate]). now exists s. }
          exists ((s, j) :: o), ((json_string s ++ ":" ++ value_display v) :: ts). split; [|split].
          * constructor; [split; [reflexivity|exact Hj]|exact A].
          * constructor; [|exact B]. exists (value_display v). split; [exact Ht|reflexivity].
          * constructor; [reflexivity|exact C]. }
    destruct H as (o & ts & A & B & C). exists (JObj o). split; [now constructor|]. rewrite display_map, (concat_map m 0 ts C).
    replace (match ts with [] => "" | _ => (if Nat.ltb 0 0 then "," else "") ++ String.concat "," ts end) with (String.concat "," ts)
      by (destruct ts; reflexivity). now constructor.
  - assert (H : exists js ts, Forall2 JsonOf l js /\ Forall2 JsonTextOf js ts /\ Forall2 (fun v t => value_display v = t) l ts).
    { induction IH as [|v l Hv _ IHl].
      - exists [], []. auto.
      - destruct IHl as (o & ts & A & B & C).
        + intros H. apply N. inversion H; subst. eapply nj_item; [right; eassumption|assumption].
        + destruct Hv as (j & Hj & Ht); [intros H; apply N; eapply nj_item; [now left|exact H]|].
          exists (j :: o), (value_display v :: ts). auto. }
    destruct H as (o & ts & A & B & C). exists (JArr o). split; [now constructor|]. rewrite display_list, (concat_list l 0 ts C).
    replace (match ts with [] => "" | _ => (if Nat.ltb 0 0 then "," else "") ++ String.concat "," ts end) with (String.concat "," ts)
      by (destruct ts; reflexivity). now constructor.
Qed.

(** The characters of JSON numbers. *)
Definition json_char (c : ascii) : bool := numeric c || existsb (Ascii.eqb c) ["."; "+"; "e"; "E"]%char.

Lemma span_chars s : forall ds r, span_digits s = (ds, r) -> all_chars json_char r = true -> all_chars json_char s = true.
Proof.
  induction s as [|c s IH]; intros ds r E A; [reflexivity|]. cbn [span_digits] in E. destruct (is_digit c) eqn:D.
  - destruct (span_digits s) as [ds' r'] eqn:E'. injection E as <- <-. cbn [all_chars]. rewrite (IH _ _ eq_refl A), andb_true_r.
    unfold json_char, numeric. now rewrite D.
  - injection E as <- <-. exact A.
Qed.
Lemma digits_chars s : match span_digits s with (_ :: _, EmptyString) => true | _ => false end = true -> all_chars json_char s = true.
Proof. destruct (span_digits s) as [[|] [|]] eqn:E; try discriminate. intros _. now apply (span_chars _ _ _ E). Qed.
Lemma exponent_chars s : json_exponent s = true -> all_chars json_char s = true.
Proof.
  destruct s as [|c r]; [reflexivity|]. unfold json_exponent. destruct (Ascii.eqb_spec c "e"), (Ascii.eqb_spec c "E"); cbn [orb]; try discriminate;
    subst; (destruct r as [|d r]; [discriminate|]; destruct (Ascii.eqb_spec d "+"), (Ascii.eqb_spec d "-"); cbn [orb]; subst;
      intros H; apply digits_chars in H; cbn [all_chars] in *; exact H).
Qed.
Lemma unsigned_chars s : json_unsigned s = true -> exists c t, s = String c t /\ is_digit c = true /\ all_chars json_char s = true.
Proof.
  unfold json_unsigned. destruct (span_digits s) as [ip r] eqn:E. destruct ip as [|d ip]; [discriminate|]. rewrite andb_true_iff.
  intros [_ H].
  assert (A : all_chars json_char r = true).
  { destruct r as [|c r]; [reflexivity|]. destruct (Ascii.eqb_spec c ".") as [->|N].
    - destruct (span_digits r) as [[|f fp] r''] eqn:E'; [discriminate|]. cbn [all_chars]. change (json_char ".") with true. cbn [andb].
      apply (span_chars _ _ _ E'). now apply exponent_chars.
    - apply exponent_chars. destruct c as [[|] [|] [|] [|] [|] [|] [|] [|]]; try exact H. now destruct N. }
  destruct s as [|c s]; [discriminate E|]. exists c, s. split; [reflexivity|]. split; [|now apply (span_chars _ _ _ E)].
  cbn [span_digits] in E. destruct (is_digit c); [reflexivity|discriminate E].
Qed.
Lemma json_number_chars s : json_number s = true -> exists c t, s = String c t /\ numeric c = true /\ all_chars json_char s = true.
Proof.
  destruct s as [|c s]; [discriminate|]. intros H. exists c, s. split; [reflexivity|]. destruct (Ascii.eqb_spec c "-") as [->|N].
  - split; [reflexivity|]. destruct (unsigned_chars s H) as (_ & _ & _ & _ & A). cbn [all_chars]. now rewrite A.
  - assert (U : json_unsigned (String c s) = true).
    { destruct c as [[|] [|] [|] [|] [|] [|] [|] [|]]; try exact H. now destruct N. }
    destruct (unsigned_chars _ U) as (c' & t & [= <- <-] & D & A). split; [|exact A]. unfold numeric. now rewrite D.
Qed.
Lemma json_char_facts c : json_char c = true -> plain c = true /\ Ascii.eqb c "/" = false.
Proof. destruct c as [[|] [|] [|] [|] [|] [|] [|] [|]]; vm_compute; intro; try discriminate; split; reflexivity. Qed.
Lemma numeric_opening c : numeric c = true -> opening c = true.
Proof. destruct c as [[|] [|] [|] [|] [|] [|] [|] [|]]; vm_compute; intro; try discriminate; reflexivity. Qed.

Lemma json_first j t : JsonTextOf j t -> exists c t', t = String c t' /\ opening c = true.
Proof.
  destruct 1 as [| | |s H|s|l ts H|o ts H]; try (eexists _, _; split; reflexivity).
  - destruct (json_number_chars s H) as (c & t & E & N & _). exists c, t. split; [exact E|now apply numeric_opening].
  - destruct (json_string_quote s) as [t ->]. eexists _, _. split; reflexivity.
Qed.

Definition joined (i : nat) (ts : list string) : string :=
  match ts with [] => "" | _ => (if Nat.ltb 0 i then "," else "") ++ String.concat "," ts end.
Lemma joined_cons i t ts : joined i (t :: ts) = (if Nat.ltb 0 i then "," else "") ++ t ++ joined (S i) ts.
Proof. unfold joined. f_equal. destruct ts; cbn [String.concat]; [now rewrite append_nil_r|reflexivity]. Qed.
Lemma joined_zero ts : String.concat "," ts = joined 0 ts.
Proof. destruct ts; reflexivity. Qed.

Definition read (v : value) : Prop := forall j t k k', stops plain k -> stops plain k' -> JsonTextOf j t ->
  value_display v ++ k = t ++ k' -> JsonOf v j /\ ~ NotJson fractional v /\ k = k'.

Lemma list_read l : Forall read l -> forall i js ts k k', Forall2 JsonTextOf js ts ->
  list_display i l ++ String "]" k = joined i ts ++ String "]" k' ->
  Forall2 JsonOf l js /\ ~ NotJson fractional (VList l) /\ k = k'.
Proof.
  induction 1 as [|v l Hv _ IH]; intros i js ts k k' F E; inversion F as [|j t js' ts' Hj F']; subst; clear F.
  - cbn in E. injection E as ->. split; [constructor|]. split; [|reflexivity]. intros H. inversion H; subst. contradiction.
  - exfalso. rewrite joined_cons in E. destruct (json_first j t Hj) as (c & t' & -> & O). cbn [list_display] in E.
    destruct i as [|i]; cbn [Nat.ltb Nat.leb append] in E; [|discriminate E]. injection E as <- _. discriminate O.
  - exfalso. cbn [list_display joined] in E. destruct (display_first v) as (c & t' & Ev & O). rewrite Ev in E.
    destruct i as [|i]; cbn [Nat.ltb Nat.leb append] in E; [|discriminate E]. injection E as -> _. discriminate O.
  - rewrite joined_cons in E. cbn [list_display] in E.
    assert (E' : value_display v ++ (list_display (S i) l ++ String "]" k) = t ++ (joined (S i) ts' ++ String "]" k')).
    { destruct i as [|i]; cbn [Nat.ltb Nat.leb] in E; rewrite !append_assoc in E; cbn [append] in E; [exact E|now injection E]. }
    apply (Hv j t _ _) in E' as (A & B & E'); [|apply list_stops|destruct ts'; reflexivity|exact Hj].
    apply (IH _ js' _ _ _ F') in E' as (C & D & ->). split; [now constructor|]. split; [|reflexivity].
    intros H. inversion H as [| | | |? v' Hi Hn]; subst. destruct Hi as [<-|Hi]; [contradiction|]. apply D. now apply (nj_item _ _ v').
Qed.

Lemma map_read m : Forall (fun kv => read (fst kv) /\ read (snd kv)) m -> forall i o ts k k',
  Forall2 (fun e t => exists t', JsonTextOf (snd e) t' /\ t = json_string (fst e) ++ ":" ++ t') o ts ->
  map_display i m ++ String "}" k = joined i ts ++ String "}" k' ->
  Forall2 (fun kv e => fst kv = VLit (LText (fst e)) /\ JsonOf (snd kv) (snd e)) m o /\ ~ NotJson fractional (VMap m) /\ k = k'.
Proof.
  induction 1 as [|[x v] m [Hx Hv] _ IH]; intros i o ts k k' F E; inversion F as [|e t o' ts' (t' & Ht & ->) F']; subst; clear F.
  - cbn in E. injection E as ->. split; [constructor|]. split; [|reflexivity]. intros H. inversion H; subst; contradiction.
  - exfalso. rewrite joined_cons in E. destruct (json_string_quote (fst e)) as [q Eq]. rewrite Eq in E. cbn [map_display] in E.
    destruct i as [|i]; discriminate E.
  - exfalso. cbn [map_display joined] in E. destruct (display_first x) as (c & t' & Ev & O). rewrite Ev in E.
    destruct i as [|i]; cbn [Nat.ltb Nat.leb append] in E; [|discriminate E]. injection E as -> _. discriminate O.
  - rewrite joined_cons in E. cbn [map_display fst snd] in *.
    assert (E' : value_display x ++ String ":" (value_display v ++ (map_display (S i) m ++ String "}" k)) =
                 json_string (fst e) ++ String ":" (t' ++ (joined (S i) ts' ++ String "}" k'))).
    { destruct i as [|i]; cbn [Nat.ltb Nat.leb] in E; rewrite !append_assoc in E; cbn [append] in E; rewrite ?append_assoc in E;
        [exact E|now injection E]. }
    apply (Hx (JStr (fst e)) _ _ _) in E' as (A & B & E'); [|reflexivity|reflexivity|constructor]. injection E' as E'.
    apply (Hv (snd e) t' _ _) in E' as (A' & B' & E'); [|apply map_stops|destruct ts'; reflexivity|exact Ht].
    apply (IH _ o' _ _ _ F') in E' as (C & D & ->). split; [|split; [|reflexivity]].
    + constructor; [|exact C]. split; [|exact A']. inversion A; subst. reflexivity.
    + intros H. inversion A as [| | |s0| |]; subst. inversion H as [| |? k0 v0 Hi Hn|? k0 v0 Hi Hn|]; subst; destruct Hi as [E0|Hi].
      * injection E0 as <- <-. now apply (Hn (fst e)).
      * apply D. now apply (nj_key _ _ k0 v0).
      * injection E0 as <- <-. contradiction.
      * apply D. now apply (nj_value _ _ k0 v0).
Qed.

Lemma literal_ok l : (forall q, l = LNum q -> ~ fractional q) -> (forall s, l <> LBytes s) -> ~ NotJson fractional (VLit l).
Proof. intros A B H. inversion H; subst; [now apply (B s)|now apply (A q)]. Qed.

Lemma atom_read l j t : ~ textual l -> JsonTextOf j t -> (forall s, j <> JStr s) -> literal_display l = t ->
  JsonOf (VLit l) j /\ ~ NotJson fractional (VLit l).
Proof.
  intros N H NS E. destruct (atom_plain l N) as (c & r & El & A).
  destruct H as [| | |s H|s|js ts H|o ts H].
  - apply (atom_inj l LUnit N) in E as ->; [|intros [? ?]; discriminate]. split; [constructor|]. apply literal_ok; discriminate.
  - apply (atom_inj l (LBool true) N) in E as ->; [|intros [? ?]; discriminate]. split; [constructor|]. apply literal_ok; discriminate.
  - apply (atom_inj l (LBool false) N) in E as ->; [|intros [? ?]; discriminate]. split; [constructor|]. apply literal_ok; discriminate.
  - destruct (json_number_chars s H) as (c' & r' & Es & Nc & Ac).
    assert (exists q, l = LNum q) as [q ->].
    { destruct (numeric_facts c' Nc) as (_ & _ & F1 & F2 & F3 & F4). rewrite Es in E.
      destruct l as [|[|]|q|b|b]; cbn [literal_display append] in E; try (injection E as <- _; discriminate).
      - now exists q.
      - destruct N. now exists b. }
    cbn [literal_display] in E. destruct (Z.eq_dec (denom q) 1) as [D|D].
    + destruct (integer_denotes q D) as [De _]. rewrite E in De. split; [now constructor|]. apply literal_ok; [|discriminate].
      intros q' [= <-] Fr. apply (Fr (numer q)). now apply fraction_integer.
    + exfalso. unfold number_display, is_integer in E. destruct (Z.eqb_spec (denom q) 1); [contradiction|].
      apply (all_chars_imp _ (fun c => negb (Ascii.eqb c "/"))) in Ac; [|intros c0 Hc; now rewrite (proj2 (json_char_facts c0 Hc))].
      rewrite <- E, !all_chars_app in Ac. cbn in Ac. now rewrite andb_false_r in Ac.
  - now destruct (NS s).
  - rewrite El in E. injection E as -> _. discriminate A.
  - rewrite El in E. injection E as -> _. discriminate A.
Qed.

Lemma value_read v : read v.
Proof.
  induction v as [l|m IH|l IH] using value_ind'; intros j t k k' Hk Hk' H E.
  - destruct (textual_dec l) as [[s ->]|N].
    + cbn [value_display literal_display] in E. destruct H as [| | |n H|s'|js ts H|o ts H];
        try (exfalso; destruct (json_string_quote s) as [t' Et]; rewrite Et in E; discriminate E).
      * exfalso. destruct (json_string_quote s) as [t' Et]. destruct (json_number_chars n H) as (c & r & -> & Nc & _). rewrite Et in E.
        injection E as <- _. discriminate Nc.
      * apply json_string_ends in E as [-> ->]. split; [constructor|]. split; [|reflexivity]. apply literal_ok; discriminate.
    + cbn [value_display] in E. destruct (atom_plain l N) as (c & r & El & A).
      assert (P : (exists s, j = JStr s) \/ (exists js, j = JArr js) \/ (exists o, j = JObj o) \/ all_chars plain t = true).
      { destruct H as [| | |n H|s'|js ts H|o ts H]; try (now eauto); right; right; right; try reflexivity.
        apply json_number_chars in H as (_ & _ & _ & _ & H). revert H. apply all_chars_imp. intros x Hx. now apply json_char_facts. }
      assert (NP : (forall s, j <> JStr s) /\ all_chars plain t = true).
      { destruct P as [[s ->]|[[js ->]|[[o ->]|P1]]].
        - exfalso. inversion H; subst. destruct (json_string_quote s) as [t' Et]. rewrite Et, El in E. injection E as -> _. discriminate A.
        - exfalso. inversion H; subst. rewrite El in E. injection E as -> _. discriminate A.
        - exfalso. inversion H; subst. rewrite El in E. injection E as -> _. discriminate A.
        - split; [|exact P1]. intros s ->. inversion H; subst. destruct (json_string_quote s) as [t' Et]. rewrite Et in P1. discriminate P1. }
      clear P. destruct NP as [NS P]. destruct (split_text plain (literal_display l) t k k') as [E1 E2]; try assumption; [now rewrite El|].
      destruct (atom_read l j t N H NS E1) as [B C]. auto.
  - rewrite display_map in E. destruct H as [| | |n H|s'|js ts H|o ts H]; try discriminate E.
    + exfalso. destruct (json_number_chars n H) as (c & r & -> & Nc & _). injection E as <- _. discriminate Nc.
    + exfalso. destruct (json_string_quote s') as [t' Et]. rewrite Et in E. discriminate E.
    + rewrite joined_zero, !append_assoc in E. cbn [append] in E. injection E as E.
      apply (map_read m IH 0 o ts k k' H) in E as (A & B & ->). split; [now constructor|]. auto.
  - rewrite display_list in E. destruct H as [| | |n H|s'|js ts H|o ts H]; try discriminate E.
    + exfalso. destruct (json_number_chars n H) as (c & r & -> & Nc & _). injection E as <- _. discriminate Nc.
    + exfalso. destruct (json_string_quote s') as [t' Et]. rewrite Et in E. discriminate E.
    + rewrite joined_zero, !append_assoc in E. cbn [append] in E. injection E as E.
      apply (list_read l IH 0 js ts k k' H) in E as (A & B & ->). split; [now constructor|]. auto.
Qed.

(** C91.  Conversely, a text of a value that is a JSON text is the one of such a value, and the document says the
    same. *)
Theorem C91_only_json v j : JsonTextOf j (value_display v) -> JsonOf v j /\ ~ NotJson fractional v.
Proof. intros H. destruct (value_read v j _ "" "" I I H eq_refl) as (A & B & _). auto. Qed.

(** C91.  Read as JSON, the text gives back the value. *)
Theorem C91_read_back v j : value_wf v -> JsonTextOf j (value_display v) -> value_from_json j = Ok v.
Proof. intros W H. apply C91_only_json in H as [H _]. now apply C46_from_json. Qed.
End Display.
