(** * Concrete cases for the texts of values (C91) *)

From Coq Require Import String Ascii List Bool Arith NArith ZArith QArith Qcanon Lia.
Import ListNotations.
From Verif Require Import Base ValueModel NumberModel NumberSpec JsonModel JsonSpec JsonProperties DisplayModel DisplaySpec DisplayProperties.
Open Scope list_scope.
Open Scope nat_scope.
Open Scope string_scope.

(** The escapes of the string literals of [json_syntax]. *)
Definition escape (c : ascii) : string :=
  let n := nat_of_ascii c in
  if Nat.eqb n 34 then "\""" else if Nat.eqb n 92 then "\\" else if Nat.eqb n 8 then "\b" else if Nat.eqb n 9 then "\t"
  else if Nat.eqb n 10 then "\n" else if Nat.eqb n 12 then "\f" else if Nat.eqb n 13 then "\r"
  else if Nat.ltb n 32 then "\u00" ++ byte_display c else String c "".
Fixpoint escaped (s : string) : string :=
  match s with
  | EmptyString => """"
  | String c s' => escape c ++ escaped s'
  end.
#[local] Instance json_text : JsonText := {| json_string s := String """"%char (escaped s) |}.

Definition hex_value (c : ascii) : nat :=
  let n := nat_of_ascii c in if Nat.leb n 57 then n - 48 else n - 87.
(** The first character of what was escaped, and the rest. *)
Definition unescape (s : string) : option (ascii * string) :=
  match s with
  | String "\" (String """" r) => Some (""""%char, r)
  | String "\" (String "\" r) => Some ("\"%char, r)
  | String "\" (String "b" r) => Some (ascii_of_nat 8, r)
  | String "\" (String "t" r) => Some (ascii_of_nat 9, r)
  | String "\" (String "n" r) => Some (ascii_of_nat 10, r)
  | String "\" (String "f" r) => Some (ascii_of_nat 12, r)
  | String "\" (String "r" r) => Some (ascii_of_nat 13, r)
  | String "\" (String "u" (String _ (String _ (String a (String b r))))) =>
      Some (ascii_of_nat (16 * hex_value a + hex_value b), r)
  | String c r => if Ascii.eqb c """" then None else Some (c, r)
  | EmptyString => None
  end.
Lemma unescape_escape c r : unescape (escape c ++ r) = Some (c, r).
Proof. destruct c as [[|] [|] [|] [|] [|] [|] [|] [|]]; vm_compute; reflexivity. Qed.
Lemma unescape_quote r : unescape (String """"%char r) = None.
Proof. reflexivity. Qed.

Lemma escaped_inj s : forall s' k k', escaped s ++ k = escaped s' ++ k' -> s = s' /\ k = k'.
Proof.
  assert (E : forall c t k, unescape ((escape c ++ escaped t) ++ k) = Some (c, escaped t ++ k)).
  { intros c t k. rewrite <- unescape_escape. f_equal. induction (escape c) as [|d e IH]; [reflexivity|]. cbn [append]. now rewrite IH. }
  induction s as [|c s IH]; intros [|c' s'] k k' H; cbn [escaped] in H.
  - cbn [append] in H. injection H as ->. auto.
  - apply (f_equal unescape) in H. rewrite E in H. discriminate H.
  - apply (f_equal unescape) in H. rewrite E in H. discriminate H.
  - apply (f_equal unescape) in H. rewrite !E in H. injection H as -> H. apply IH in H as [-> ->]. auto.
Qed.
#[local] Instance json_text_laws : JsonTextLaws.
Proof.
  constructor.
  - intros s. now exists (escaped s).
  - intros s s' k k' H. cbn [json_string json_text append] in H. injection H as H. now apply escaped_inj.
Qed.

Definition num (n : Z) (d : positive) : value := VLit (LNum (Q2Qc (n # d))).
Definition newline : string := String (ascii_of_nat 10) "".
Definition bell : string := String (ascii_of_nat 7) "".

(** A value of every sort. *)
Definition mixed : value :=
  VMap [(VLit (LText "say ""hi"""), VList [num (-3) 2; VLit (LBytes ("<" ++ bell)); VLit LUnit; VMap []]);
        (VList [VLit (LBool true)], VLit (LText (newline ++ bell)))].
Example mixed_text :
  value_display mixed = "{""say \""hi\"""":[-3/2,x3c07,null,{}],[true]:""\n\u0007""}".
Proof. vm_compute. reflexivity. Qed.
Example mixed_only v : value_display v = value_display mixed -> v = mixed.
Proof. exact (C91_injective v mixed). Qed.

(** A value whose text is JSON. *)
Definition person : value :=
  VMap [(VLit (LText "age"), num 42 1); (VLit (LText "tags"), VList [VLit (LText "a,b"); VLit (LBool false); VLit LUnit])].
Lemma person_json : ~ NotJson fractional person.
Proof.
  intros H. inversion H as [| |? k v Hi Hk|? k v Hi Hv|]; subst; destruct Hi as [E|[E|[]]]; injection E as <- <-.
  - now apply (Hk "age").
  - now apply (Hk "tags").
  - inversion Hv as [|? F| | |]; subst. now apply (F 42%Z).
  - inversion Hv as [| | | |? v Hi Hn]; subst. destruct Hi as [<-|[<-|[<-|[]]]]; inversion Hn.
Qed.
Example person_text : value_display person = "{""age"":42,""tags"":[""a,b"",false,null]}" /\
  exists j, JsonOf person j /\ JsonTextOf j (value_display person).
Proof. split; [vm_compute; reflexivity|]. exact (C91_json person person_json). Qed.

(** Not every text of a value is JSON: fractions are written with a slash, although one half has a decimal
    representation and is written so in JSON. *)
Theorem C91_decimal_not_json : exists v, ~ NotJson non_decimal v /\ forall j, ~ JsonTextOf j (value_display v).
Proof.
  exists (num 1 2). split.
  - intros H. inversion H as [|q F E| | |]; subst. apply F. exists 1, 5%Z. apply Qc_is_canon. reflexivity.
  - intros j H. destruct (C91_only_json _ _ H) as [_ N]. apply N. constructor. intros z E.
    apply (f_equal (fun q : Qc => this q)) in E. unfold Q2Qc in E. cbn [this] in E.
    assert (H' : (1 # 2) == inject_Z z) by (rewrite <- (Qred_correct (1 # 2)), <- (Qred_correct (inject_Z z)), E; reflexivity).
    unfold Qeq, inject_Z in H'. cbn [Qnum Qden] in H'. lia.
Qed.

Print Assumptions C91_injective.
Print Assumptions C91_json.
Print Assumptions C91_only_json.
Print Assumptions C91_read_back.
Print Assumptions C91_decimal_not_json.
