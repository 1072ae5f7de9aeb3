(** * What the texts of values must satisfy (C91) *)

From Coq Require Import String Ascii List Bool Arith ZArith QArith Qcanon.
Import ListNotations.
From Verif Require Import Base ValueModel NumberModel NumberSpec JsonModel JsonSpec DisplayModel.
Open Scope list_scope.
Open Scope string_scope.

Section Spec.
Context {J : JsonText}.

(** A string literal starts with a quote, and ends at a place that does not depend on what follows; it determines the
    string. *)
Class JsonTextLaws : Prop := {
  json_string_quote : forall s, exists t, json_string s = String """"%char t;
  json_string_ends : forall s s' k k', (json_string s ++ k)%string = (json_string s' ++ k')%string -> s = s' /\ k = k'
}.

(** The JSON texts (RFC 8259) without spaces of a document. *)
Inductive JsonTextOf : json -> string -> Prop :=
| jt_null : JsonTextOf JNull "null"
| jt_true : JsonTextOf (JBool true) "true"
| jt_false : JsonTextOf (JBool false) "false"
| jt_num s : json_number s = true -> JsonTextOf (JNum s) s
| jt_str s : JsonTextOf (JStr s) (json_string s)
| jt_arr l ts : Forall2 JsonTextOf l ts -> JsonTextOf (JArr l) ("[" ++ String.concat "," ts ++ "]")
| jt_obj o ts :
    Forall2 (fun e t => exists t', JsonTextOf (snd e) t' /\ t = json_string (fst e) ++ ":" ++ t') o ts ->
    JsonTextOf (JObj o) ("{" ++ String.concat "," ts ++ "}").

(** Not an integer. *)
Definition fractional (q : Qc) : Prop := forall z, q <> Q2Qc (inject_Z z).
End Spec.
