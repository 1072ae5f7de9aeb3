(** * Well formed character sets *)

From Coq Require Import List Bool NArith.
Import ListNotations.
From Verif Require Import Base CharModel.
Open Scope list_scope.

(** A value of type [RangeSet<char>]: sorted, disjoint, non empty ranges of characters, starting at
    [lo] or after. *)
Fixpoint cs_from (lo : N) (s : charset) : Prop :=
  match s with
  | [] => True
  | (a, b) :: s' =>
      (lo <= a)%N /\ (a <= b)%N /\ is_char a = true /\ is_char b = true /\ cs_from (b + 1) s'
  end.
Definition cs_good (s : charset) : Prop := cs_from 0 s.

Definition chars (w : list N) : Prop := Forall (fun c => is_char c = true) w.
