(** * What pattern matching means

    Specification of [Matching], independent of the algorithm: only the data types of
    [PatternModel] are used. *)

From Coq Require Import String List Bool Arith.
Import ListNotations.
From Verif Require Import Base PatternModel MatchingModel.

Section Spec.
Context {R : Type}.

(** The substitution [s] binds the variable [x] to [r]. *)
Definition binds (s : subst R) (x : nat) (r : R) : Prop := nth_error s x = Some (Some r).

(** [r] is the instance of the pattern [p] under the bindings [B]. *)
Inductive pinst (B : nat -> R -> Prop) : pattern R -> R -> Prop :=
| pinst_res r : pinst B (PRes r) r
| pinst_var x r : B x r -> pinst B (PVar x) r.

Inductive oinst (B : nat -> R -> Prop) : option (pattern R) -> option R -> Prop :=
| oinst_none : oinst B None None
| oinst_some p r : pinst B p r -> oinst B (Some p) (Some r).

(** [q] is the instance of the pattern quad [p] under the bindings [B]. *)
Definition qinst (B : nat -> R -> Prop) (p : qpat R) (q : quad R) : Prop :=
  pinst B (q_s p) (q_s q) /\ pinst B (q_p p) (q_p q) /\ pinst B (q_o p) (q_o q)
  /\ oinst B (q_g p) (q_g q).

(** The pattern quad matches the quad, for some value of its variables. *)
Definition agrees (p : qpat R) (q : quad R) : Prop :=
  exists v : nat -> R, qinst (fun x r => v x = r) p q.

(** [D] enumerates the set of quads [G]: the contract of
    [PatternMatchingDataset::quad_pattern_matching]. The order is arbitrary and may
    differ between patterns. *)
Definition enumerates (D : dataset R) (G : quad R -> Prop) : Prop :=
  forall p, NoDup (D p) /\ forall q, In q (D p) <-> G q /\ agrees p q.

(** Variables of a pattern quad. *)
Definition pvar_of (p : pattern R) (x : nat) : Prop := p = PVar x.
Definition qvar_of (p : qpat R) (x : nat) : Prop :=
  pvar_of (q_s p) x \/ pvar_of (q_p p) x \/ pvar_of (q_o p) x \/ q_g p = Some (PVar x).
Definition var_of (ps : list (qpat R)) (x : nat) : Prop :=
  exists p, In p ps /\ qvar_of p x.

(** Every variable of the patterns is declared. *)
Definition declared (s : subst R) (ps : list (qpat R)) : Prop :=
  forall x, var_of ps x -> x < length s.

(** [s'] solves the patterns [ps] in [G] starting from [s]: it declares the same
    variables, preserves the bindings of [s], sends each pattern quad in [G]
    and does not bind any other variable. *)
Record solution (G : quad R -> Prop) (s : subst R) (ps : list (qpat R)) (s' : subst R)
  : Prop := {
  sol_length : length s' = length s;
  sol_extends : forall x r, binds s x r -> binds s' x r;
  sol_quads : forall p, In p ps -> exists q, G q /\ qinst (binds s') p q;
  sol_other : forall x, ~ var_of ps x -> nth_error s' x = nth_error s x
}.

(** Iterator states reachable by calling [next] repeatedly. *)
Inductive reachable `{Cmp R} (D : dataset R) (s : subst R) (ps : list (qpat R))
  : list (state R) -> Prop :=
| reach_new : reachable D s ps (matching_new s ps)
| reach_next fuel st i st' :
    reachable D s ps st -> next D fuel st = Ok (i, st') -> reachable D s ps st'.

(** Number of loop turns needed to exhaust a matching of [k] patterns when every
    pattern matches at most [n] quads. *)
Fixpoint turns (n k : nat) : nat :=
  match k with
  | 0 => 1
  | S k' => 2 + n * (1 + turns n k')
  end.

End Spec.

Section Datasets.
Context {R : Type} {CR : Cmp R}.

(** A concrete dataset: the quads of a list, filtered. *)
Definition pmatch (p : pattern R) (v : R) (env : list (nat * R)) : option (list (nat * R)) :=
  match p with
  | PRes r => if eqb r v then Some env else None
  | PVar x =>
      match find (fun e => Nat.eqb (fst e) x) env with
      | Some (_, r) => if eqb r v then Some env else None
      | None => Some ((x, v) :: env)
      end
  end.

Definition qmatch (p : qpat R) (q : quad R) : bool :=
  match pmatch (q_s p) (q_s q) [] with
  | None => false
  | Some e =>
      match pmatch (q_p p) (q_p q) e with
      | None => false
      | Some e =>
          match pmatch (q_o p) (q_o q) e with
          | None => false
          | Some e =>
              match q_g p, q_g q with
              | None, None => true
              | Some g, Some v => match pmatch g v e with Some _ => true | None => false end
              | _, _ => false
              end
          end
      end
  end.

Definition list_dataset (quads : list (quad R)) : dataset R :=
  fun p => filter (qmatch p) quads.

End Datasets.
