(** * Patterns and substitutions ([layouts/src/pattern.rs])

    Everything in [pattern.rs] is modelled except the [AsRef]/[From] conversions
    (ownership only). *)

From Coq Require Import String List Bool Arith.
Import ListNotations.
From Verif Require Import Base.

(** [Pattern] — layouts/src/pattern.rs 12-18.  [Var(u32)] is an unbounded [nat]. *)
Inductive pattern (R : Type) : Type :=
| PRes (r : R)
| PVar (x : nat).
Arguments PRes {R} r.
Arguments PVar {R} x.

(** [rdf_types::Quad]: subject, predicate, object and optional graph label. *)
Record quad (R : Type) : Type := Quad {
  q_s : R;
  q_p : R;
  q_o : R;
  q_g : option R
}.
Arguments Quad {R} q_s q_p q_o q_g.
Arguments q_s {R} q.
Arguments q_p {R} q.
Arguments q_o {R} q.
Arguments q_g {R} q.

(** [PatternRefQuad] — layouts/src/pattern.rs 4. *)
Definition qpat (R : Type) : Type := quad (pattern R).

(** [Substitution] — layouts/src/pattern.rs 65. *)
Definition subst (R : Type) : Type := list (option R).

Section Pattern.
Context {R : Type} {CR : Cmp R}.

(** [Substitution::from_inputs] — layouts/src/pattern.rs 77-82. *)
Definition from_inputs (inputs : list R) : subst R := map Some inputs.

(** [Substitution::get] — layouts/src/pattern.rs 95-97. *)
Definition sget (s : subst R) (i : nat) : option R :=
  match nth_error s i with Some o => o | None => None end.

(** [Substitution::intro] — layouts/src/pattern.rs 101-105 (the returned index is
    [length s]). *)
Definition sintro (s : subst R) (count : nat) : subst R := s ++ repeat None count.

(** [Substitution::push] — layouts/src/pattern.rs 111-115 (the returned index is
    [length s]). *)
Definition spush (s : subst R) (v : option R) : subst R := s ++ [v].

(** [Substitution::set] — layouts/src/pattern.rs 126-128: the previous binding and the
    updated substitution, or a panic if the variable is not declared. *)
Fixpoint sset (s : subst R) (x : nat) (v : option R) : option (option R * subst R) :=
  match s, x with
  | [], _ => None
  | o :: s', 0 => Some (o, v :: s')
  | o :: s', S x' =>
      match sset s' x' v with
      | Some (old, s'') => Some (old, o :: s'')
      | None => None
      end
  end.

(** [Pattern::apply] — layouts/src/pattern.rs 21-32. *)
Definition papply (s : subst R) (p : pattern R) : pattern R :=
  match p with
  | PRes r => PRes r
  | PVar x => match sget s x with Some r => PRes r | None => PVar x end
  end.

(** [Pattern::into_resource] — layouts/src/pattern.rs 41-46. *)
Definition into_resource (p : pattern R) : option R :=
  match p with PRes r => Some r | PVar _ => None end.

(** One block of [Substitution::with_quad] — layouts/src/pattern.rs 152-158 (and the
    identical 160-166, 168-174).  [Ok None] is the early [return None]. *)
Definition with_component (p : pattern R) (v : R) (s : subst R)
  : outcome unit (option (subst R)) :=
  match p with
  | PRes _ => Ok (Some s)
  | PVar x =>
      match sset s x (Some v) with
      | None => Panic "Substitution::set: undeclared variable"
      | Some (Some old, s') => if eqb old v then Ok (Some s') else Ok None
      | Some (None, s') => Ok (Some s')
      end
  end.

Definition and_then {A B} (m : outcome unit (option A)) (k : A -> outcome unit (option B))
  : outcome unit (option B) :=
  let* o := m in match o with Some a => k a | None => Ok None end.

(** [Substitution::with_quad] — layouts/src/pattern.rs 142-186. *)
Definition with_quad (s : subst R) (p : qpat R) (v : quad R)
  : outcome unit (option (subst R)) :=
  and_then (with_component (q_s p) (q_s v) s) (fun s =>
  and_then (with_component (q_p p) (q_p v) s) (fun s =>
  and_then (with_component (q_o p) (q_o v) s) (fun s =>
  match q_g p with
  | Some (PVar x) =>
      let* g := unwrap "with_quad: value.3.unwrap()" (q_g v) in
      with_component (PVar x) g s
  | _ => Ok (Some s)
  end))).

End Pattern.
