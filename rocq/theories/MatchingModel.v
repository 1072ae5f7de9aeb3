(** * Pattern matching ([layouts/src/matching.rs])

    Everything in [matching.rs] is modelled.  A dataset is what
    [PatternMatchingDataset::quad_pattern_matching] shows of it: for each pattern, the list of
    quads enumerated by the iterator. *)

From Coq Require Import String List Bool Arith.
Import ListNotations.
From Verif Require Import Base PatternModel.

Section Matching.
Context {R : Type} {CR : Cmp R}.

(** A dataset seen through [rdf_types::dataset::PatternMatchingDataset] (external crate). *)
Definition dataset (R : Type) : Type := qpat R -> list (quad R).

Variable D : dataset R.

(** [Error] — layouts/src/matching.rs 6-14. *)
Inductive match_error : Type := Ambiguity | Empty.

(** [QuadState] — layouts/src/matching.rs 40-46: the pattern and what remains of the
    [quad_matching] iterator. *)
Record quad_state : Type := QuadState {
  qs_pattern : qpat R;
  qs_matching : list (quad R)
}.

(** [State] — layouts/src/matching.rs 31-38. *)
Record state : Type := State {
  st_subst : subst R;
  st_quad : option quad_state;
  st_rest : list (qpat R)
}.

(** [Matching::new] — layouts/src/matching.rs 62-71. The stack; its top is the
    head of the list. *)
Definition matching_new (s : subst R) (patterns : list (qpat R)) : list state :=
  [State s None patterns].

(** One turn of the loop of [next]. *)
Inductive turn : Type :=
| Continue (stack : list state)
| Break (item : option (subst R)) (stack : list state)
| Panicked (where_ : string).

(** Body of the loop of [Iterator::next] — layouts/src/matching.rs 108-144.
    [quad_matching_pattern] (149-156) converts the representation of the pattern only. *)
Definition step (stack : list state) : turn :=
  match stack with
  | [] => Break None []
  | State s (Some (QuadState p ms)) rest :: below =>
      match ms with
      | m :: ms' =>
          let here := State s (Some (QuadState p ms')) rest in
          match with_quad s p m with
          | Ok (Some s') => Continue (State s' None rest :: here :: below)
          | Ok None => Continue (here :: below)
          | Panic w => Panicked w
          | _ => Panicked "unreachable"
          end
      | [] => Continue below
      end
  | State s None rest :: below =>
      match rest with
      | p :: rest' => Continue (State s (Some (QuadState p (D p))) rest' :: below)
      | [] => Break (Some s) below
      end
  end.

(** [Iterator::next] — layouts/src/matching.rs 106-146. The loop takes fuel. *)
Fixpoint next (fuel : nat) (stack : list state)
  : outcome match_error (option (subst R) * list state) :=
  match fuel with
  | 0 => OutOfFuel
  | S fuel' =>
      match step stack with
      | Continue stack' => next fuel' stack'
      | Break i stack' => Ok (i, stack')
      | Panicked w => Panic w
      end
  end.

(** [Matching::into_unique] — layouts/src/matching.rs 80-91. *)
Definition into_unique (fuel : nat) (stack : list state)
  : outcome match_error (option (subst R)) :=
  let* r := next fuel stack in
  match r with
  | (Some s, stack') =>
      let* r' := next fuel stack' in
      match r' with
      | (Some _, _) => Err Ambiguity
      | (None, _) => Ok (Some s)
      end
  | (None, _) => Ok None
  end.

(** [Matching::into_required_unique] — layouts/src/matching.rs 93-95. *)
Definition into_required_unique (fuel : nat) (stack : list state)
  : outcome match_error (subst R) :=
  let* o := into_unique fuel stack in ok_or Empty o.

(** Collecting the iterator ([for s in matching]): one fuel for all the loop turns. *)
Fixpoint collect (fuel : nat) (stack : list state) : outcome match_error (list (subst R)) :=
  match fuel with
  | 0 => OutOfFuel
  | S fuel' =>
      match step stack with
      | Continue stack' => collect fuel' stack'
      | Break (Some s) stack' => let* l := collect fuel' stack' in Ok (s :: l)
      | Break None _ => Ok []
      | Panicked w => Panic w
      end
  end.

End Matching.
Arguments dataset R : clear implicits.
Arguments state R : clear implicits.
Arguments quad_state R : clear implicits.
Arguments turn R : clear implicits.

Section Stream.
Context {R : Type} {CR : Cmp R}.

(** Fuel-free presentation of the same iterator, used by the models of hydration.  The stack
    machine above is proved to refine it (MatchingProofs.v, [collect_stream],
    [into_unique_stream]).  Items are produced lazily, an item is a substitution or a panic. *)
Definition item (R : Type) : Type := (string + subst R)%type.

Fixpoint stream (D : dataset R) (ps : list (qpat R)) (s : subst R) : list (item R) :=
  match ps with
  | [] => [inr s]
  | p :: ps' =>
      flat_map
        (fun m =>
           match with_quad s p m with
           | Ok (Some s') => stream D ps' s'
           | Ok None => []
           | Panic w => [inl w]
           | _ => [inl "unreachable"%string]
           end) (D p)
  end.

(** [into_unique] on the stream — layouts/src/matching.rs 80-91. *)
Definition stream_unique (l : list (item R)) : outcome match_error (option (subst R)) :=
  match l with
  | [] => Ok None
  | inl w :: _ => Panic w
  | [inr s] => Ok (Some s)
  | inr _ :: inl w :: _ => Panic w
  | inr _ :: inr _ :: _ => Err Ambiguity
  end.

(** [into_required_unique] on the stream — layouts/src/matching.rs 93-95. *)
Definition stream_required_unique (l : list (item R))
  : outcome match_error (subst R) :=
  let* o := stream_unique l in ok_or Empty o.

(** [QuadsWithDefaultGraph] — layouts/src/utils/mod.rs 37-62. *)
Definition with_default_graph (g : option R) (ps : list (qpat R)) : list (qpat R) :=
  map (fun p => Quad (q_s p) (q_p p) (q_o p)
                  (match q_g p with
                   | Some g' => Some g'
                   | None => option_map PRes g
                   end)) ps.

End Stream.
