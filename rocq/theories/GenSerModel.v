(** * The code generated by the derive macro [SerializeLd]
      ([generators/rust/treeldr-rs-macros/src/generate/ser.rs], [generators/rust/treeldr-rs/src/ser])

    As in GenModel.v, what is modelled is the behaviour of the generated code.  Some layouts give code
    that rustc rejects, because [rdf] is borrowed twice or because a reference is missing: IRIs in the
    inputs of a part (generate/ser.rs 195-214 and alike), an IRI as the resource of a literal (483-494), the
    graph [Some(Some(_))] (183-186 and alike).  For these the model gives the intended effect.  The
    output is a set of quads, represented by the list of the insertions. *)

From Coq Require Import String List Bool Arith ZArith QArith Qcanon.
Import ListNotations.
From Verif Require Import Base Orders PatternModel ValueModel LayoutModel HydrateModel TermModel
  GenDataModel GenModel.
Open Scope list_scope.
Open Scope nat_scope.

(** [SerializeError] — generators/rust/treeldr-rs/src/ser/mod.rs 13-15. *)
Inductive ser_error : Type := SerInvalidId (id : string).

Section Ser.
Context {R I : Type} {RT : Runtime R I} {RS : Resolver R I}.
Variable types : program.

Definition sres (A : Type) : Type := outcome ser_error A.

(** The mutable arguments: [rdf.interpretation] and [output]. *)
Definition sstate : Type := (I * list (quad R))%type.

(** The loop of [Environment::intro] — ser/environment.rs 32-43. *)
Fixpoint ser_intro (count : nat) (i : I) : list R * I :=
  match count with
  | 0 => ([], i)
  | S n => let (r, i1) := rs_new i in
           let (rs, i2) := ser_intro n i1 in (r :: rs, i2)
  end.

(** [generate_pattern] — generate/ser.rs 540-569. *)
Definition ser_pattern (p : pattern string) (i : I) : pattern R * I :=
  match p with
  | PVar x => (PVar x, i)
  | PRes iri => let (r, i') := rs_interpret iri i in (PRes r, i')
  end.

(** [inputs_to_array] — generate/ser.rs 535-538. *)
Fixpoint ser_patterns (ps : list (pattern string)) (i : I) : list (pattern R) * I :=
  match ps with
  | [] => ([], i)
  | p :: ps' => let (p', i1) := ser_pattern p i in
                let (qs, i2) := ser_patterns ps' i1 in (p' :: qs, i2)
  end.

(** One element of [dataset_to_array] — generate/ser.rs 517-529. *)
Definition ser_quad (q : qpat string) (i : I) : qpat R * I :=
  let (s, i1) := ser_pattern (q_s q) i in
  let (p, i2) := ser_pattern (q_p q) i1 in
  let (o, i3) := ser_pattern (q_o q) i2 in
  match q_g q with
  | None => (Quad s p o None, i3)
  | Some g => let (g', i4) := ser_pattern g i3 in (Quad s p o (Some g'), i4)
  end.

(** [dataset_to_array] — generate/ser.rs 516-533. *)
Fixpoint ser_quads (qs : list (qpat string)) (i : I) : list (qpat R) * I :=
  match qs with
  | [] => ([], i)
  | q :: qs' => let (q', i1) := ser_quad q i in
                let (ps, i2) := ser_quads qs' i1 in (q' :: ps, i2)
  end.

(** [Environment::instantiate_pattern] — ser/environment.rs 47-55; [Environment::get] (10-24) is a
    look-up in the concatenation of the frames, outermost first. *)
Definition env_pattern (env : list R) (p : pattern R) : sres R :=
  match p with
  | PVar x => unwrap "Environment::get" (nth_error env x)
  | PRes r => Ok r
  end.

(** [Environment::instantiate_quad] — ser/environment.rs 70-83. *)
Definition env_quad (env : list R) (q : qpat R) : sres (quad R) :=
  let* s := env_pattern env (q_s q) in
  let* p := env_pattern env (q_p q) in
  let* o := env_pattern env (q_o q) in
  match q_g q with
  | None => Ok (Quad s p o None)
  | Some g => let* g := env_pattern env g in Ok (Quad s p o (Some g))
  end.

(** [let env = env.intro(rdf, #intro); env.instantiate_dataset(&#dataset, output);] —
    ser/environment.rs 85-92, generate/ser.rs passim. *)
Definition ser_scope (env : list R) (intro : nat) (ps : list (qpat string)) (st : sstate)
  : sres (list R * sstate) :=
  let (i, out) := st in
  let (rs, i1) := ser_intro intro i in
  let env' := env ++ rs in
  let (ps', i2) := ser_quads ps i1 in
  let* quads := mapM (env_quad env') ps' in
  Ok (env', (i2, out ++ quads)).

(** [self.0.to_string()] and [AsRef::<str>::as_ref(&self.0)] — generate/ser.rs 97-100, 115-118, 133-136,
    151-154. *)
Definition literal_text (inner : prim) (v : rvalue) : option string :=
  match inner, v with
  | PBool, RvBool true => Some "true"%string
  | PBool, RvBool false => Some "false"%string
  | PInt _, RvInt z => Some (integer_print z)
  | PText, RvText s => Some s
  | _, _ => None
  end.

(** [pattern_interpretation] — generate/ser.rs 483-494. *)
Definition ser_target (inputs : list R) (p : pattern string) (i : I) : sres (R * I) :=
  match p with
  | PVar x => let* r := unwrap "index out of bounds" (nth_error inputs x) in Ok (r, i)
  | PRes iri => Ok (rs_interpret iri i)
  end.

(** The calls to [SerializeLd::serialize_ld_with] on the parts: type, value, inputs, graph. *)
Variable rec : string -> rvalue -> list R -> option R -> sstate -> sres sstate.

(** [#field_graph] and alike — generate/ser.rs 182-189. *)
Definition ser_graph (env : list R) (g : option R) (graph : option (option (pattern string))) (i : I)
  : sres (option R * I) :=
  match graph with
  | None => Ok (g, i)
  | Some None => Ok (None, i)
  | Some (Some p) => let (p', i') := ser_pattern p i in
                     let* r := env_pattern env p' in Ok (Some r, i')
  end.

(** [<T as SerializeLd>::serialize_ld_with(value, rdf, &env.instantiate_patterns(..), graph, output)]. *)
Definition ser_format (env : list R) (g : option R) (vf : vformat string) (v : rvalue) (st : sstate)
  : sres sstate :=
  let (i, out) := st in
  let (ps, i1) := ser_patterns (vf_input vf) i in
  let* inputs := mapM (env_pattern env) ps in
  let* gi := ser_graph env g (vf_graph vf) i1 in
  rec (vf_layout vf) v inputs (fst gi) (snd gi, out).

(** A part: its variables, its quads, its value — generate/ser.rs 193-205, 253-263, 304-316, 403-416. *)
Definition ser_part (env : list R) (g : option R) (it : item_layout string) (v : rvalue) (st : sstate)
  : sres sstate :=
  let* es := ser_scope env (it_intro it) (it_dataset it) st in
  ser_format (fst es) g (it_value it) v (snd es).

(** [&self.#field_ident]. *)
Definition get_field (name : string) (fs : list (string * option rvalue)) : option (option rvalue) :=
  option_map snd (find (fun kv => eqb (fst kv) name) fs).

(** [#(#fields)*] — generate/ser.rs 166-229. *)
Fixpoint ser_fields (env : list R) (g : option R) (fields : list (value * field string))
  (fs : list (string * option rvalue)) (st : sstate) : sres sstate :=
  match fields with
  | [] => Ok st
  | (key, f) :: fields' =>
      let* name := unwrap "InvalidFieldIdent" (field_name key) in
      let* o := unwrap "not a program: no such field" (get_field name fs) in
      let* st' := match o with
                  | Some v => ser_part env g (f_item f) v st
                  | None => if f_required f then Panic "not a program: absent required field" else Ok st
                  end in
      ser_fields env g fields' fs st'
  end.

(** The loop of an unordered list — generate/ser.rs 304-317. *)
Fixpoint ser_items (env : list R) (g : option R) (it : item_layout string) (l : list rvalue) (st : sstate)
  : sres sstate :=
  match l with
  | [] => Ok st
  | v :: l' => let* st' := ser_part env g it v st in ser_items env g it l' st'
  end.

(** The loop of an ordered list — generate/ser.rs 351-374. *)
Fixpoint ser_nodes (env : list R) (g : option R) (node : item_layout string) (tail : pattern string)
  (l : list rvalue) (head : R) (st : sstate) : sres sstate :=
  match l with
  | [] => Ok st
  | v :: l' =>
      let (i, out) := st in
      let* ri := match l' with
                 | [] => let (p, i') := ser_pattern tail i in
                         let* r := env_pattern env p in Ok (r, i')
                 | _ => Ok (rs_new i)
                 end in
      let rest := fst ri in
      let* st' := ser_part (env ++ [head; rest]) g node v (snd ri, out) in
      ser_nodes env g node tail l' rest st'
  end.

(** [#(#items)*] — generate/ser.rs 383-418. *)
Fixpoint ser_tuple (env : list R) (g : option R) (items : list (item_layout string)) (l : list rvalue)
  (st : sstate) : sres sstate :=
  match items, l with
  | [], [] => Ok st
  | it :: items', v :: l' => let* st' := ser_part env g it v st in ser_tuple env g items' l' st'
  | _, _ => Panic "not a program: size of the tuple"
  end.

(** The body of [serialize_ld_with] — generate/ser.rs 49-434.  A value of another type is not a
    program. *)
Definition ser_layout (l : layout string) (inner : prim) (v : rvalue) (inputs : list R) (g : option R)
  (st : sstate) : sres sstate :=
  match l, v with
  | Never, _ | Always, _ => Panic "unreachable"
  | IdL h _ _, RvId id =>
      let* es := ser_scope inputs (h_intro h) (h_dataset h) st in
      let (i, out) := snd es in
      let* r := unwrap "index out of bounds" (nth_error inputs 0) in
      Ok (id_ser id i r, out)
  | UnitL h _, RvUnit =>
      let* es := ser_scope inputs (h_intro h) (h_dataset h) st in
      Ok (snd es)
  | DataL _ h resource datatype, _ =>
      let* es := ser_scope inputs (h_intro h) (h_dataset h) st in
      let (i, out) := snd es in
      let* text := unwrap "not a program: type of the value" (literal_text inner v) in
      let* ri := ser_target inputs resource i in
      Ok (rt_assign_literal (fst ri) (RdfLiteral text (TypeAny datatype)) (snd ri), out)
  | ProductL h fields, RvRecord fs =>
      let* es := ser_scope inputs (h_intro h) (h_dataset h) st in
      ser_fields (fst es) g fields fs (snd es)
  | SumL h variants, RvVariant k v' =>
      let* es := ser_scope inputs (h_intro h) (h_dataset h) st in
      let* va := unwrap "not a program: no such variant" (nth_error variants k) in
      ser_part (fst es) g (va_item va) v' (snd es)
  | UnorderedL h it, RvVec vs =>
      let* es := ser_scope inputs (h_intro h) (h_dataset h) st in
      ser_items (fst es) g it vs (snd es)
  | OrderedL h node head tail, RvVec vs =>
      let* es := ser_scope inputs (h_intro h) (h_dataset h) st in
      let (i, out) := snd es in
      let (p, i1) := ser_pattern head i in
      let* r := env_pattern (fst es) p in
      ser_nodes (fst es) g node tail vs r (i1, out)
  | SizedL h items, RvTuple vs =>
      let* es := ser_scope inputs (h_intro h) (h_dataset h) st in
      ser_tuple (fst es) g items vs (snd es)
  | _, _ => Panic "not a program: type of the value"
  end.

(** The implementations of the runtime, with [&inputs[0]] — datatypes.rs 23-41, 93-103, 147-157. *)
Definition ser_runtime (ty : rust_type) (v : rvalue) (r : R) (st : sstate) : sres sstate :=
  match ty, v with
  | TyId, RvId id => Ok (id_ser id (fst st) r, snd st)
  | TyText, RvText s => Ok (text_ser s (fst st) r, snd st)
  | TyInt ty, RvInt z => Ok (int_ser ty z (fst st) r, snd st)
  | _, _ => Panic "not a program: type of the value"
  end.

End Ser.

(** [SerializeLd::serialize_ld_with] of a type of the program.  The recursive calls take fuel. *)
Fixpoint serialize {R I : Type} {RT : Runtime R I} {RS : Resolver R I} (types : program) (fuel : nat)
  (ty : string) (v : rvalue) (inputs : list R) (g : option R) (st : I * list (quad R))
  : outcome ser_error (I * list (quad R)) :=
  match fuel with
  | 0 => OutOfFuel
  | S fuel' =>
      match types ty with
      | None => Panic "not a program: unknown type"
      | Some (TyDerived l inner) =>
          if match input_count l with Some n => Nat.eqb n (length inputs) | None => false end
          then ser_layout (serialize types fuel') l inner v inputs g st
          else Panic "not a program: number of inputs"
      | Some t =>
          match inputs with
          | [r] => ser_runtime t v r st
          | _ => Panic "not a program: number of inputs"
          end
      end
  end.
