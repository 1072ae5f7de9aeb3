(** * Dehydration: tree to RDF ([layouts/src/distill/de/mod.rs], [de/data.rs])

    Everything in both files is modelled except [Error::map_ids] and the error [Display]s.
    The interpretation is a parameter of [dehydrate_with] ([interpretation]); the one built by
    [dehydrate] is [input_interpretation] below.  The mutable interpretation and output dataset are a
    state that survives errors (a sum catches the errors of its variants but keeps their effects).
    Vocabularies are trivial: IRIs and literals are represented by their lexical forms. *)

From Coq Require Import String List Bool Arith NArith QArith Qcanon.
From Coq Require Decimal DecimalString DecimalNat.
Import ListNotations.
From Verif Require Import Base BaseProofs Orders PatternModel ValueModel LayoutModel HydrateModel TermModel.
Open Scope list_scope.
Open Scope nat_scope.

(** [IriBuf::new(..).is_ok()] (external crate [iref]). *)
Class IriSyntax : Type := is_iri : string -> bool.

(** [Error] — layouts/src/distill/de/mod.rs 30-55. *)
Inductive de_error (Q : Type) : Type :=
| DIncompatibleLayout
| DInvalidInputCount (expected found : nat)
| DUndeclaredVariable (x : nat)
| DDataAmbiguity
| DTermAmbiguity (a b : term)
| DLayoutNotFound (ref : Q)
| DMissingRequiredKey (ref : Q) (key : value) (map : list (value * value)).
Arguments DIncompatibleLayout {Q}.
Arguments DInvalidInputCount {Q} expected found.
Arguments DUndeclaredVariable {Q} x.
Arguments DDataAmbiguity {Q}.
Arguments DTermAmbiguity {Q} a b.
Arguments DLayoutNotFound {Q} ref.
Arguments DMissingRequiredKey {Q} ref key map.

(** The traits [InterpretationMut], [ReverseIriInterpretationMut],
    [ReverseLiteralInterpretationMut] of [rdf_types] required by [dehydrate_with]
    (layouts/src/distill/de/mod.rs 518-527), and the conversion [Q: Into<I::Resource>].
    [S]: resources of the interpretation; [I]: its states. *)
Record interpretation (Q S I : Type) : Type := Interpretation {
  into : Q -> S;
  new_resource : I -> S * I;
  assign_iri : S -> string -> I -> I;
  assign_literal : S -> rdf_literal -> I -> I;
  iris_in : I -> S -> list string
}.
Arguments Interpretation {Q S I}.
Arguments into {Q S I} i.
Arguments new_resource {Q S I} i.
Arguments assign_iri {Q S I} i.
Arguments assign_literal {Q S I} i.
Arguments iris_in {Q S I} i.

(** ** [Environment] — layouts/src/distill/de/mod.rs 872-875 *)
Inductive env (S : Type) : Type :=
| Root (inputs : list S)
| Child (parent : env S) (intros : list S).
Arguments Root {S} inputs.
Arguments Child {S} parent intros.

(** [Environment::get] — layouts/src/distill/de/mod.rs 878-892. [inr j]: not found,
    [j] is the index relative to the end of the environment. *)
Fixpoint env_get {S} (e : env S) (i : nat) : S + nat :=
  match e with
  | Root inputs =>
      match nth_error inputs i with
      | Some r => inl r
      | None => inr (i - length inputs)
      end
  | Child parent intros =>
      match env_get parent i with
      | inl r => inl r
      | inr j =>
          match nth_error intros j with
          | Some r => inl r
          | None => inr (j - length intros)
          end
      end
  end.

(** [Environment::bind] — layouts/src/distill/de/mod.rs 895-897. *)
Definition env_bind {S} (e : env S) (rs : list S) : env S := Child e rs.

Section Dehydrate.
Context {Q S I : Type} {CS : Cmp S} {X : Xsd} {IS : IriSyntax}.
Variable ops : interpretation Q S I.
Variable reg : registry Q.

(** The mutable arguments: [rdf.interpretation] and [output]. *)
Record dstate : Type := DState {
  ds_interp : I;
  ds_output : list (quad S)
}.

Definition derr : Type := de_error Q.
(** A computation: outcome and final state. *)
Definition M (A : Type) : Type := dstate -> outcome derr A * dstate.

Definition ret {A} (a : A) : M A := fun st => (Ok a, st).
Definition raise {A} (e : derr) : M A := fun st => (Err e, st).
Definition panic {A} (w : string) : M A := fun st => (Panic w, st).
Definition diverge {A} : M A := fun st => (OutOfFuel, st).
Definition lift {A} (o : outcome derr A) : M A := fun st => (o, st).
Definition bindM {A B} (m : M A) (k : A -> M B) : M B := fun st =>
  match m st with
  | (Ok a, st') => k a st'
  | (Err e, st') => (Err e, st')
  | (Panic w, st') => (Panic w, st')
  | (OutOfFuel, st') => (OutOfFuel, st')
  end.

(** [.is_ok()] on the result of a computation (panics are not caught). *)
Definition is_ok {A} (m : M A) : M bool := fun st =>
  match m st with
  | (Ok _, st') => (Ok true, st')
  | (Err _, st') => (Ok false, st')
  | (Panic w, st') => (Panic w, st')
  | (OutOfFuel, st') => (OutOfFuel, st')
  end.

(** [rdf.interpretation.new_resource(rdf.vocabulary)]. *)
Definition new_resourceM : M S := fun st =>
  let (r, i) := new_resource ops (ds_interp st) in (Ok r, DState i (ds_output st)).

Definition assign_iriM (r : S) (iri : string) : M unit := fun st =>
  (Ok tt, DState (assign_iri ops r iri (ds_interp st)) (ds_output st)).

Definition assign_literalM (r : S) (l : rdf_literal) : M unit := fun st =>
  (Ok tt, DState (assign_literal ops r l (ds_interp st)) (ds_output st)).

(** [DatasetMut::insert] of a set of quads (order irrelevant). *)
Definition ds_insert (q : quad S) (d : list (quad S)) : list (quad S) :=
  if existsb (fun q' => eqb (q_s q) (q_s q') && eqb (q_p q) (q_p q') && eqb (q_o q) (q_o q') &&
                        match q_g q, q_g q' with
                        | None, None => true
                        | Some g, Some g' => eqb g g'
                        | _, _ => false
                        end) d
  then d else d ++ [q].

(** [output.insert(quad)] for all the quads of a list. *)
Definition emit (qs : list (quad S)) : M unit := fun st =>
  (Ok tt, DState (ds_interp st) (fold_left (fun d q => ds_insert q d) qs (ds_output st))).

(** [Environment::intro] — layouts/src/distill/de/mod.rs 900-910. *)
Fixpoint new_resources (count : nat) : M (list S) :=
  match count with
  | 0 => ret []
  | Datatypes.S count' =>
      bindM new_resourceM (fun r => bindM (new_resources count') (fun rs => ret (r :: rs)))
  end.
Definition env_intro (e : env S) (count : nat) : M (env S) :=
  bindM (new_resources count) (fun rs => ret (Child e rs)).

(** [Environment::instantiate_pattern] — layouts/src/distill/de/mod.rs 914-925. *)
Definition instantiate_pattern (e : env S) (p : pattern Q) : outcome derr S :=
  match p with
  | PVar x => match env_get e x with inl r => Ok r | inr _ => Err (DUndeclaredVariable x) end
  | PRes r => Ok (into ops r)
  end.

(** [Environment::instantiate_patterns] — layouts/src/distill/de/mod.rs 927-938. *)
Definition instantiate_patterns (e : env S) (ps : list (pattern Q)) : outcome derr (list S) :=
  mapM (instantiate_pattern e) ps.

(** [Environment::instantiate_quad] — layouts/src/distill/de/mod.rs 940-953. *)
Definition instantiate_quad (e : env S) (q : qpat Q) : outcome derr (quad S) :=
  let* s := instantiate_pattern e (q_s q) in
  let* p := instantiate_pattern e (q_p q) in
  let* o := instantiate_pattern e (q_o q) in
  match q_g q with
  | None => Ok (Quad s p o None)
  | Some g => let* g := instantiate_pattern e g in Ok (Quad s p o (Some g))
  end.

(** [Environment::instantiate_dataset] — layouts/src/distill/de/mod.rs 955-969, inserting in the
    output. *)
Fixpoint instantiate_dataset (e : env S) (qs : list (qpat Q)) : M unit :=
  match qs with
  | [] => ret tt
  | q :: qs' =>
      bindM (lift (instantiate_quad e q)) (fun q =>
      bindM (emit [q]) (fun _ => instantiate_dataset e qs'))
  end.

(** The same, inserting in a fresh dataset ([variant_dataset], 675-678). *)
Definition instantiate_variant_dataset (e : env S) (qs : list (qpat Q)) : outcome derr (list (quad S)) :=
  let* l := mapM (instantiate_quad e) qs in Ok (fold_left (fun d q => ds_insert q d) l []).

(** [dehydrate_boolean] — layouts/src/distill/de/data.rs 11-32. *)
Definition dehydrate_boolean (v : bool) (type_ : S) : M rdf_literal := fun st =>
  if existsb (eqb xsd_boolean) (iris_in ops (ds_interp st) type_)
  then (Ok (RdfLiteral (if v then "true" else "false")%string (TypeAny xsd_boolean)), st)
  else (Panic "dehydrate_boolean: todo", st).

(** [dehydrate_number] — layouts/src/distill/de/data.rs 34-58. *)
Fixpoint number_literal (v : Qc) (iris : list string) : option rdf_literal :=
  match iris with
  | [] => None
  | i :: iris' =>
      if is_decimal_type i then
        match decimal_print v with
        | Some s => Some (RdfLiteral s (TypeAny i))
        | None => number_literal v iris'
        end
      else number_literal v iris'
  end.
Definition dehydrate_number (v : Qc) (type_ : S) : M rdf_literal := fun st =>
  (unwrap "dehydrate_number: todo" (number_literal v (iris_in ops (ds_interp st) type_)), st).

(** [dehydrate_byte_string] — layouts/src/distill/de/data.rs 60-71. *)
Definition dehydrate_byte_string (v : string) (type_ : S) : M rdf_literal :=
  panic "dehydrate_byte_string: todo".

(** [dehydrate_text_string] — layouts/src/distill/de/data.rs 73-90. *)
Definition dehydrate_text_string (v : string) (type_ : S) : M rdf_literal := fun st =>
  match iris_in ops (ds_interp st) type_ with
  | i :: _ => (Ok (RdfLiteral v (TypeAny i)), st)
  | [] => (Panic "dehydrate_text_string: todo", st)
  end.

(** The literal of a data layout on a matching value; [None]: [IncompatibleLayout] — the four
    pairs of layouts/src/distill/de/mod.rs 584-648. *)
Definition dehydrate_literal (k : data_kind) (v : literal) (type_ : S) : option (M rdf_literal) :=
  match k, v with
  | KBoolean, LBool b => Some (dehydrate_boolean b type_)
  | KNumber, LNum n => Some (dehydrate_number n type_)
  | KByteString, LBytes s => Some (dehydrate_byte_string s type_)
  | KTextString _, LText s => Some (dehydrate_text_string s type_)
  | _, _ => None
  end.

(** [env.intro(..)] then [instantiate_dataset(..)] — 578-579, 586-587, 600-601, 614-615, 631-632, 651-652, 670-671, 708-709, 714-715, 747-748, 751-752, 767-768,
    780-781, 800-801, 809-810 *)
Definition open (e : env S) (intro : nat) (dataset : list (qpat Q)) : M (env S) :=
  bindM (env_intro e intro) (fun e => bindM (instantiate_dataset e dataset) (fun _ => ret e)).

(** Recursive calls of [dehydrate_with_ref]: value, current graph, layout, inputs. *)
Variable rec : value -> option S -> Q -> list S -> M unit.

(** [dehydrate_sub_value] — layouts/src/distill/de/mod.rs 835-870. *)
Definition dehydrate_sub_value (v : value) (g : option S) (vf : vformat Q) (e : env S) : M unit :=
  bindM (lift (instantiate_patterns e (vf_input vf))) (fun inputs =>
  bindM (match vf_graph vf with
         | Some None => ret None
         | Some (Some p) => bindM (lift (instantiate_pattern e p)) (fun r => ret (Some r))
         | None => ret g
         end) (fun g' =>
  rec v g' (vf_layout vf) inputs)).

(** Loop of the sum — layouts/src/distill/de/mod.rs 673-693. *)
Fixpoint dehydrate_variants (v : value) (g : option S) (e : env S) (vs : list (variant Q))
  (selection : option (list (quad S))) : M (option (list (quad S))) :=
  match vs with
  | [] => ret selection
  | va :: vs' =>
      bindM (env_intro e (it_intro (va_item va))) (fun e' =>
      bindM (lift (instantiate_variant_dataset e' (it_dataset (va_item va)))) (fun d =>
      bindM (is_ok (dehydrate_sub_value v g (it_value (va_item va)) e')) (fun ok =>
      if ok
      then match selection with
           | Some _ => raise DDataAmbiguity
           | None => dehydrate_variants v g e vs' (Some d)
           end
      else dehydrate_variants v g e vs' selection)))
  end.

(** Loop on the entries of a record — layouts/src/distill/de/mod.rs 711-728. *)
Fixpoint dehydrate_entries (g : option S) (e : env S) (fields : list (value * field Q))
  (entries : list (value * value)) : M unit :=
  match entries with
  | [] => ret tt
  | (key, v) :: entries' =>
      match bt_get key fields with
      | Some f =>
          bindM (open e (it_intro (f_item f)) (it_dataset (f_item f))) (fun e' =>
          bindM (dehydrate_sub_value v g (it_value (f_item f)) e') (fun _ =>
          dehydrate_entries g e fields entries'))
      | None => raise DIncompatibleLayout
      end
  end.

(** Check of the required fields — layouts/src/distill/de/mod.rs 730-738. *)
Fixpoint check_required (ref : Q) (entries : list (value * value)) (fields : list (value * field Q))
  : M unit :=
  match fields with
  | [] => ret tt
  | (key, f) :: fields' =>
      if f_required f && match bt_get key entries with Some _ => false | None => true end
      then raise (DMissingRequiredKey ref key entries)
      else check_required ref entries fields'
  end.

(** Loop of the unordered list — layouts/src/distill/de/mod.rs 750-762. *)
Fixpoint dehydrate_items (g : option S) (e : env S) (it : item_layout Q) (l : list value) : M unit :=
  match l with
  | [] => ret tt
  | v :: l' =>
      bindM (open e (it_intro it) (it_dataset it)) (fun e' =>
      bindM (dehydrate_sub_value v g (it_value it) e') (fun _ =>
      dehydrate_items g e it l'))
  end.

(** Loop of the ordered list — layouts/src/distill/de/mod.rs 772-795; [i == value.len() - 1] is
    "no value remains". *)
Fixpoint dehydrate_nodes (g : option S) (e : env S) (node : item_layout Q) (tail : pattern Q)
  (head : S) (l : list value) : M unit :=
  match l with
  | [] => ret tt
  | v :: l' =>
      bindM (match l' with
             | [] => lift (instantiate_pattern e tail)
             | _ => new_resourceM
             end) (fun rest =>
      bindM (open (env_bind e [head; rest]) (it_intro node) (it_dataset node)) (fun e' =>
      bindM (dehydrate_sub_value v g (it_value node) e') (fun _ =>
      dehydrate_nodes g e node tail rest l')))
  end.

(** Loop of the sized list — layouts/src/distill/de/mod.rs 803-824. *)
Fixpoint dehydrate_tuple (g : option S) (e : env S) (items : list (item_layout Q)) (l : list value)
  : M unit :=
  match l, items with
  | v :: l', it :: items' =>
      bindM (open e (it_intro it) (it_dataset it)) (fun e' =>
      bindM (dehydrate_sub_value v g (it_value it) e') (fun _ =>
      dehydrate_tuple g e items' l'))
  | [], [] => ret tt
  | _, _ => raise DIncompatibleLayout
  end.

(** [dehydrate_with_ref] on the layout found — layouts/src/distill/de/mod.rs 571-833. *)
Definition dehydrate_layout (v : value) (g : option S) (ref : Q) (l : layout Q) (inputs : list S)
  : M unit :=
  let e := Root inputs in
  match l with
  | Never => raise DIncompatibleLayout
  | UnitL h const =>
      if eqb v const
      then bindM (open e (h_intro h) (h_dataset h)) (fun _ => ret tt)
      else raise DIncompatibleLayout
  | DataL k h resource datatype =>
      match v with
      | VLit v =>
          match dehydrate_literal k v (into ops datatype) with
          | Some m =>
              bindM (open e (h_intro h) (h_dataset h)) (fun e =>
              bindM (lift (instantiate_pattern e resource)) (fun r =>
              bindM m (fun literal => assign_literalM r literal)))
          | None => raise DIncompatibleLayout
          end
      | _ => raise DIncompatibleLayout
      end
  | IdL h resource _ =>
      match v with
      | VLit (LText s) =>
          bindM (open e (h_intro h) (h_dataset h)) (fun e =>
          bindM (lift (instantiate_pattern e resource)) (fun r =>
          if is_iri s then assign_iriM r s else raise DIncompatibleLayout))
      | _ => raise DIncompatibleLayout
      end
  | SumL h variants =>
      bindM (open e (h_intro h) (h_dataset h)) (fun e =>
      bindM (dehydrate_variants v g e variants None) (fun selection =>
      match selection with
      | Some d => emit d
      | None => raise DIncompatibleLayout
      end))
  | ProductL h fields =>
      match v with
      | VMap entries =>
          bindM (open e (h_intro h) (h_dataset h)) (fun e =>
          bindM (dehydrate_entries g e fields entries) (fun _ =>
          check_required ref entries fields))
      | _ => raise DIncompatibleLayout
      end
  | UnorderedL h it =>
      match v with
      | VList l =>
          bindM (open e (h_intro h) (h_dataset h)) (fun e => dehydrate_items g e it l)
      | _ => raise DIncompatibleLayout
      end
  | OrderedL h node head tail =>
      match v with
      | VList l =>
          bindM (open e (h_intro h) (h_dataset h)) (fun e =>
          bindM (lift (instantiate_pattern e head)) (fun hd =>
          dehydrate_nodes g e node tail hd l))
      | _ => raise DIncompatibleLayout
      end
  | SizedL h items =>
      match v with
      | VList l =>
          bindM (open e (h_intro h) (h_dataset h)) (fun e => dehydrate_tuple g e items l)
      | _ => raise DIncompatibleLayout
      end
  | Always => ret tt
  end.

(** [dehydrate_with_ref] — layouts/src/distill/de/mod.rs 541-571. *)
Definition dehydrate_body (v : value) (g : option S) (ref : Q) (inputs : list S) : M unit :=
  match reg ref with
  | None => raise (DLayoutNotFound ref)
  | Some l =>
      match input_count l with
      | Some expected =>
          if Nat.eqb expected (length inputs)
          then dehydrate_layout v g ref l inputs
          else raise (DInvalidInputCount expected (length inputs))
      | None => dehydrate_layout v g ref l inputs
      end
  end.

End Dehydrate.
Arguments dstate S I : clear implicits.
Arguments DState {S I} ds_interp ds_output.
Arguments ds_interp {S I} d.
Arguments ds_output {S I} d.

Section DehydrateRec.
Context {Q S I : Type} {CS : Cmp S} {X : Xsd} {IS : IriSyntax}.
Variable ops : interpretation Q S I.
Variable reg : registry Q.

(** [dehydrate_with_ref] (= [dehydrate_with], layouts/src/distill/de/mod.rs 509-539); the
    recursion takes fuel (a sum recurses on the same value). *)
Fixpoint dehydrate_with (fuel : nat) (v : value) (g : option S) (ref : Q) (inputs : list S)
  : M (Q := Q) (S := S) (I := I) unit :=
  match fuel with
  | 0 => diverge
  | Datatypes.S fuel' => dehydrate_body ops reg (dehydrate_with fuel') v g ref inputs
  end.
End DehydrateRec.

(** ** [dehydrate] *)

(** [InputResource] — layouts/src/distill/de/mod.rs 275-280. *)
Inductive res : Type :=
| RInput (i : nat)
| RAnon (i : nat)
| RTerm (t : term).

(** Derived [Ord for InputResource] — layouts/src/distill/de/mod.rs 275. *)
Definition res_key (r : res) : nat * (nat * term) :=
  match r with
  | RInput i => (0, (i, TmIri EmptyString))
  | RAnon i => (1, (i, TmIri EmptyString))
  | RTerm t => (2, (0, t))
  end.
Global Instance cmp_res : Cmp res := fun a b => cmp (res_key a) (res_key b).

(** [InputInterpretation] — layouts/src/distill/de/mod.rs 297-300. *)
Record input_interp : Type := InputInterp {
  ii_map : list (res * list term);
  ii_anonymous_count : nat
}.

(** [self.map.get(id)] *)
Fixpoint terms_of (r : res) (m : list (res * list term)) : list term :=
  match m with
  | [] => []
  | (r', ts) :: m' => if eqb r r' then ts else terms_of r m'
  end.

(** [self.map.entry(id).or_default().insert(term)] — 327-332, 348-353. *)
Fixpoint assign_term (r : res) (t : term) (m : list (res * list term)) : list (res * list term) :=
  match m with
  | [] => [(r, [t])]
  | (r', ts) :: m' =>
      if eqb r r' then (r', if mem t ts then ts else ts ++ [t]) :: m'
      else (r', ts) :: assign_term r t m'
  end.

(** [IrisOf] — layouts/src/distill/de/mod.rs 356-382: the term itself, then the terms
    assigned. *)
Definition iris_of_terms (ts : list term) : list string :=
  flat_map (fun t => match t with TmIri i => [i] | _ => [] end) ts.
Definition input_iris_of (i : input_interp) (r : res) : list string :=
  match r with RTerm t => iris_of_terms [t] | _ => [] end ++ iris_of_terms (terms_of r (ii_map i)).

(** The trait implementations of [InputInterpretation] — layouts/src/distill/de/mod.rs 291-354. *)
Definition input_interpretation : interpretation term res input_interp := {|
  into := RTerm;
  new_resource := fun i =>
    (RAnon (ii_anonymous_count i),
     InputInterp (ii_map i) (Datatypes.S (ii_anonymous_count i)));
  assign_iri := fun r s i => InputInterp (assign_term r (TmIri s) (ii_map i)) (ii_anonymous_count i);
  assign_literal := fun r l i => InputInterp (assign_term r (TmLit l) (ii_map i)) (ii_anonymous_count i);
  iris_in := input_iris_of
|}.

(** [Options] — layouts/src/distill/de/mod.rs 100-125.  [o_generator]: state of the generator and
    its [next]. *)
Record options (Gn : Type) : Type := Options {
  o_input_count : option nat;
  o_input_term : nat -> term;
  o_generator : Gn;
  o_next : Gn -> term * Gn
}.
Arguments Options {Gn}.
Arguments o_input_count {Gn} o.
Arguments o_input_term {Gn} o.
Arguments o_generator {Gn} o.
Arguments o_next {Gn} o.

Definition nat_string (n : nat) : string := DecimalString.NilZero.string_of_uint (Nat.to_uint n).

(** [Options::default] — layouts/src/distill/de/mod.rs 127-135 ([generator::Blank], external: the [n]-th identifier is [_:n]). *)
Definition default_options : options nat := {|
  o_input_count := None;
  o_input_term := fun i => TmBlank ("input" ++ nat_string i)%string;
  o_generator := 0;
  o_next := fun n => (TmBlank (nat_string n), Datatypes.S n)
|}.

Section Finish.
Context {Gn : Type}.

(** The ambiguity check — layouts/src/distill/de/mod.rs 445-470.  The iteration orders of the
    [HashMap] and [HashSet] (which only select the ambiguity reported) are the ones of the
    lists.  Returns the map from resources to terms. *)
Fixpoint check_terms (m : list (res * list term)) : outcome (de_error term) (list (res * term)) :=
  match m with
  | [] => Ok []
  | (RTerm t, ts) :: m' =>
      match find (fun u => negb (eqb t u)) ts with
      | Some u => Err (DTermAmbiguity t u)
      | None => check_terms m'
      end
  | (r, ts) :: m' =>
      match ts with
      | [] => check_terms m'
      | [t] => let* map := check_terms m' in Ok ((r, t) :: map)
      | t :: u :: _ => Err (DTermAmbiguity t u)
      end
  end.

(** [map_resource] — layouts/src/distill/de/mod.rs 472-488. *)
Fixpoint map_get (r : res) (m : list (res * term)) : option term :=
  match m with
  | [] => None
  | (r', t) :: m' => if eqb r r' then Some t else map_get r m'
  end.

Definition map_resource (opts : options Gn) (st : list (res * term) * Gn) (r : res)
  : term * (list (res * term) * Gn) :=
  match r with
  | RTerm t => (t, st)
  | RInput i =>
      match map_get r (fst st) with
      | Some t => (t, st)
      | None => let t := o_input_term opts i in (t, ((r, t) :: fst st, snd st))
      end
  | RAnon i =>
      match map_get r (fst st) with
      | Some t => (t, st)
      | None => let (t, gn) := o_next opts (snd st) in (t, ((r, t) :: fst st, gn))
      end
  end.

(** The closure on quads — layouts/src/distill/de/mod.rs 490-500. *)
Definition map_quad (opts : options Gn) (st : list (res * term) * Gn) (q : quad res)
  : quad term * (list (res * term) * Gn) :=
  let (s, st) := map_resource opts st (q_s q) in
  let (p, st) := map_resource opts st (q_p q) in
  let (o, st) := map_resource opts st (q_o q) in
  match q_g q with
  | None => (Quad s p o None, st)
  | Some g => let (g, st) := map_resource opts st g in (Quad s p o (Some g), st)
  end.

Fixpoint map_list {A B St} (f : St -> A -> B * St) (st : St) (l : list A) : list B * St :=
  match l with
  | [] => ([], st)
  | a :: l' => let (b, st) := f st a in let (bs, st) := map_list f st l' in (b :: bs, st)
  end.

Context {X : Xsd} {IS : IriSyntax}.

(** [dehydrate] — layouts/src/distill/de/mod.rs 269-507.  [order]: the iteration order of the
    [BTreeDataset] produced (490), any permutation.  The returned list of quads has no duplicates, as the
    set collected (500). *)
Definition dehydrate (order : list (quad res) -> list (quad res)) (reg : registry term) (fuel : nat)
  (v : value) (ref : term) (opts : options Gn)
  : outcome (de_error term) (list (quad term) * list term) :=
  let* l := ok_or (DLayoutNotFound ref) (reg ref) in
  let count := match input_count l with
               | Some n => n
               | None => match o_input_count opts with Some n => n | None => 1 end
               end in
  let inputs := map RInput (seq 0 count) in
  match dehydrate_with input_interpretation reg fuel v None ref inputs (DState (InputInterp [] 0) []) with
  | (Ok _, st) =>
      let* map := check_terms (ii_map (ds_interp st)) in
      let (dataset, ms) := map_list (map_quad opts) (map, o_generator opts) (order (ds_output st)) in
      let (values, _) := map_list (map_resource opts) ms inputs in
      Ok (fold_left (fun d q => ds_insert q d) dataset [], values)
  | (Err e, _) => Err e
  | (Panic w, _) => Panic w
  | (OutOfFuel, _) => OutOfFuel
  end.

End Finish.
