(** * Common vocabulary of the model

    Outcomes of Rust functions, comparison ([Ord]), [BTreeMap]s as strictly
    sorted association lists and sorting. *)

From Coq Require Import String List Bool Arith.
Import ListNotations.
Open Scope list_scope.

(** Result of a Rust function: [Ok], [Err], a panic ([unwrap] on [None],
    [todo!()], [unreachable!()], out of range index...) or the exhaustion of the fuel the
    model gives to a recursion/loop that has no structural bound. *)
Inductive outcome (E A : Type) : Type :=
| Ok (a : A)
| Err (e : E)
| Panic (where_ : string)
| OutOfFuel.
Arguments Ok {E A} a.
Arguments Err {E A} e.
Arguments Panic {E A} where_.
Arguments OutOfFuel {E A}.

(** The [?] operator. *)
Definition bind {E A B} (m : outcome E A) (k : A -> outcome E B) : outcome E B :=
  match m with
  | Ok a => k a
  | Err e => Err e
  | Panic p => Panic p
  | OutOfFuel => OutOfFuel
  end.

Notation "'let*' x ':=' m 'in' k" := (bind m (fun x => k))
  (at level 200, x pattern, m at level 100, k at level 200).

(** [Option::unwrap] and friends. *)
Definition unwrap {E A} (where_ : string) (o : option A) : outcome E A :=
  match o with Some a => Ok a | None => Panic where_ end.

Definition ok_or {E A} (e : E) (o : option A) : outcome E A :=
  match o with Some a => Ok a | None => Err e end.

(** Iterating a fallible function over a list ([for] loop with [?], or
    [map(..).collect::<Result<_, _>>()]). *)
Fixpoint mapM {E A B} (f : A -> outcome E B) (l : list A) : outcome E (list B) :=
  match l with
  | [] => Ok []
  | a :: l' => let* b := f a in let* bs := mapM f l' in Ok (b :: bs)
  end.

(** Rust's [Ord], operations only... *)
Class Cmp (A : Type) : Type := cmp : A -> A -> comparison.

(** ...and the laws Rust documents for it, with [Equal] meaning (derived) [==]. *)
Class CmpLaws (A : Type) {C : Cmp A} : Prop := {
  cmp_eq : forall a b : A, cmp a b = Eq <-> a = b;
  cmp_opp : forall a b : A, cmp b a = CompOpp (cmp a b);
  cmp_trans : forall a b c : A, cmp a b = Lt -> cmp b c = Lt -> cmp a c = Lt
}.

(** Rust's [==] *)
Definition eqb {A} `{Cmp A} (a b : A) : bool :=
  match cmp a b with Eq => true | _ => false end.

(** [BTreeMap::get] *)
Fixpoint bt_get {K V} `{Cmp K} (k : K) (m : list (K * V)) : option V :=
  match m with
  | [] => None
  | (k', v) :: m' => if eqb k k' then Some v else bt_get k m'
  end.

(** [BTreeMap::insert] (the map keeps the old key and replaces the value). *)
Fixpoint bt_insert {K V} `{Cmp K} (k : K) (v : V) (m : list (K * V)) : list (K * V) :=
  match m with
  | [] => [(k, v)]
  | (k', v') :: m' =>
      match cmp k k' with
      | Lt => (k, v) :: (k', v') :: m'
      | Eq => (k', v) :: m'
      | Gt => (k', v') :: bt_insert k v m'
      end
  end.

(** [iter.collect::<BTreeMap<_, _>>()]: successive insertions. *)
Definition bt_collect {K V} `{Cmp K} (l : list (K * V)) : list (K * V) :=
  fold_left (fun m kv => bt_insert (fst kv) (snd kv) m) l [].

(** [BTreeSet::insert] on a set represented as a strictly sorted list. *)
Fixpoint set_insert {A} `{Cmp A} (a : A) (l : list A) : list A :=
  match l with
  | [] => [a]
  | b :: l' =>
      match cmp a b with
      | Lt => a :: b :: l'
      | Eq => b :: l'
      | Gt => b :: set_insert a l'
      end
  end.

Fixpoint mem {A} `{Cmp A} (a : A) (l : list A) : bool :=
  match l with
  | [] => false
  | b :: l' => eqb a b || mem a l'
  end.

(** [slice::sort_unstable]: any sorting function, since [Equal] elements are
    equal; here insertion sort. *)
Fixpoint sort_insert {A} `{Cmp A} (a : A) (l : list A) : list A :=
  match l with
  | [] => [a]
  | b :: l' =>
      match cmp a b with
      | Gt => b :: sort_insert a l'
      | _ => a :: b :: l'
      end
  end.

Definition sort {A} `{Cmp A} (l : list A) : list A := fold_right sort_insert [] l.

(** [Vec::dedup]: removes consecutive duplicates. *)
Fixpoint dedup {A} `{Cmp A} (l : list A) : list A :=
  match l with
  | [] => []
  | a :: l' =>
      match l' with
      | [] => [a]
      | b :: _ => if eqb a b then dedup l' else a :: dedup l'
      end
  end.
