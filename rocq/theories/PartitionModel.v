(** * Partitions of the states of an automaton ([layouts/src/utils/automaton.rs])

    [DetAutomaton::partition] and [try_partition], which give the blocks that [minimize] starts from ([AutomatonModel.v]).  The [HashMap] of the
    result is a sorted list of entries: its order is not specified in the code, and no theorem depends on it. *)

From Coq Require Import String List Bool Arith.
Import ListNotations.
From Verif Require Import Base Orders AutomatonModel.
Open Scope list_scope.

Section Partition.
Context {Q L P E : Type} {CQ : Cmp Q} {CL : Cmp L} {CP : Cmp P}.

(** [partition.entry(p).or_default().insert(q)] — layouts/src/utils/automaton.rs 427. *)
Definition partition_insert (p : P) (q : Q) (partition : list (P * list Q)) : list (P * list Q) :=
  bt_insert p (set_insert q (entry p [] partition)) partition.

(** [try_partition_from] — layouts/src/utils/automaton.rs 412-435: a recursive function on the same state [visited] and [partition]; [f] returns
    a [Result]. *)
Fixpoint try_partition_from (fuel : nat) (d : dfa Q L) (f : Q -> E + P) (q : Q)
  (st : list Q * list (P * list Q)) : outcome E (list Q * list (P * list Q)) :=
  match fuel with
  | 0 => OutOfFuel
  | S fuel' =>
      let (visited, partition) := st in
      if mem q visited then Ok st
      else
        match f q with
        | inl e => Err e
        | inr p =>
            (fix go (ts : list (L * Q)) (st : list Q * list (P * list Q)) : outcome E (list Q * list (P * list Q)) :=
               match ts with
               | [] => Ok st
               | (_, r) :: ts' => let* st := try_partition_from fuel' d f r st in go ts' st
               end) (dfa_successors d q)
              (q :: visited, partition_insert p q partition)
        end
  end.

(** [try_partition] — layouts/src/utils/automaton.rs 400-410. *)
Definition try_partition (fuel : nat) (d : dfa Q L) (f : Q -> E + P) : outcome E (list (P * list Q)) :=
  let* st := try_partition_from fuel d f (d_initial d) ([], []) in Ok (snd st).
End Partition.

(** [partition] — layouts/src/utils/automaton.rs 388-398: [unwrap_unchecked] is undefined behaviour on an error, [Panic] here. *)
Definition partition {Q L P} {CQ : Cmp Q} {CP : Cmp P} (fuel : nat) (d : dfa Q L) (f : Q -> P) : res (list (P * list Q)) :=
  match try_partition (E := Empty_set) fuel d (fun q => inr (f q)) with
  | Ok m => Ok m
  | Err _ => Panic "unwrap_unchecked"
  | Panic w => Panic w
  | OutOfFuel => OutOfFuel
  end.

(** The iterator given to [minimize]: [HashMap::into_values]. *)
Definition blocks {P Q} (m : list (P * list Q)) : list (list Q) := map snd m.
