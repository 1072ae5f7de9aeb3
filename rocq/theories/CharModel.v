(** * Character sets and range maps ([btree_range_map], external crate)

    A character is its code point.  [RangeSet<char>] is a sorted list of disjoint, non adjacent inclusive ranges;
    [RangeMap<char, V>] is a sorted list of disjoint ranges with a value.  Only the operations used by
    [layouts/src/abs/regexp.rs] and [layouts/src/utils/automaton.rs] are modelled, from their
    documentation. *)

From Coq Require Import List Bool NArith.
Import ListNotations.
From Verif Require Import Base BaseProofs Orders.
Local Open Scope N_scope.
Open Scope list_scope.

(** [char::MAX]. *)
Definition max_char : N := 1114111.

(** Unicode scalar values, the inhabitants of [char]. *)
Definition is_char (c : N) : bool := (c <=? 55295) || ((57344 <=? c) && (c <=? max_char)).

(** Successor and predecessor of a [char], skipping the surrogates. *)
Definition next_char (c : N) : N := if c =? 55295 then 57344 else c + 1.
Definition prev_char (c : N) : N := if c =? 57344 then 55295 else c - 1.

(** [RangeSet<char>]. *)
Definition charset : Type := list (N * N).

(** [AnyRange::contains]. *)
Definition in_range (r : N * N) (c : N) : bool := (fst r <=? c) && (c <=? snd r).

(** [RangeSet::contains]. *)
Definition cs_mem (c : N) (s : charset) : bool := existsb (fun r => in_range r c) s.

(** [RangeSet::insert] of a range (nothing if the range is empty). *)
Fixpoint cs_insert' (lo hi : N) (s : charset) : charset :=
  match s with
  | [] => [(lo, hi)]
  | (a, b) :: s' =>
      if next_char hi <? a then (lo, hi) :: (a, b) :: s'
      else if next_char b <? lo then (a, b) :: cs_insert' lo hi s'
      else cs_insert' (N.min a lo) (N.max b hi) s'
  end.
Definition cs_insert (r : N * N) (s : charset) : charset :=
  if snd r <? fst r then s else cs_insert' (fst r) (snd r) s.

(** [RangeSet::new] then [insert(c)] *)
Definition cs_char (c : N) : charset := cs_insert (c, c) [].

(** [RangeSet::remove]. *)
Fixpoint cs_remove (r : N * N) (s : charset) : charset :=
  match s with
  | [] => []
  | (a, b) :: s' =>
      if (snd r <? a) || (b <? fst r) then (a, b) :: cs_remove r s'
      else (if a <? fst r then [(a, prev_char (fst r))] else []) ++
           (if snd r <? b then [(next_char (snd r), b)] else []) ++
           cs_remove r s'
  end.

(** [RangeSet::gaps]: the maximal ranges outside of the set. *)
Fixpoint cs_gaps_from (start : N) (s : charset) : charset :=
  match s with
  | [] => if start <=? max_char then [(start, max_char)] else []
  | (a, b) :: s' =>
      (if start <? a then [(start, prev_char a)] else []) ++ cs_gaps_from (next_char b) s'
  end.
Definition cs_gaps (s : charset) : charset := cs_gaps_from 0 s.

(** [RangeSet::complement]. *)
Definition cs_complement (s : charset) : charset := cs_gaps s.

(** Number of characters of a range. *)
Definition range_len (r : N * N) : N :=
  if snd r <? fst r then 0
  else if (fst r <=? 55295) && (57344 <=? snd r) then snd r - fst r + 1 - 2048
  else snd r - fst r + 1.

(** [RangeSet::len]. *)
Definition cs_len (s : charset) : N := fold_right (fun r n => range_len r + n) 0 s.

(** [RangeSet::is_empty]. *)
Definition cs_is_empty (s : charset) : bool := match s with [] => true | _ => false end.

(** [charset_intersection] — layouts/src/utils/mod.rs 14-22. *)
Definition charset_intersection (a b : charset) : charset :=
  fold_left (fun s r => cs_remove r s) (cs_gaps b) a.

(** [RangeMap<char, V>]. *)
Definition range_map (V : Type) : Type := list ((N * N) * V).

(** [RangeMap::get]. *)
Fixpoint rm_get {V} (c : N) (m : range_map V) : option V :=
  match m with
  | [] => None
  | (r, v) :: m' => if in_range r c then Some v else rm_get c m'
  end.

(** [RangeMap::update(range, f)] with an [f] that always returns a value: every part of the range gets
    the image of its current value.  (The crate merges adjacent ranges with equal values, which
    is not modelled: only the granularity of the ranges changes.) *)
Fixpoint rm_update {V} (lo hi : N) (f : option V -> V) (m : range_map V) : range_map V :=
  match m with
  | [] => [((lo, hi), f None)]
  | ((a, b), v) :: m' =>
      if b <? lo then ((a, b), v) :: rm_update lo hi f m'
      else if hi <? a then ((lo, hi), f None) :: ((a, b), v) :: m'
      else
        (if a <? lo then [((a, lo - 1), v)]
         else if lo <? a then [((lo, a - 1), f None)] else []) ++
        ((N.max a lo, N.min b hi), f (Some v)) ::
        (if b <? hi then rm_update (b + 1) hi f m'
         else if hi <? b then ((hi + 1, b), v) :: m' else m')
  end.
