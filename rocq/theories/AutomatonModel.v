(** * Automata ([layouts/src/utils/automaton.rs])

    Modelled: [Automaton] (construction, [determinize], [product]) and [DetAutomaton] ([map], [try_map],
    [product], [states], [select_states], [reachable_states_from], [minimize], [compress], serialization of the transitions).
    Not modelled: the accessors ([final_states], [transitions]...), [partition]/[try_partition] (same traversal as [select_states]).
    States are ordered values; a [BTreeSet] is a strictly sorted list, a [BTreeMap] a strictly sorted association
    list. *)

From Coq Require Import String List Bool NArith.
Import ListNotations.
From Verif Require Import Base BaseProofs Orders CharModel.
Open Scope list_scope.

(** ** The loop "pop, skip if visited, visit, push successors"

    It appears in [modulo_epsilon_state] (84-102), [determinize] (166-180), [product] (213-256, 608-627) and
    [ReachableStates::next] (823-841).  [key] is what [visited] remembers, [visit] returns the items pushed (in this
    order) and a result.  The results are returned in the order of the visit. *)
Section Explore.
Context {E A K B : Type} {CK : Cmp K}.
Variable key : A -> K.
Variable visit : A -> outcome E (list A * B).

Fixpoint explore (fuel : nat) (stack : list A) (visited : list (K * B)) : outcome E (list (K * B)) :=
  match fuel with
  | 0 => OutOfFuel
  | S fuel' =>
      match stack with
      | [] => Ok visited
      | a :: stack' =>
          match bt_get (key a) visited with
          | Some _ => explore fuel' stack' visited
          | None =>
              let* (pushed, b) := visit a in
              explore fuel' (rev pushed ++ stack') (visited ++ [(key a, b)])
          end
      end
  end.
End Explore.

Definition set_collect {A} `{Cmp A} (l : list A) : list A := fold_left (fun s a => set_insert a s) l [].

(** [BTreeSet::extend] *)
Definition set_extend {A} `{Cmp A} (s l : list A) : list A := fold_left (fun s a => set_insert a s) l s.

(** No error: only panics and fuel. *)
Definition res (A : Type) : Type := outcome Empty_set A.

(** ** Non deterministic automata *)

(** [Transitions] — layouts/src/utils/automaton.rs 11. *)
Definition transitions (Q : Type) : Type := list (option charset * list Q).

(** [Automaton] — layouts/src/utils/automaton.rs 14-18. *)
Record nfa (Q : Type) : Type := Nfa {
  n_transitions : list (Q * transitions Q);
  n_initial : list Q;
  n_final : list Q
}.
Arguments Nfa {Q}.
Arguments n_transitions {Q} n.
Arguments n_initial {Q} n.
Arguments n_final {Q} n.

(** [DetAutomaton] — layouts/src/utils/automaton.rs 268-272. *)
Record dfa (Q L : Type) : Type := Dfa {
  d_initial : Q;
  d_final : list Q;
  d_transitions : list (Q * list (L * Q))
}.
Arguments Dfa {Q L}.
Arguments d_initial {Q L} d.
Arguments d_final {Q L} d.
Arguments d_transitions {Q L} d.

(** [entry(k).or_default()] *)
Definition entry {K V} `{Cmp K} (k : K) (default : V) (m : list (K * V)) : V :=
  match bt_get k m with Some v => v | None => default end.

Section Nfa.
Context {Q : Type} {CQ : Cmp Q}.

(** [Automaton::new] — layouts/src/utils/automaton.rs 20-33. *)
Definition nfa_new : nfa Q := Nfa [] [] [].

(** [Automaton::declare_state] — layouts/src/utils/automaton.rs 60-62. *)
Definition declare_state (q : Q) (a : nfa Q) : nfa Q :=
  Nfa (bt_insert q (entry q [] (n_transitions a)) (n_transitions a)) (n_initial a) (n_final a).

(** [Automaton::add] — layouts/src/utils/automaton.rs 47-58. *)
Definition nfa_add (source : Q) (label : option charset) (target : Q) (a : nfa Q) : nfa Q :=
  let a := declare_state target a in
  let ts := entry source [] (n_transitions a) in
  let ts := bt_insert label (set_insert target (entry label [] ts)) ts in
  Nfa (bt_insert source ts (n_transitions a)) (n_initial a) (n_final a).

(** [Automaton::add_initial_state] — layouts/src/utils/automaton.rs 68-70. *)
Definition add_initial_state (q : Q) (a : nfa Q) : nfa Q :=
  Nfa (n_transitions a) (set_insert q (n_initial a)) (n_final a).

(** [Automaton::add_final_state] — layouts/src/utils/automaton.rs 80-82. *)
Definition add_final_state (q : Q) (a : nfa Q) : nfa Q :=
  Nfa (n_transitions a) (n_initial a) (set_insert q (n_final a)).

(** [Automaton::successors] — layouts/src/utils/automaton.rs 42-45, 761-779. *)
Definition successors (a : nfa Q) (q : Q) : transitions Q := entry q [] (n_transitions a).

(** The states pushed for [q] in [modulo_epsilon_state] — layouts/src/utils/automaton.rs 91-97. *)
Definition epsilon_successors (a : nfa Q) (q : Q) : list Q :=
  match bt_get q (n_transitions a) with
  | Some ts => match bt_get None ts with Some qs => qs | None => [] end
  | None => []
  end.

(** [modulo_epsilon_state] — layouts/src/utils/automaton.rs 84-102. *)
Definition modulo_epsilon_state (fuel : nat) (a : nfa Q) (qs : list Q) : res (list Q) :=
  let* visited := explore (fun q => q) (fun q => Ok (epsilon_successors a q, tt)) fuel (rev qs) [] in
  Ok (set_collect (map fst visited)).

(** The union of the closures of [targets] with the current states —
    layouts/src/utils/automaton.rs 119-136. *)
Fixpoint extend_closures (fuel : nat) (a : nfa Q) (current targets : list Q) : res (list Q) :=
  match targets with
  | [] => Ok current
  | q :: targets' =>
      let* c := modulo_epsilon_state fuel a [q] in
      extend_closures fuel a (set_extend current c) targets'
  end.

(** The ranges of one label — layouts/src/utils/automaton.rs 113-139.  The closures of the targets do not depend on
    the current states: they are computed before the [update] (rather than in its closure). *)
Fixpoint determinize_label (fuel : nat) (a : nfa Q) (ranges : charset) (targets : list Q)
  (m : range_map (list Q)) : res (range_map (list Q)) :=
  match ranges with
  | [] => Ok m
  | r :: ranges' =>
      let* new := extend_closures fuel a [] targets in
      if (snd r <? fst r)%N then Panic "determinize_transitions_for: range.first().unwrap()"
      else
        determinize_label fuel a ranges' targets
          (rm_update (fst r) (snd r)
             (fun o => set_extend (match o with Some s => s | None => [] end) new) m)
  end.

(** The labels of a state — layouts/src/utils/automaton.rs 111-142. *)
Fixpoint determinize_labels (fuel : nat) (a : nfa Q) (ts : transitions Q) (m : range_map (list Q))
  : res (range_map (list Q)) :=
  match ts with
  | [] => Ok m
  | (None, _) :: ts' => determinize_labels fuel a ts' m
  | (Some label, targets) :: ts' =>
      let* m := determinize_label fuel a label targets m in
      determinize_labels fuel a ts' m
  end.

(** The loop on the states — layouts/src/utils/automaton.rs 110-143. *)
Fixpoint determinize_states (fuel : nat) (a : nfa Q) (states : list Q) (m : range_map (list Q))
  : res (range_map (list Q)) :=
  match states with
  | [] => Ok m
  | q :: states' =>
      let* m := match bt_get q (n_transitions a) with
                | Some ts => determinize_labels fuel a ts m
                | None => Ok m
                end in
      determinize_states fuel a states' m
  end.

(** [determinize_transitions_for] — layouts/src/utils/automaton.rs 104-152. *)
Definition determinize_transitions_for (fuel : nat) (a : nfa Q) (states : list Q)
  : res (list ((N * N) * list Q)) :=
  let* m := determinize_states fuel a states [] in
  Ok (bt_collect m).

(** [determinize] — layouts/src/utils/automaton.rs 154-187. *)
Definition determinize (fuel : nat) (a : nfa Q) : res (dfa (list Q) (N * N)) :=
  let* initial := modulo_epsilon_state fuel a (n_initial a) in
  let* visited := explore (fun s => s)
                    (fun s =>
                       let* m := determinize_transitions_for fuel a s in
                       Ok (map snd m, (existsb (fun q => mem q (n_final a)) s, m)))
                    fuel [initial] [] in
  Ok (Dfa initial
        (set_collect (map fst (filter (fun x => fst (snd x)) visited)))
        (bt_collect (map (fun x => (fst x, snd (snd x))) visited))).

End Nfa.

(** ** Product of non deterministic automata *)
Section NfaProduct.
Context {Q R S : Type} {CQ : Cmp Q} {CR : Cmp R} {CS : Cmp S}.
Variable a : nfa Q.
Variable b : nfa R.
Variable f : Q -> R -> S.

(** The pairs of targets — layouts/src/utils/automaton.rs 226-232, 243-249. *)
Definition target_pairs (qs : list Q) (rs : list R) : list (S * (Q * R)) :=
  flat_map (fun q => map (fun r => (f q r, (q, r))) rs) qs.

(** The transitions out of a pair of states: label, targets — layouts/src/utils/automaton.rs
    217-253. *)
Definition product_transitions (q : Q) (r : R) : list (option charset * list (S * (Q * R))) :=
  flat_map
    (fun ta : option charset * list Q =>
       match ta with
       | (Some la, qs) =>
           flat_map
             (fun tb : option charset * list R =>
                match tb with
                | (Some lb, rs) =>
                    let l := charset_intersection la lb in
                    if cs_is_empty l then [] else [(Some l, target_pairs qs rs)]
                | (None, _) => []
                end) (successors b r)
       | (None, qs) =>
           match bt_get None (entry r [] (n_transitions b)) with
           | Some rs => [(None, target_pairs qs rs)]
           | None => []
           end
       end) (successors a q).

(** [transitions.entry(label).or_default()] then insertion of the targets. *)
Definition add_targets (ts : transitions S) (x : option charset * list (S * (Q * R))) : transitions S :=
  bt_insert (fst x) (set_extend (entry (fst x) [] ts) (map fst (snd x))) ts.

(** [Automaton::product] — layouts/src/utils/automaton.rs 189-260.  [f] is a function (the code
    takes a [FnMut]). *)
Definition nfa_product (fuel : nat) : res (nfa S) :=
  let initial := target_pairs (n_initial a) (n_initial b) in
  let* visited := explore fst
                    (fun x : S * (Q * R) =>
                       let '(_, (q, r)) := x in
                       let ts := product_transitions q r in
                       Ok (flat_map snd ts,
                           (mem q (n_final a) && mem r (n_final b), fold_left add_targets ts [])))
                    fuel (rev initial) [] in
  Ok (Nfa (bt_collect (map (fun x => (fst x, snd (snd x))) visited))
        (set_collect (map fst initial))
        (set_collect (map fst (filter (fun x => fst (snd x)) visited)))).
End NfaProduct.

(** ** Deterministic automata *)
Section Dfa.
Context {Q L : Type} {CQ : Cmp Q} {CL : Cmp L}.

(** [DetAutomaton::new] — layouts/src/utils/automaton.rs 275-281. *)
Definition dfa_new (initial : Q) : dfa Q L := Dfa initial [] [].

(** [DetAutomaton::declare_state] — layouts/src/utils/automaton.rs 328-330. *)
Definition dfa_declare_state (q : Q) (d : dfa Q L) : dfa Q L :=
  Dfa (d_initial d) (d_final d) (bt_insert q (entry q [] (d_transitions d)) (d_transitions d)).

(** [DetAutomaton::add_final_state] — layouts/src/utils/automaton.rs 324-326. *)
Definition dfa_add_final_state (q : Q) (d : dfa Q L) : dfa Q L :=
  Dfa (d_initial d) (set_insert q (d_final d)) (d_transitions d).

(** [DetAutomaton::add] — layouts/src/utils/automaton.rs 340-346. *)
Definition dfa_add (source : Q) (label : L) (target : Q) (d : dfa Q L) : dfa Q L :=
  Dfa (d_initial d) (d_final d)
    (bt_insert source (bt_insert label target (entry source [] (d_transitions d))) (d_transitions d)).

(** [DetAutomaton::successors] — layouts/src/utils/automaton.rs 336-338, 781-799. *)
Definition dfa_successors (d : dfa Q L) (q : Q) : list (L * Q) := entry q [] (d_transitions d).

End Dfa.

Section DfaTraversal.
Context {Q L : Type} {CQ : Cmp Q} {CL : Cmp L}.

(** [select_states_from] — layouts/src/utils/automaton.rs 367-386: a recursive function on the
    same state [visited] and [set]. *)
Fixpoint select_states_from (fuel : nat) (d : dfa Q L) (f : Q -> bool) (q : Q)
  (st : list Q * list Q) : res (list Q * list Q) :=
  match fuel with
  | 0 => OutOfFuel
  | S fuel' =>
      let (visited, set) := st in
      if mem q visited then Ok st
      else
        (fix go (ts : list (L * Q)) (st : list Q * list Q) : res (list Q * list Q) :=
           match ts with
           | [] => Ok st
           | (_, r) :: ts' => let* st := select_states_from fuel' d f r st in go ts' st
           end) (dfa_successors d q)
          (q :: visited, if f q then set_insert q set else set)
  end.

(** [select_states] — layouts/src/utils/automaton.rs 349-358. *)
Definition select_states (fuel : nat) (d : dfa Q L) (f : Q -> bool) : res (list Q) :=
  let* st := select_states_from fuel d f (d_initial d) ([], []) in Ok (snd st).

(** [states] — layouts/src/utils/automaton.rs 360-365. *)
Definition states (fuel : nat) (d : dfa Q L) : res (list Q) := select_states fuel d (fun _ => true).

(** The states enumerated by [reachable_states_from] — layouts/src/utils/automaton.rs 307-309,
    801-841. *)
Definition reachable_states_from (fuel : nat) (d : dfa Q L) (q : Q) : res (list Q) :=
  let* visited := explore (fun q => q)
                    (fun q => Ok (map snd (entry q [] (d_transitions d)), tt)) fuel [q] [] in
  Ok (map fst visited).

(** *** [map] and [try_map]

    The functions are [FnMut]: they have a state [St].  Each is called at most once per state or label, thanks
    to the maps that memoise them. *)
Section Map.
Context {P M St St' E : Type} {CP : Cmp P} {CM : Cmp M}.

(** [map.entry(q).or_insert_with(|| f(q)).clone()], or the [match] of [try_map] (562-570). *)
Definition memo {K V T} `{Cmp K} (f : K -> T -> outcome E (V * T)) (k : K) (st : list (K * V) * T)
  : outcome E (V * (list (K * V) * T)) :=
  match bt_get k (fst st) with
  | Some v => Ok (v, st)
  | None => let* (v, t) := f k (snd st) in Ok (v, (fst st ++ [(k, v)], t))
  end.

Variable f : Q -> St -> outcome E (P * St).
Variable g : L -> St' -> outcome E (M * St').

(** State of the loop: maps of the states and of the labels, result. *)
Definition map_state : Type := ((list (Q * P) * St) * (list (L * M) * St')) * dfa P M.

(** The transitions of one state — layouts/src/utils/automaton.rs 531-536, 561-580. *)
Fixpoint map_transitions (source : Q) (ts : list (L * Q)) (st : map_state) : outcome E map_state :=
  match ts with
  | [] => Ok st
  | (label, target) :: ts' =>
      let '((ms, ls), result) := st in
      let* (source', ms) := memo f source ms in
      let* (target', ms) := memo f target ms in
      let* (label', ls) := memo g label ls in
      map_transitions source ts' ((ms, ls), dfa_add source' label' target' result)
  end.

Fixpoint map_sources (l : list (Q * list (L * Q))) (st : map_state) : outcome E map_state :=
  match l with
  | [] => Ok st
  | (source, ts) :: l' => let* st := map_transitions source ts st in map_sources l' st
  end.

(** The final states — layouts/src/utils/automaton.rs 538-541 ([map] only). *)
Fixpoint map_finals (l : list Q) (ms : list (Q * P) * St) (result : dfa P M)
  : outcome E (dfa P M * (list (Q * P) * St)) :=
  match l with
  | [] => Ok (result, ms)
  | q :: l' =>
      let* (q', ms) := memo f q ms in
      map_finals l' ms (dfa_add_final_state q' result)
  end.

Definition map_start (d : dfa Q L) (s : St) (s' : St') : outcome E map_state :=
  let* (i, s) := f (d_initial d) s in
  Ok ((([(d_initial d, i)], s), ([], s')), Dfa i [] []).

(** [DetAutomaton::map] — layouts/src/utils/automaton.rs 511-544. *)
Definition dfa_map (d : dfa Q L) (s : St) (s' : St') : outcome E (dfa P M) :=
  let* st := map_start d s s' in
  let* st := map_sources (d_transitions d) st in
  let* (result, _) := map_finals (d_final d) (fst (fst st)) (snd st) in
  Ok result.

(** [DetAutomaton::try_map] — layouts/src/utils/automaton.rs 546-586. *)
Definition dfa_try_map (d : dfa Q L) (s : St) (s' : St') : outcome E (dfa P M) :=
  let* st := map_start d s s' in
  let* st := map_sources (d_transitions d) st in
  Ok (snd st).
End Map.

(** [single_transition_of] — layouts/src/utils/automaton.rs 636-644. *)
Definition single_transition_of (d : dfa Q L) (q : Q) : option (L * Q) :=
  match bt_get q (d_transitions d) with
  | Some [t] => Some t
  | _ => None
  end.

Section Compress.
Context {M : Type} {CM : Cmp M}.
Variable default : M.
Variable append : M -> L -> M.

(** The [while] loop — layouts/src/utils/automaton.rs 661-670. *)
Fixpoint compress_chain (fuel : nat) (d : dfa Q L) (compact : M) (r : Q) (ts : list (M * Q))
  : res (list (M * Q)) :=
  match fuel with
  | 0 => OutOfFuel
  | S fuel' =>
      match single_transition_of d r with
      | Some (label, s) =>
          let ts := if mem r (d_final d) then bt_insert compact r ts else ts in
          compress_chain fuel' d (append compact label) s ts
      | None => Ok (bt_insert compact r ts)
      end
  end.

(** The transitions of a state — layouts/src/utils/automaton.rs 655-673. *)
Fixpoint compress_transitions (fuel : nat) (d : dfa Q L) (l : list (L * Q)) (ts : list (M * Q))
  : res (list (M * Q)) :=
  match l with
  | [] => Ok ts
  | (label, r) :: l' =>
      let* ts := compress_chain fuel d (append default label) r ts in
      compress_transitions fuel d l' ts
  end.

(** [compress] — layouts/src/utils/automaton.rs 646-683: the stack starts with the initial state
    and nothing is ever pushed, so that its loop has a single turn. *)
Definition compress (fuel : nat) (d : dfa Q L) : res (dfa Q M) :=
  let* ts := compress_transitions fuel d (entry (d_initial d) [] (d_transitions d)) [] in
  Ok (Dfa (d_initial d) (d_final d) [(d_initial d, ts)]).
End Compress.

(** *** [minimize] *)

(** [BTreeSet::intersection], [difference]. *)
Definition set_inter (a b : list Q) : list Q := filter (fun q => mem q b) a.
Definition set_diff (a b : list Q) : list Q := filter (fun q => negb (mem q b)) a.
Definition set_remove {A} `{Cmp A} (x : A) (l : list A) : list A := filter (fun y => negb (eqb x y)) l.

(** [sources_by_label] — layouts/src/utils/automaton.rs 451-466 (the order of the labels of the
    [HashMap] is not specified). *)
Definition sources_by_label (d : dfa Q L) (a : list Q) : list (L * list Q) :=
  fold_left
    (fun m st =>
       fold_left
         (fun m (t : L * Q) =>
            if mem (snd t) a then bt_insert (fst t) (set_insert (fst st) (entry (fst t) [] m)) m else m)
         (snd st) m)
    (d_transitions d) [].

(** Splitting one block — layouts/src/utils/automaton.rs 470-491.  [(partition, working)]. *)
Definition split_block (sources : list Q) (pw : list (list Q) * list (list Q)) (y : list Q)
  : list (list Q) * list (list Q) :=
  let (partition, working) := pw in
  let i := set_inter y sources in
  let di := set_diff y sources in
  match i, di with
  | _ :: _, _ :: _ =>
      let working :=
        if mem y working then set_insert di (set_insert i (set_remove y working))
        else if Nat.leb (length i) (length di) then set_insert i working
        else set_insert di working in
      (set_insert di (set_insert i (set_remove y partition)), working)
  | _, _ => (partition, working)
  end.

(** One turn of the [while] loop — layouts/src/utils/automaton.rs 450-493. *)
Definition minimize_turn (d : dfa Q L) (a : list Q) (partition working : list (list Q))
  : list (list Q) * list (list Q) :=
  fold_left
    (fun pw ls => fold_left (split_block (snd ls)) (fst pw) pw)
    (sources_by_label d a) (partition, working).

Fixpoint minimize_loop (fuel : nat) (d : dfa Q L) (partition working : list (list Q))
  : res (list (list Q)) :=
  match fuel with
  | 0 => OutOfFuel
  | S fuel' =>
      match working with
      | [] => Ok partition
      | a :: working' =>
          let (partition, working) := minimize_turn d a partition working' in
          minimize_loop fuel' d partition working
      end
  end.

(** The block of a state ([map[q]]; the last one inserted if the partition is not one) —
    layouts/src/utils/automaton.rs 495-500. *)
Definition block_map (partition : list (list Q)) : list (Q * list Q) :=
  fold_left (fun m b => fold_left (fun m q => bt_insert q b m) b m) partition [].

Definition block_of (m : list (Q * list Q)) (q : Q) : res (list Q) :=
  unwrap "minimize: map[q]" (bt_get q m).

(** The transitions of the result — layouts/src/utils/automaton.rs 502-507. *)
Fixpoint minimize_transitions (m : list (Q * list Q)) (l : list (Q * (L * Q))) (result : dfa (list Q) L)
  : res (dfa (list Q) L) :=
  match l with
  | [] => Ok result
  | (source, (label, target)) :: l' =>
      let* s := block_of m source in
      let* t := block_of m target in
      minimize_transitions m l'
        (Dfa (d_initial result) (d_final result)
           (bt_insert s (bt_insert label t (entry s [] (d_transitions result))) (d_transitions result)))
  end.

(** All the transitions, source by source. *)
Definition triples (d : dfa Q L) : list (Q * (L * Q)) :=
  flat_map (fun st => map (fun t => (fst st, t)) (snd st)) (d_transitions d).

(** [minimize] — layouts/src/utils/automaton.rs 440-509. *)
Definition minimize (fuel : nat) (d : dfa Q L) (partition : list (list Q)) : res (dfa (list Q) L) :=
  let partition := set_collect partition in
  let* partition := minimize_loop fuel d partition partition in
  let m := block_map partition in
  let* i := block_of m (d_initial d) in
  minimize_transitions m (triples d) (Dfa i [] []).

(** *** Serialization of the transitions — layouts/src/utils/automaton.rs 699-759 *)

(** [Serialize]: the sequence of triples. *)
Definition serialize_transitions (d : dfa Q L) : list (Q * (L * Q)) := triples d.

(** [visit_seq]. *)
Definition deserialize_transitions (l : list (Q * (L * Q))) : list (Q * list (L * Q)) :=
  fold_left
    (fun m (t : Q * (L * Q)) =>
       bt_insert (fst t) (bt_insert (fst (snd t)) (snd (snd t)) (entry (fst t) [] m)) m) l [].

End DfaTraversal.

(** ** Product of deterministic automata *)
Section DfaProduct.
Context {Q R S L M N' : Type} {CQ : Cmp Q} {CR : Cmp R} {CS : Cmp S} {CN : Cmp N'}.
Variable a : dfa Q L.
Variable b : dfa R M.
Variable f : Q -> R -> S.
Variable g : L -> M -> option N'.

(** The transitions out of a pair of states — layouts/src/utils/automaton.rs 618-626. *)
Definition dfa_product_transitions (q : Q) (r : R) : list (N' * (S * (Q * R))) :=
  flat_map
    (fun ta : L * Q =>
       flat_map
         (fun tb : M * R =>
            match g (fst ta) (fst tb) with
            | Some l => [(l, (f (snd ta) (snd tb), (snd ta, snd tb)))]
            | None => []
            end) (dfa_successors b r)) (dfa_successors a q).

(** [DetAutomaton::product] — layouts/src/utils/automaton.rs 588-631.  [f] and [g] are functions
    (the code takes [FnMut]s). *)
Definition dfa_product (fuel : nat) : res (dfa S N') :=
  let initial := f (d_initial a) (d_initial b) in
  let* visited := explore fst
                    (fun x : S * (Q * R) =>
                       let '(_, (q, r)) := x in
                       let ts := dfa_product_transitions q r in
                       Ok (map snd ts,
                           (mem q (d_final a) && mem r (d_final b),
                            fold_left (fun m t => bt_insert (fst t) (fst (snd t)) m) ts [])))
                    fuel [(initial, (d_initial a, d_initial b))] [] in
  Ok (Dfa initial
        (set_collect (map fst (filter (fun x => fst (snd x)) visited)))
        (bt_collect (map (fun x => (fst x, snd (snd x))) visited))).
End DfaProduct.
