(** * Regular expressions ([layouts/src/abs/regexp.rs])

    Everything is modelled except the serde and JSON wrappers, which call [parse] and [Display].
    A string is the list of its characters (code points).  [u32] counters are natural numbers, and [u32::MAX] as an upper
    bound ("no bound") is [None]. *)

From Coq Require Import String List Bool Arith NArith.
From Coq Require Decimal.
Import ListNotations.
From Verif Require Import Base BaseProofs Orders CharModel AutomatonModel.
Open Scope list_scope.

(** [RegExp] — layouts/src/abs/regexp.rs 23-43. *)
Inductive regexp : Type :=
| RAny
| RSet (s : charset)
| RSequence (l : list regexp)
| RRepeat (e : regexp) (min : nat) (max : option nat)
| RUnion (l : list regexp).

(** [RegExp::empty] — layouts/src/abs/regexp.rs 46-48. *)
Definition re_empty : regexp := RSequence [].

(** [RegExp::push] — layouts/src/abs/regexp.rs 54-69. *)
Definition re_push (this e : regexp) : regexp :=
  match this with
  | RSequence [] => e
  | RSequence seq => RSequence (seq ++ [e])
  | RUnion [] => e
  | item => RSequence [item; e]
  end.

(** [RegExp::repeat] — layouts/src/abs/regexp.rs 71-74. *)
Definition re_repeat (this : regexp) (min : nat) (max : option nat) : regexp := RRepeat this min max.

(** [RegExp::is_empty] — layouts/src/abs/regexp.rs 104-112. *)
Fixpoint re_is_empty (e : regexp) : bool :=
  match e with
  | RSet s => cs_is_empty s
  | RSequence l => forallb re_is_empty l
  | RUnion l => forallb re_is_empty l
  | RRepeat r min max =>
      re_is_empty r || (Nat.eqb min 0 && match max with Some 0 => true | _ => false end)
  | RAny => false
  end.

(** [RegExp::simplified] — layouts/src/abs/regexp.rs 76-102. *)
Fixpoint re_simplified (e : regexp) : regexp :=
  match e with
  | RAny => RAny
  | RSet s => RSet s
  | RSequence l => RSequence (flat_map (fun e => if re_is_empty e then [] else [re_simplified e]) l)
  | RUnion l =>
      match l with
      | [e] => re_simplified e
      | _ => RUnion (map re_simplified l)
      end
  | RRepeat e min max => RRepeat (re_simplified e) min max
  end.

(** [RegExp::is_simple] — layouts/src/abs/regexp.rs 114-116. *)
Definition re_is_simple (e : regexp) : bool :=
  match e with RAny | RSet _ | RSequence _ => true | _ => false end.

(** [RegExp::is_singleton] — layouts/src/abs/regexp.rs 119-127. *)
Fixpoint re_is_singleton (e : regexp) : bool :=
  match e with
  | RAny => false
  | RSet s => N.eqb (cs_len s) 1
  | RSequence l => forallb re_is_singleton l
  | RRepeat e min max => match max with Some m => Nat.eqb min m | None => false end && re_is_singleton e
  | RUnion l => match l with [e] => re_is_singleton e | _ => false end
  end.

(** [RegExp::build_singleton] — layouts/src/abs/regexp.rs 129-141. *)
Fixpoint re_build_singleton (e : regexp) (w : list N) : outcome Empty_set (list N) :=
  match e with
  | RAny => Panic "build_singleton: unreachable"
  | RSet s => match s with
              | r :: _ => if (snd r <? fst r)%N then Panic "build_singleton: first().unwrap()" else Ok (w ++ [fst r])
              | [] => Panic "build_singleton: next().unwrap()"
              end
  | RSequence l =>
      (fix go (l : list regexp) (w : list N) : outcome Empty_set (list N) :=
         match l with
         | [] => Ok w
         | e :: l' => let* w := re_build_singleton e w in go l' w
         end) l w
  | RRepeat e _ _ => re_build_singleton e w
  | RUnion l => match l with e :: _ => re_build_singleton e w | [] => Panic "build_singleton: items[0]" end
  end.

(** [RegExp::as_singleton] — layouts/src/abs/regexp.rs 143-151. *)
Definition re_as_singleton (e : regexp) : outcome Empty_set (option (list N)) :=
  if re_is_singleton e then let* w := re_build_singleton e [] in Ok (Some w) else Ok None.

(** ** Compilation *)

(** The state of [build_into]: the counter of [new_state] and the automaton. *)
Definition builder : Type := nat * nfa nat.

(** [new_state()] — layouts/src/abs/regexp.rs 239-244. *)
Definition new_state (b : builder) : nat * builder := (fst b, (S (fst b), snd b)).

Definition b_add (q : nat) (l : option charset) (r : nat) (b : builder) : builder :=
  (fst b, nfa_add q l r (snd b)).

(** The first branch of [build_repeat_into] — layouts/src/abs/regexp.rs 313-315. *)
Definition build_once (b : builder) : (nat * nat) * builder :=
  let (a, b) := new_state b in ((a, a), b).

(** [build_repeat_into] with a bounded [max] — layouts/src/abs/regexp.rs 306-331. *)
Fixpoint build_repeat (build : builder -> (nat * nat) * builder) (max min : nat) (b : builder)
  : (nat * nat) * builder :=
  match max with
  | 0 => build_once b
  | S max' =>
      match min with
      | S min' =>
          let '((x, y), b) := build b in
          let '((rx, ry), b) := build_repeat build max' min' b in
          ((x, ry), b_add y None rx b)
      | 0 =>
          let '((x, y), b) := build b in
          let '((c, d), b) := build_repeat build max' 0 b in
          ((x, d), b_add y None c (b_add x None d b))
      end
  end.

(** [build_repeat_into] with [max = u32::MAX] — layouts/src/abs/regexp.rs 316-325, 332-337. *)
Fixpoint build_unbounded (build : builder -> (nat * nat) * builder) (min : nat) (b : builder)
  : (nat * nat) * builder :=
  match min with
  | S min' =>
      let '((x, y), b) := build b in
      let '((rx, ry), b) := build_unbounded build min' b in
      ((x, ry), b_add y None rx b)
  | 0 =>
      let '((x, y), b) := build b in
      ((x, y), b_add y None x (b_add x None y b))
  end.

(** The set of [.] — layouts/src/abs/regexp.rs 261-263. *)
Definition any_set : charset := cs_insert (57344, 1114111)%N (cs_insert (0, 55295)%N []).

(** [build_into] — layouts/src/abs/regexp.rs 254-304. *)
Fixpoint build_into (e : regexp) (b : builder) : (nat * nat) * builder :=
  match e with
  | RAny =>
      let (x, b) := new_state b in
      let (y, b) := new_state b in
      ((x, y), b_add x (Some any_set) y b)
  | RSet s =>
      let (x, b) := new_state b in
      let (y, b) := new_state b in
      ((x, y), b_add x (Some s) y b)
  | RRepeat e min max =>
      match max with
      | Some max => build_repeat (build_into e) max min b
      | None => build_unbounded (build_into e) min b
      end
  | RSequence l =>
      let (x, b) := new_state b in
      let (x, b) :=
        (fix go (l : list regexp) (x : nat) (b : builder) : nat * builder :=
           match l with
           | [] => (x, b)
           | e :: l' =>
               let '((ex, ey), b) := build_into e b in
               go l' ey (b_add x None ex b)
           end) l x b in
      let (y, b) := new_state b in
      ((x, y), b_add x None y b)
  | RUnion l =>
      let (x, b) := new_state b in
      let (y, b) := new_state b in
      let b :=
        (fix go (l : list regexp) (b : builder) : builder :=
           match l with
           | [] => b
           | e :: l' =>
               let '((ex, ey), b) := build_into e b in
               go l' (b_add ey None y (b_add x None ex b))
           end) l b in
      ((x, y), b)
  end.

(** [build_non_deterministic] — layouts/src/abs/regexp.rs 236-252. *)
Definition build_nfa (e : regexp) : nfa nat :=
  let '((x, y), (_, a)) := build_into e (0, nfa_new) in
  add_final_state y (add_initial_state x a).

(** [|_| { let r = n; n += 1; r }] — layouts/src/abs/regexp.rs 225-230. *)
Definition number_state {Q} (_ : Q) (n : nat) : outcome Empty_set (nat * nat) := Ok (n, S n).
(** [|label| *label] — 231. *)
Definition same_label (l : N * N) (t : unit) : outcome Empty_set ((N * N) * unit) := Ok (l, t).

(** [RegExp::build] — layouts/src/abs/regexp.rs 220-234 (the [debug_assert]s are not modelled). *)
Definition re_build (fuel : nat) (e : regexp) : outcome Empty_set (dfa nat (N * N)) :=
  let* dt := determinize fuel (build_nfa e) in
  dfa_map number_state same_label dt 0 tt.

(** ** Parsing *)

(** [ParseError] — layouts/src/abs/regexp.rs 341-354. *)
Inductive parse_error : Type :=
| UnmatchedClosingParenthesis
| MissingClosingParenthesis
| IncompleteEscapeSequence
| IncompleteCharacterSet.

(** The escapes — layouts/src/abs/regexp.rs 422-432. *)
Definition unescape (c : N) : N :=
  match c with
  | 48 => 0     (* 0 *)
  | 97 => 7     (* a *)
  | 98 => 8     (* b *)
  | 116 => 9    (* t *)
  | 110 => 10   (* n *)
  | 118 => 11   (* v *)
  | 102 => 12   (* f *)
  | 114 => 13   (* r *)
  | 101 => 27   (* e *)
  | c => c
  end%N.

(** [parse_escaped_char] — layouts/src/abs/regexp.rs 420-436. *)
Definition parse_escaped_char (s : list N) : outcome parse_error (N * list N) :=
  match s with
  | c :: s' => Ok (unescape c, s')
  | [] => Err IncompleteEscapeSequence
  end.

(** [State] — layouts/src/abs/regexp.rs 357-363. *)
Inductive set_state : Type := Start | RangeStart | RangeDashOrStart | RangeEnd.

(** [set.insert(start)] if there is one — layouts/src/abs/regexp.rs 381-383, 392-394. *)
Definition insert_start (start : option N) (set : charset) : charset :=
  match start with Some c => cs_insert (c, c) set | None => set end.

(** [parse_charset] — layouts/src/abs/regexp.rs 356-418.  The [loop], on the characters; the escapes read two. *)
Fixpoint parse_charset (st : set_state) (negate : bool) (start : option N) (set : charset) (s : list N)
  : outcome parse_error (charset * list N) :=
  match s with
  | [] => Err IncompleteCharacterSet
  | c :: s' =>
      let item :=
        (* 385-402: a first character *)
        if (c =? 93)%N then
          let set := insert_start start set in
          Ok (if negate then cs_complement set else set, s')
        else
          let set := insert_start start set in
          if (c =? 92)%N then
            match s' with
            | [] => Err IncompleteEscapeSequence
            | d :: s'' => parse_charset RangeDashOrStart negate (Some (unescape d)) set s''
            end
          else parse_charset RangeDashOrStart negate (Some c) set s' in
      match st with
      | Start =>
          if (c =? 94)%N then parse_charset RangeStart true start set s'
          else item
      | RangeStart => item
      | RangeDashOrStart =>
          if (c =? 45)%N then parse_charset RangeEnd negate start set s'
          else item
      | RangeEnd =>
          if (c =? 92)%N then
            match s' with
            | [] => Err IncompleteEscapeSequence
            | d :: s'' =>
                match start with
                | Some a => parse_charset RangeStart negate None (cs_insert (a, unescape d) set) s''
                | None => Panic "parse_charset: range_start.take().unwrap()"
                end
            end
          else
            match start with
            | Some a => parse_charset RangeStart negate None (cs_insert (a, c) set) s'
            | None => Panic "parse_charset: range_start.take().unwrap()"
            end
      end
  end.

(** The stack of the parser, its top first; each element holds the alternatives read so far, the
    current one first (the vectors of the code are in the reverse order). *)
Definition parse_stack : Type := list (list regexp).

(** [options.last_mut().unwrap()] replaced by [f] of it. *)
Definition update_last (f : regexp -> regexp) (st : parse_stack) : outcome parse_error parse_stack :=
  match st with
  | (cur :: opts) :: st' => Ok ((f cur :: opts) :: st')
  | _ => Panic "parse: last_mut().unwrap()"
  end.

(** One turn of the loop of [parse] — layouts/src/abs/regexp.rs 165-210. *)
Definition parse_step (st : parse_stack) (c : N) (s : list N) : outcome parse_error (parse_stack * list N) :=
  if (c =? 40)%N then Ok ([re_empty] :: st, s)
  else if (c =? 41)%N then
    match st with
    | [] => Panic "parse: stack.pop().unwrap()"
    | top :: st' =>
        let sub := re_simplified (RUnion (rev top)) in
        match st' with
        | [] => Err UnmatchedClosingParenthesis
        | _ => let* st' := update_last (fun cur => re_push cur sub) st' in Ok (st', s)
        end
    end
  else if (c =? 124)%N then
    match st with
    | [] => Panic "parse: stack.last_mut().unwrap()"
    | opts :: st' => Ok ((re_empty :: opts) :: st', s)
    end
  else if (c =? 91)%N then
    let* (set, s) := parse_charset Start false None [] s in
    let* st := update_last (fun cur => re_push cur (RSet set)) st in Ok (st, s)
  else if (c =? 92)%N then
    let* (d, s) := parse_escaped_char s in
    let* st := update_last (fun cur => re_push cur (RSet (cs_char d))) st in Ok (st, s)
  else if (c =? 63)%N then
    let* st := update_last (fun cur => re_repeat cur 0 (Some 1)) st in Ok (st, s)
  else if (c =? 42)%N then
    let* st := update_last (fun cur => re_repeat cur 0 None) st in Ok (st, s)
  else if (c =? 43)%N then
    let* st := update_last (fun cur => re_repeat cur 1 None) st in Ok (st, s)
  else
    let* st := update_last (fun cur => re_push cur (RSet (cs_char c))) st in Ok (st, s).

(** The loop — layouts/src/abs/regexp.rs 164-211: fuel, as a turn may read several characters. *)
Fixpoint parse_loop (fuel : nat) (st : parse_stack) (s : list N) : outcome parse_error parse_stack :=
  match fuel with
  | 0 => OutOfFuel
  | S fuel' =>
      match s with
      | [] => Ok st
      | c :: s' => let* (st, s) := parse_step st c s' in parse_loop fuel' st s
      end
  end.

(** [RegExp::parse] — layouts/src/abs/regexp.rs 160-218. *)
Definition re_parse (s : list N) : outcome parse_error regexp :=
  let* st := parse_loop (S (length s)) [[re_empty]] s in
  match st with
  | [] => Panic "parse: unreachable"
  | [top] => Ok (re_simplified (RUnion (rev top)))
  | _ => Err MissingClosingParenthesis
  end.

(** [From<S>] — layouts/src/abs/regexp.rs 446-456. *)
Definition re_from_str (s : list N) : regexp :=
  fold_left (fun e c => re_push e (RSet (cs_char c))) s re_empty.

(** ** Printing *)

(** [fmt_char] — layouts/src/abs/regexp.rs 558-584. *)
Definition fmt_char (c : N) : list N :=
  (match c with
  | 40 => [92; 40]
  | 41 => [92; 41]
  | 91 => [92; 91]
  | 93 => [92; 93]
  | 123 => [92; 123]
  | 125 => [92; 125]
  | 63 => [92; 63]
  | 42 => [92; 42]
  | 43 => [92; 43]
  | 45 => [92; 45]
  | 94 => [92; 94]
  | 124 => [92; 124]
  | 92 => [92; 92]
  | 0 => [92; 48]
  | 7 => [92; 97]
  | 8 => [92; 98]
  | 9 => [92; 116]
  | 10 => [92; 110]
  | 11 => [92; 118]
  | 12 => [92; 102]
  | 13 => [92; 114]
  | 27 => [92; 101]
  | c => [c]
  end)%N.

(** [fmt_range] — layouts/src/abs/regexp.rs 543-556. *)
Definition fmt_range (r : N * N) : list N :=
  if (range_len r =? 1)%N then fmt_char (fst r)
  else fmt_char (fst r) ++ (if (fst r + 1 <? snd r)%N then [45%N] else []) ++ fmt_char (snd r).

(** [CHAR_COUNT] — layouts/src/abs/regexp.rs 458. *)
Definition char_count : N := 55295 + 1114111 - 57344.

(** [Display] of a set — layouts/src/abs/regexp.rs 470-489.  A set of length one has a first
    range. *)
Definition fmt_set (s : charset) : list N :=
  if (cs_len s =? 1)%N then match s with r :: _ => fmt_char (fst r) | [] => [] end
  else
    [91%N] ++
    (if (char_count / 2 <? cs_len s)%N
     then [94%N] ++ flat_map fmt_range (cs_gaps s)
     else flat_map fmt_range s) ++
    [93%N].

(** [Display for u32]. *)
Fixpoint uint_chars (u : Decimal.uint) : list N :=
  match u with
  | Decimal.Nil => []
  | Decimal.D0 u => 48%N :: uint_chars u
  | Decimal.D1 u => 49%N :: uint_chars u
  | Decimal.D2 u => 50%N :: uint_chars u
  | Decimal.D3 u => 51%N :: uint_chars u
  | Decimal.D4 u => 52%N :: uint_chars u
  | Decimal.D5 u => 53%N :: uint_chars u
  | Decimal.D6 u => 54%N :: uint_chars u
  | Decimal.D7 u => 55%N :: uint_chars u
  | Decimal.D8 u => 56%N :: uint_chars u
  | Decimal.D9 u => 57%N :: uint_chars u
  end.
Definition fmt_nat (n : nat) : list N := uint_chars (Nat.to_uint n).

(** The suffix of a repetition — layouts/src/abs/regexp.rs 501-512. *)
Definition fmt_counts (min : nat) (max : option nat) : list N :=
  match min, max with
  | 0, Some 1 => [63%N]
  | 0, None => [42%N]
  | 1, None => [43%N]
  | min, None => [123%N] ++ fmt_nat min ++ [44%N; 125%N]
  | 0, Some max => [123%N; 44%N] ++ fmt_nat max ++ [125%N]
  | min, Some max =>
      if Nat.eqb min max then [123%N] ++ fmt_nat min ++ [125%N]
      else [123%N] ++ fmt_nat min ++ [44%N] ++ fmt_nat max ++ [125%N]
  end.

(** [DisplaySub] — layouts/src/abs/regexp.rs 533-541, given [Display]. *)
Definition parens (e : regexp) (s : list N) : list N :=
  if re_is_simple e then s else [40%N] ++ s ++ [41%N].

(** [Display] — layouts/src/abs/regexp.rs 466-526. *)
Fixpoint re_display (e : regexp) : list N :=
  match e with
  | RAny => [46%N]
  | RSet s => fmt_set s
  | RSequence l =>
      if Nat.ltb 1 (length l)
      then flat_map (fun e => parens e (re_display e)) l
      else flat_map re_display l
  | RRepeat e min max => parens e (re_display e) ++ fmt_counts min max
  | RUnion l =>
      (fix go (first : bool) (l : list regexp) : list N :=
         match l with
         | [] => []
         | e :: l' => (if first then [] else [124%N]) ++ parens e (re_display e) ++ go false l'
         end) true l
  end.
