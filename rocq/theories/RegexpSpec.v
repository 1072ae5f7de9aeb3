(** * What regular expressions mean *)

From Coq Require Import List Bool Arith NArith.
Import ListNotations.
From Verif Require Import Base CharModel CharSpec RegexpModel.
Open Scope list_scope.

(** [matches e w]: the word [w] belongs to the language of [e] (the usual denotation). *)
Inductive matches : regexp -> list N -> Prop :=
| m_any c : is_char c = true -> matches RAny [c]
| m_set s c : cs_mem c s = true -> matches (RSet s) [c]
| m_seq_nil : matches (RSequence []) []
| m_seq_cons e l w w' : matches e w -> matches (RSequence l) w' -> matches (RSequence (e :: l)) (w ++ w')
| m_union e l w : In e l -> matches e w -> matches (RUnion l) w
| m_repeat e min max ws :
    Forall (matches e) ws -> min <= length ws -> (forall m, max = Some m -> length ws <= m) ->
    matches (RRepeat e min max) (concat ws).

(** The sets are values of type [RangeSet<char>]. *)
Inductive sets_good : regexp -> Prop :=
| sg_any : sets_good RAny
| sg_set s : cs_good s -> sets_good (RSet s)
| sg_seq l : Forall sets_good l -> sets_good (RSequence l)
| sg_union l : Forall sets_good l -> sets_good (RUnion l)
| sg_repeat e min max : sets_good e -> sets_good (RRepeat e min max).

(** The expressions compiled to the right automaton: no sequence but the empty one, no empty
    interval of repetitions, and no unbounded repetition of [e{m,}] with [m > 1]. *)
Definition loopable (e : regexp) : bool :=
  match e with RRepeat _ min None => min <=? 1 | _ => true end.
Fixpoint compilable (e : regexp) : bool :=
  match e with
  | RAny | RSet _ => true
  | RSequence l => match l with [] => true | _ => false end
  | RUnion l => forallb compilable l
  | RRepeat e min max => compilable e && match max with Some m => min <=? m | None => loopable e end
  end.

(** ** Empty languages *)

(** No empty set, no empty union, no empty interval of repetitions. *)
Inductive nonvoid : regexp -> Prop :=
| nv_any : nonvoid RAny
| nv_set s : s <> [] -> nonvoid (RSet s)
| nv_seq l : Forall nonvoid l -> nonvoid (RSequence l)
| nv_union l : l <> [] -> Forall nonvoid l -> nonvoid (RUnion l)
| nv_repeat e min max : nonvoid e -> (forall m, max = Some m -> min <= m) -> nonvoid (RRepeat e min max).

(** The same, but only of the items of the sequences. *)
Inductive solid : regexp -> Prop :=
| so_any : solid RAny
| so_set s : solid (RSet s)
| so_seq l : Forall nonvoid l -> solid (RSequence l)
| so_union l : Forall solid l -> solid (RUnion l)
| so_repeat e min max : solid e -> solid (RRepeat e min max).

(** Every repetition is [e{1}]. *)
Inductive once : regexp -> Prop :=
| on_any : once RAny
| on_set s : once (RSet s)
| on_seq l : Forall once l -> once (RSequence l)
| on_union l : Forall once l -> once (RUnion l)
| on_repeat e : once e -> once (RRepeat e 1 (Some 1)).

(** ** The syntax of the patterns *)

(** The characters of the table of escapes and what they stand for; any other stands for itself. *)
Definition escapes : list (N * N) :=
  [(48, 0); (97, 7); (98, 8); (116, 9); (110, 10); (118, 11); (102, 12); (114, 13); (101, 27)]%N.
Definition escape_of (c : N) : N :=
  match find (fun p => N.eqb (fst p) c) escapes with Some p => snd p | None => c end.

(** A character of a character set: [c] or [\c]. *)
Inductive schar : Type := Plain (c : N) | Esc (c : N).
Definition schar_text (x : schar) : list N := match x with Plain c => [c] | Esc c => [92%N; c] end.
Definition schar_value (x : schar) : N := match x with Plain c => c | Esc c => escape_of c end.
(** A plain backslash would start an escape. *)
Definition schar_ok (x : schar) : Prop := match x with Plain c => c <> 92%N | Esc _ => True end.

(** An item of a character set: [c] or [c-d]. *)
Inductive sitem : Type := IOne (x : schar) | IRange (x y : schar).
Definition sitem_text (i : sitem) : list N :=
  match i with IOne x => schar_text x | IRange x y => schar_text x ++ [45%N] ++ schar_text y end.
Definition sitem_has (i : sitem) (c : N) : Prop :=
  match i with IOne x => c = schar_value x | IRange x y => (schar_value x <= c <= schar_value y)%N end.
Definition sitem_first (i : sitem) : schar := match i with IOne x => x | IRange x _ => x end.
Definition sitem_ok (i : sitem) : Prop :=
  match i with IOne x => schar_ok x | IRange x y => schar_ok x /\ schar_ok y end /\ sitem_first i <> Plain 93.

(** The items are read as written: a single character is not followed by a dash. *)
Fixpoint sitems_ok (l : list sitem) : Prop :=
  match l with
  | [] => True
  | i :: l' =>
      sitem_ok i /\ sitems_ok l' /\
      match i, l' with IOne _, j :: _ => sitem_first j <> Plain 45 | _, _ => True end
  end.

Inductive op : Type := OOptional | OStar | OPlus.
Definition op_char (o : op) : N := match o with OOptional => 63 | OStar => 42 | OPlus => 43 end%N.

(** A pattern is a list of these. *)
Inductive tok : Type :=
| TBar
| TOp (o : op)
| TChar (c : N)
| TEscape (c : N)
| TSet (neg : bool) (l : list sitem)
| TGroup (l : list tok).

Fixpoint tok_text (t : tok) : list N :=
  match t with
  | TBar => [124%N]
  | TOp o => [op_char o]
  | TChar c => [c]
  | TEscape c => [92%N; c]
  | TSet neg l => [91%N] ++ (if neg then [94%N] else []) ++ flat_map sitem_text l ++ [93%N]
  | TGroup l => [40%N] ++ flat_map tok_text l ++ [41%N]
  end.
Definition pattern_text (l : list tok) : list N := flat_map tok_text l.

(** [( ) | [ \ ? * +] *)
Definition special (c : N) : bool := existsb (N.eqb c) [40; 41; 124; 91; 92; 63; 42; 43]%N.

Inductive tok_ok : tok -> Prop :=
| ok_bar : tok_ok TBar
| ok_op o : tok_ok (TOp o)
| ok_char c : special c = false -> tok_ok (TChar c)
| ok_escape c : tok_ok (TEscape c)
| ok_set neg l : sitems_ok l -> (neg = false -> forall i l', l = i :: l' -> sitem_first i <> Plain 94) -> tok_ok (TSet neg l)
| ok_group l : Forall tok_ok l -> tok_ok (TGroup l).

(** The well formed patterns: the parentheses are balanced, the escapes and the character sets are
    finished. *)
Definition well_formed (s : list N) : Prop := exists l, Forall tok_ok l /\ s = pattern_text l.

(** ** The usual meaning of the patterns *)
Definition words : Type := list N -> Prop.
Definition eps : words := fun w => w = [].
Definition cat (L M : words) : words := fun w => exists u v, w = u ++ v /\ L u /\ M v.
Definition op_words (o : op) (L : words) : words :=
  match o with
  | OOptional => fun w => w = [] \/ L w
  | OStar => fun w => exists ws, w = concat ws /\ Forall L ws
  | OPlus => fun w => exists ws, w = concat ws /\ Forall L ws /\ ws <> []
  end.

(** Reading from left to right: the alternatives that are complete, the current branch up to its last
    atom, and this atom.  An operator applies to the last atom. *)
Record reading : Type := Reading { r_done : words; r_branch : words; r_last : words }.
Definition r_all (r : reading) : words := fun w => r_done r w \/ cat (r_branch r) (r_last r) w.
Definition read_tok (r : reading) (t : tok) (L : words) : reading :=
  match t with
  | TBar => Reading (r_all r) eps eps
  | TOp o => Reading (r_done r) (r_branch r) (op_words o (r_last r))
  | _ => Reading (r_done r) (cat (r_branch r) (r_last r)) L
  end.
Definition r_start : reading := Reading (fun _ => False) eps eps.

Fixpoint tok_words (t : tok) : words :=
  match t with
  | TBar | TOp _ => eps
  | TChar c => fun w => w = [c]
  | TEscape c => fun w => w = [escape_of c]
  | TSet neg l => fun w => exists c, w = [c] /\ is_char c = true /\
      (if neg then ~ (exists i, In i l /\ sitem_has i c) else exists i, In i l /\ sitem_has i c)
  | TGroup l => r_all (fold_left (fun r t => read_tok r t (tok_words t)) l r_start)
  end.
Definition pattern_words (l : list tok) : words := tok_words (TGroup l).

(** ** What the parser understands: an operator applies to the whole current branch. *)
Record actual : Type := Actual { a_done : words; a_cur : words }.
Definition act_tok (r : actual) (t : tok) (L : words) : actual :=
  match t with
  | TBar => Actual (fun w => a_done r w \/ a_cur r w) eps
  | TOp o => Actual (a_done r) (op_words o (a_cur r))
  | _ => Actual (a_done r) (cat (a_cur r) L)
  end.
Definition act_all (r : actual) : words := fun w => a_done r w \/ a_cur r w.
Definition act_start : actual := Actual (fun _ => False) eps.

Fixpoint tok_act (t : tok) : words :=
  match t with
  | TGroup l => act_all (fold_left (fun r t => act_tok r t (tok_act t)) l act_start)
  | t => tok_words t
  end.
Definition branch_words (l : list tok) : words := tok_act (TGroup l).

(** Every character set has an element. *)
Inductive sets_inhabited : tok -> Prop :=
| in_bar : sets_inhabited TBar
| in_op o : sets_inhabited (TOp o)
| in_char c : sets_inhabited (TChar c)
| in_escape c : sets_inhabited (TEscape c)
| in_set neg l w : tok_words (TSet neg l) w -> sets_inhabited (TSet neg l)
| in_group l : Forall sets_inhabited l -> sets_inhabited (TGroup l).

(** An operator is never after two atoms of a branch ([n] atoms read in the current branch). *)
Fixpoint ops_first (n : nat) (l : list tok) : bool :=
  match l with
  | [] => true
  | TBar :: l' => ops_first 0 l'
  | TOp _ :: l' => (n <=? 1) && ops_first n l'
  | _ :: l' => ops_first (S n) l'
  end.
Inductive ops_ok : tok -> Prop :=
| oo_bar : ops_ok TBar
| oo_op o : ops_ok (TOp o)
| oo_char c : ops_ok (TChar c)
| oo_escape c : ops_ok (TEscape c)
| oo_set neg l : ops_ok (TSet neg l)
| oo_group l : ops_first 0 l = true -> Forall ops_ok l -> ops_ok (TGroup l).

(** ** The expressions printed faithfully: no [Any], the repetitions are [?], [*] or [+], a sequence of one item is a
    sequence of a set or of a sequence. *)
Inductive printable : regexp -> Prop :=
| pr_set s : s <> [] -> printable (RSet s)
| pr_seq l : Forall printable l -> (forall e, l = [e] -> re_is_simple e = true) -> printable (RSequence l)
| pr_union l : l <> [] -> Forall printable l -> printable (RUnion l)
| pr_optional e : printable e -> printable (RRepeat e 0 (Some 1))
| pr_star e : printable e -> printable (RRepeat e 0 None)
| pr_plus e : printable e -> printable (RRepeat e 1 None).
