(** * The language of a parsed pattern: proofs *)

From Coq Require Import String List Bool Arith NArith Lia.
Import ListNotations.
From Verif Require Import Base BaseProofs Orders CharModel CharSpec CharProofs RegexpModel RegexpSpec RegexpBuild RegexpParse RegexpLang.
Open Scope list_scope.

(** The same words of characters. *)
Definition same (L M : words) : Prop := forall w, chars w -> (L w <-> M w).
Lemma same_refl L : same L L. Proof. intros w _. reflexivity. Qed.
Lemma same_sym L M : same L M -> same M L. Proof. intros H w C. symmetry. now apply H. Qed.
Lemma same_trans L M K : same L M -> same M K -> same L K. Proof. intros H1 H2 w C. now rewrite (H1 w C), (H2 w C). Qed.
Lemma same_iff (L M : words) : (forall w, L w <-> M w) -> same L M. Proof. intros H w _. apply H. Qed.
Lemma same_cat L L' M M' : same L L' -> same M M' -> same (cat L M) (cat L' M').
Proof.
  intros H1 H2 w C. split; intros (u & v & -> & A & B); apply chars_app in C as [C1 C2]; exists u, v; (split; [reflexivity|]);
    (split; [now apply H1|now apply H2]).
Qed.
Lemma chars_concat ws : chars (concat ws) -> Forall chars ws.
Proof. induction ws as [|w ws IH]; cbn; intro C; [constructor|]. apply chars_app in C as [? ?]. constructor; auto. Qed.
Lemma same_Forall (L L' : words) ws : same L L' -> Forall chars ws -> Forall L ws -> Forall L' ws.
Proof. intros H C F. rewrite Forall_forall in *. intros w Hw. apply H; auto. Qed.
Lemma same_op o L L' : same L L' -> same (op_words o L) (op_words o L').
Proof.
  intros H w C. destruct o; cbn [op_words].
  - now rewrite (H w C).
  - split; intros (ws & -> & F); exists ws; (split; [reflexivity|]); (eapply same_Forall; [|now apply chars_concat|exact F]); [exact H|now apply same_sym].
  - split; intros (ws & -> & F & NE); exists ws; (split; [reflexivity|]); (split; [|exact NE]); (eapply same_Forall; [|now apply chars_concat|exact F]); [exact H|now apply same_sym].
Qed.
Lemma same_or (L L' M M' : words) : same L L' -> same M M' -> same (fun w => L w \/ M w) (fun w => L' w \/ M' w).
Proof. intros H1 H2 w C. now rewrite (H1 w C), (H2 w C). Qed.

Lemma op_matches o e w : matches (op_re o e) w <-> op_words o (matches e) w.
Proof.
  destruct o; cbn [op_re op_words]; rewrite m_repeat_iff.
  - split.
    + intros (ws & -> & F & _ & B). specialize (B 1 eq_refl). destruct F as [|w ws Hw F]; [now left|]. destruct ws; [|cbn in B; lia]. right. cbn. now rewrite app_nil_r.
    + intros [->|H]; [apply rep_nil|]. apply rep_one; [exact H|]. intros m [= <-]. lia.
  - split; [intros (ws & -> & F & _); eauto|]. intros (ws & -> & F). exists ws. split; [reflexivity|]. split; [exact F|]. split; [lia|discriminate].
  - split; [intros (ws & -> & F & A & _); exists ws; split; [reflexivity|split; [exact F|destruct ws; [cbn in A; lia|discriminate]]]|].
    intros (ws & -> & F & NE). exists ws. split; [reflexivity|]. split; [exact F|]. split; [destruct ws; [congruence|cbn; lia]|discriminate].
Qed.

(** ** What the parser understands ([actual], RegexpSpec.v) *)
Definition act_toks (l : list tok) (r : actual) : actual := fold_left (fun r t => act_tok r t (tok_act t)) l r.

(** ** The values of the tokens are characters *)
Definition sitem_chars (i : sitem) : Prop := is_char (fst (item_range i)) = true /\ is_char (snd (item_range i)) = true.
Inductive tok_chars : tok -> Prop :=
| tc_bar : tok_chars TBar
| tc_op o : tok_chars (TOp o)
| tc_char c : is_char c = true -> tok_chars (TChar c)
| tc_escape c : is_char (escape_of c) = true -> tok_chars (TEscape c)
| tc_set neg l : Forall sitem_chars l -> tok_chars (TSet neg l)
| tc_group l : Forall tok_chars l -> tok_chars (TGroup l).

Lemma escape_char c : is_char c = true -> is_char (escape_of c) = true.
Proof. intro H. rewrite <- unescape_of. charcase c; first [reflexivity|exact H]. Qed.
Lemma schar_chars x : chars (schar_text x) -> is_char (schar_value x) = true.
Proof. destruct x as [c|c]; intro C; inversion C; subst; [assumption|]. inversion H2; subst. now apply escape_char. Qed.

Lemma text_chars t : chars (tok_text t) -> tok_chars t.
Proof.
  induction t as [|o|c|c|neg l|l IH] using tok_ind'; cbn [tok_text]; intro C.
  - constructor.
  - constructor.
  - inversion C; subst. now constructor.
  - constructor. now apply (schar_chars (Esc c)).
  - constructor. apply chars_app in C as [_ C]. apply chars_app in C as [_ C]. apply chars_app in C as [C _].
    induction l as [|i l IHl]; [constructor|]. cbn [flat_map] in C. apply chars_app in C as [C1 C2]. constructor; [|auto].
    destruct i as [x|x y]; cbn [sitem_text] in C1.
    + split; now apply schar_chars.
    + apply chars_app in C1 as [Cx C1]. apply chars_app in C1 as [_ Cy]. split; now apply schar_chars.
  - constructor. apply chars_app in C as [_ C]. apply chars_app in C as [C _].
    induction IH as [|t l Ht F IHl]; [constructor|]. cbn [flat_map] in C. apply chars_app in C as [C1 C2]. constructor; auto.
Qed.

(** ** Character sets *)
Lemma insert_items_spec l : Forall sitem_chars l -> forall set, cs_good set ->
  cs_good (insert_items l set) /\
  forall c, is_char c = true -> (cs_mem c (insert_items l set) = true <-> (exists i, In i l /\ sitem_has i c) \/ cs_mem c set = true).
Proof.
  induction 1 as [|i l Hi F IH]; intros set G.
  - split; [exact G|]. intros c Hc. cbn. split; [auto|]. intros [(i & [] & _)|H]. exact H.
  - destruct Hi as [H1 H2]. pose proof (cs_insert_good (item_range i) set G H1 H2) as G'. destruct (IH _ G') as [G2 M]. split; [exact G2|].
    intros c Hc. unfold insert_items. cbn [fold_left]. fold (insert_items l (cs_insert (item_range i) set)). rewrite (M c Hc), (cs_insert_mem _ _ _ G H1 H2 Hc).
    assert (R : (fst (item_range i) <= c <= snd (item_range i))%N <-> sitem_has i c).
    { destruct i as [x|x y]; cbn [item_range sitem_has fst snd]; [|reflexivity]. split; lia. }
    rewrite R. cbn [In]. split.
    + intros [(j & Hj & K)|[K|K]]; [left; exists j; auto|left; exists i; auto|auto].
    + intros [(j & [<-|Hj] & K)|K]; [auto|left; exists j; auto|auto].
Qed.

Lemma charset_of_spec neg l : Forall sitem_chars l ->
  cs_good (charset_of neg l) /\
  forall c, is_char c = true -> (cs_mem c (charset_of neg l) = true <-> tok_words (TSet neg l) [c]).
Proof.
  intro F. destruct (insert_items_spec l F [] Logic.I) as [G M].
  assert (K : forall c, is_char c = true -> (cs_mem c (insert_items l []) = true <-> exists i, In i l /\ sitem_has i c)).
  { intros c Hc. rewrite (M c Hc). split; [intros [H|H]; [exact H|discriminate]|auto]. }
  unfold charset_of. destruct neg.
  - split; [now apply gaps_good|]. intros c Hc. unfold cs_complement. rewrite (gaps_mem _ c G Hc), negb_true_iff. cbn [tok_words]. specialize (K c Hc). split.
    + intro E. exists c. split; [reflexivity|]. split; [exact Hc|]. intro N. apply K in N. congruence.
    + intros (d & [= <-] & _ & N). destruct (cs_mem c (insert_items l [])); [|reflexivity]. exfalso. apply N, K. reflexivity.
  - split; [exact G|]. intros c Hc. rewrite (K c Hc). cbn [tok_words]. split.
    + intro H. exists c. auto.
    + intros (d & [= <-] & _ & H). exact H.
Qed.

Lemma set_inhabited neg l w : Forall sitem_chars l -> tok_words (TSet neg l) w -> charset_of neg l <> [].
Proof.
  intros F H E. pose proof H as (c & -> & Hc & _). apply (proj2 (charset_of_spec neg l F) c Hc) in H. rewrite E in H. discriminate.
Qed.

(** ** The parsed expression *)
Definition represents (top : list regexp) (r : actual) : Prop :=
  exists cur opts, top = cur :: opts /\ Forall nonvoid top /\ same (matches cur) (a_cur r) /\
    same (fun w => exists e, In e opts /\ matches e w) (a_done r).

Lemma represents_all top r : represents top r -> nonvoid (RUnion (rev top)) /\ same (matches (RUnion (rev top))) (act_all r).
Proof.
  intros (cur & opts & -> & F & H1 & H2). split.
  - constructor; [|now apply Forall_rev]. cbn. intro E. apply app_eq_nil in E as [_ E]. discriminate.
  - intros w C. rewrite m_union_iff. unfold act_all. rewrite <- (H1 w C), <- (H2 w C). split.
    + intros (e & Hi & M). apply in_rev in Hi. destruct Hi as [<-|Hi]; [auto|left; eauto].
    + intros [(e & Hi & M)|M]; [exists e|exists cur]; (split; [|exact M]); apply -> in_rev; [now right|now left].
Qed.

Lemma cur_not_void e : nonvoid e -> e <> RUnion [].
Proof. intros H ->. inversion H; congruence. Qed.

Lemma represents_push top r e L : represents top r -> nonvoid e -> same (matches e) L ->
  represents (set_last (fun cur => re_push cur e) top) (Actual (a_done r) (cat (a_cur r) L)).
Proof.
  intros (cur & opts & -> & F & H1 & H2) NV HL. inversion F as [|? ? N1 N2]; subst. exists (re_push cur e), opts. split; [reflexivity|].
  split; [constructor; [now apply push_nonvoid|exact N2]|]. split; [|exact H2].
  eapply same_trans; [apply same_iff; intro w; apply push_lang; now apply cur_not_void|]. cbn [a_cur]. now apply same_cat.
Qed.

Lemma same_char c : same (matches (RSet (cs_char c))) (fun w => w = [c]).
Proof.
  intros w _. rewrite m_set_iff. split; [intros (d & -> & H); apply cs_char_mem in H; now subst|]. intros ->. exists c. split; [reflexivity|]. now apply cs_char_mem.
Qed.
Lemma nonvoid_char c : nonvoid (RSet (cs_char c)).
Proof. constructor. unfold cs_char, cs_insert. cbn [fst snd]. rewrite N.ltb_irrefl. discriminate. Qed.

Lemma represents_tok t : tok_chars t -> sets_inhabited t -> forall top r, represents top r -> represents (apply_tok t top) (act_tok r t (tok_act t)).
Proof.
  induction t as [|o|c|c|neg l|l IH] using tok_ind'; intros TC SI top r R; cbn [apply_tok act_tok].
  - destruct R as (cur & opts & -> & F & H1 & H2). exists re_empty, (cur :: opts). split; [reflexivity|]. split; [constructor; [repeat constructor|exact F]|].
    split; [intros w C; apply m_nil_iff|]. cbn [a_done]. intros w C. rewrite <- (H1 w C), <- (H2 w C). cbn [In]. split.
    + intros (e & [<-|Hi] & M); [auto|left; eauto].
    + intros [(e & Hi & M)|M]; [exists e; auto|exists cur; auto].
  - destruct R as (cur & opts & -> & F & H1 & H2). inversion F as [|? ? N1 N2]; subst. exists (op_re o cur), opts. split; [reflexivity|]. split; [|split; [|exact H2]].
    + constructor; [|exact N2]. destruct o; (constructor; [exact N1|]); intros m E; try discriminate; lia.
    + cbn [a_cur]. eapply same_trans; [apply same_iff; intro; apply op_matches|]. now apply same_op.
  - apply represents_push; [exact R|apply nonvoid_char|apply same_char].
  - apply represents_push; [exact R|apply nonvoid_char|apply same_char].
  - inversion TC as [| | | |? ? F|]; subst. inversion SI as [| | | |? ? w I|]; subst. apply represents_push; [exact R| |].
    + constructor. eapply set_inhabited; eassumption.
    + intros v C. rewrite m_set_iff. cbn [tok_act]. destruct (charset_of_spec neg l F) as [_ M]. split.
      * intros (c & -> & H). inversion C; subst. now apply M.
      * intro H. pose proof H as (c & -> & Hc & _). exists c. split; [reflexivity|]. now apply M.
  - inversion TC as [| | | | |? F]; subst. inversion SI as [| | | | |? I]; subst.
    assert (G : forall top0 r0, represents top0 r0 ->
      represents (fold_left (fun top t => apply_tok t top) l top0) (fold_left (fun r t => act_tok r t (tok_act t)) l r0)).
    { clear TC SI R. induction l as [|t l IHl]; intros top0 r0 R0; [exact R0|]. inversion IH; inversion F; inversion I; subst. cbn [fold_left]. apply IHl; auto. }
    assert (R1 : represents [re_empty] act_start).
    { exists re_empty, []. split; [reflexivity|]. split; [repeat constructor|]. split; [intros w _; apply m_nil_iff|]. intros w _. cbn. split; [intros (e & [] & _)|intros []]. }
    specialize (G _ _ R1). apply represents_all in G as [G1 G2]. apply represents_push; [exact R|now apply simplified_nonvoid|].
    eapply same_trans; [apply same_iff; intro; apply simplified_lang; now apply nonvoid_solid|]. exact G2.
Qed.

Theorem tokens_lang l : Forall tok_chars l -> Forall sets_inhabited l -> nonvoid (tokens_re l) /\ same (matches (tokens_re l)) (tok_act (TGroup l)).
Proof.
  intros F I. assert (R1 : represents [re_empty] act_start).
  { exists re_empty, []. split; [reflexivity|]. split; [repeat constructor|]. split; [intros w _; apply m_nil_iff|]. intros w _. cbn. split; [intros (e & [] & _)|intros []]. }
  assert (G : forall top0 r0, represents top0 r0 -> represents (apply_toks l top0) (act_toks l r0)).
  { induction l as [|t l IHl]; intros top0 r0 R0; [exact R0|]. inversion F; inversion I; subst. apply IHl; auto. now apply represents_tok. }
  specialize (G _ _ R1). apply represents_all in G as [G1 G2]. split; [now apply simplified_nonvoid|].
  eapply same_trans; [apply same_iff; intro; apply simplified_lang; now apply nonvoid_solid|]. exact G2.
Qed.

(** ** The usual reading, when the operators come first *)
Lemma same_cat_eps L M : same L eps -> same (cat L M) M.
Proof. intro H. eapply same_trans; [apply same_cat; [exact H|apply same_refl]|]. apply same_iff. intro. apply cat_eps_l. Qed.
Lemma op_eps o : same (op_words o eps) eps.
Proof.
  intros w _. unfold eps. destruct o; cbn [op_words].
  - tauto.
  - split; [intros (ws & -> & F); now apply concat_nil|]. intros ->. exists []. auto.
  - split; [intros (ws & -> & F & _); now apply concat_nil|]. intros ->. exists [[]]. split; [reflexivity|]. split; [auto|discriminate].
Qed.

Record agree (n : nat) (r : reading) (a : actual) : Prop := {
  ag_done : same (r_done r) (a_done a);
  ag_cur : same (cat (r_branch r) (r_last r)) (a_cur a);
  ag_branch : n <= 1 -> same (r_branch r) eps;
  ag_last : n = 0 -> same (r_last r) eps
}.

Lemma agree_toks l : (forall t, In t l -> same (tok_words t) (tok_act t)) -> forall n r a, ops_first n l = true -> agree n r a ->
  exists n', agree n' (fold_left (fun r t => read_tok r t (tok_words t)) l r) (fold_left (fun r t => act_tok r t (tok_act t)) l a).
Proof.
  induction l as [|t l IH]; intros HT n r a O A; [now exists n|]. cbn [fold_left].
  assert (ATOM : (match t with TBar | TOp _ => False | _ => True end) -> ops_first (S n) l = true ->
    exists n', agree n' (fold_left (fun r t => read_tok r t (tok_words t)) l (read_tok r t (tok_words t))) (fold_left (fun r t => act_tok r t (tok_act t)) l (act_tok a t (tok_act t)))).
  { intros NT O'. apply (IH (fun t H => HT t (or_intror H)) (S n)); [exact O'|]. destruct A as [A1 A2 A3 A4].
    assert (E1 : read_tok r t (tok_words t) = Reading (r_done r) (cat (r_branch r) (r_last r)) (tok_words t)) by (destruct t; try contradiction; reflexivity).
    assert (E2 : act_tok a t (tok_act t) = Actual (a_done a) (cat (a_cur a) (tok_act t))) by (destruct t; try contradiction; reflexivity).
    rewrite E1, E2. split; cbn [r_branch r_last r_done a_done a_cur]; [exact A1| | |discriminate].
    - apply same_cat; [exact A2|apply HT; now left].
    - intro LE. assert (n = 0) by lia. eapply same_trans; [apply same_cat_eps, A3; lia|]. now apply A4. }
  destruct t; cbn [ops_first] in O; try (apply ATOM; [exact Logic.I|exact O]).
  - apply (IH (fun t H => HT t (or_intror H)) 0); [exact O|]. destruct A as [A1 A2 A3 A4]. split; cbn [read_tok act_tok r_branch r_last r_done a_done a_cur].
    + unfold r_all. now apply same_or.
    + apply same_iff. intro. apply cat_eps_l.
    + intros _. apply same_refl.
    + intros _. apply same_refl.
  - apply andb_true_iff in O as [O1 O2]. apply Nat.leb_le in O1. apply (IH (fun t H => HT t (or_intror H)) n); [exact O2|]. destruct A as [A1 A2 A3 A4].
    specialize (A3 O1). split; cbn [read_tok act_tok r_branch r_last r_done a_done a_cur]; [exact A1| |auto|].
    + eapply same_trans; [now apply same_cat_eps|]. apply same_op. eapply same_trans; [|exact A2]. apply same_sym. now apply same_cat_eps.
    + intro E. eapply same_trans; [apply same_op, A4, E|]. apply op_eps.
Qed.

Lemma usual_reading t : ops_ok t -> same (tok_words t) (tok_act t).
Proof.
  induction t as [|o|c|c|neg l|l IH] using tok_ind'; intro O; try apply same_refl.
  inversion O as [| | | | |? O1 O2]; subst. rewrite Forall_forall in *.
  destruct (agree_toks l (fun t H => IH t H (O2 t H)) 0 r_start act_start O1) as (n & [A1 A2 _ _]).
  - split; cbn.
    + intros w _. tauto.
    + apply same_iff. intro. apply cat_eps_l.
    + intros _. apply same_refl.
    + intros _. apply same_refl.
  - cbn [tok_words tok_act]. unfold r_all, act_all. now apply same_or.
Qed.

(** ** Printing *)
Definition char_schar (c : N) : schar := match fmt_char c with [_; d] => Esc d | _ => Plain c end.
Definition char_tok (c : N) : tok := match fmt_char c with [_; d] => TEscape d | _ => TChar c end.
Definition range_items (r : N * N) : list sitem :=
  if (range_len r =? 1)%N then [IOne (char_schar (fst r))]
  else if (fst r + 1 <? snd r)%N then [IRange (char_schar (fst r)) (char_schar (snd r))]
  else [IOne (char_schar (fst r)); IOne (char_schar (snd r))].
Definition set_toks (s : charset) : list tok :=
  if (cs_len s =? 1)%N then match s with r :: _ => [char_tok (fst r)] | [] => [] end
  else if (char_count / 2 <? cs_len s)%N then [TSet true (flat_map range_items (cs_gaps s))]
  else [TSet false (flat_map range_items s)].
Definition paren_toks (e : regexp) (l : list tok) : list tok := if re_is_simple e then l else [TGroup l].
Definition counts_op (min : nat) (max : option nat) : op :=
  match min, max with 0, Some _ => OOptional | 0, None => OStar | _, _ => OPlus end.
Definition union_toks (f : regexp -> list tok) : list regexp -> list tok :=
  fix go l := match l with [] => [] | e :: l' => match l' with [] => f e | _ => f e ++ TBar :: go l' end end.
Fixpoint toks_of (e : regexp) : list tok :=
  match e with
  | RAny => []
  | RSet s => set_toks s
  | RSequence l => if Nat.ltb 1 (length l) then flat_map (fun e => paren_toks e (toks_of e)) l else flat_map toks_of l
  | RRepeat e min max => paren_toks e (toks_of e) ++ [TOp (counts_op min max)]
  | RUnion l => union_toks (fun e => paren_toks e (toks_of e)) l
  end.

(** *** The printed characters *)
Lemma char_schar_spec c : schar_text (char_schar c) = fmt_char c /\ schar_value (char_schar c) = c /\ schar_ok (char_schar c) /\ char_schar c <> Plain 93 /\ char_schar c <> Plain 94 /\ char_schar c <> Plain 45.
Proof.
  unfold char_schar. destruct (fmt_char_cases c) as [(d & -> & E)|(-> & _ & N1 & N2 & N3 & N4)].
  - split; [reflexivity|]. split; [exact E|]. split; [exact Logic.I|]. split; [discriminate|]. split; discriminate.
  - split; [reflexivity|]. split; [reflexivity|]. split; [exact N4|]. split; [congruence|]. split; congruence.
Qed.
Lemma char_tok_spec c : tok_text (char_tok c) = fmt_char c /\ tok_ok (char_tok c) /\ (forall w, tok_act (char_tok c) w <-> w = [c]) /\ sets_inhabited (char_tok c) /\ (is_char c = true -> tok_chars (char_tok c)) /\ (match char_tok c with TBar | TOp _ => False | _ => True end).
Proof.
  unfold char_tok. destruct (fmt_char_cases c) as [(d & -> & E)|(-> & SP & _)].
  - split; [reflexivity|]. split; [constructor|]. split; [intro w; cbn; now rewrite E|]. split; [constructor|]. split; [constructor; now rewrite E|exact Logic.I].
  - split; [reflexivity|]. split; [now constructor|]. split; [reflexivity|]. split; [constructor|]. split; [now constructor|exact Logic.I].
Qed.

Lemma range_items_spec r : (fst r <= snd r)%N -> is_char (fst r) = true -> is_char (snd r) = true ->
  flat_map sitem_text (range_items r) = fmt_range r /\ Forall sitem_chars (range_items r) /\ (forall c, (exists i, In i (range_items r) /\ sitem_has i c) <-> (fst r <= c <= snd r)%N) /\ (exists i l, range_items r = i :: l) /\ Forall (fun i => sitem_ok i /\ sitem_first i <> Plain 45 /\ sitem_first i <> Plain 94) (range_items r).
Proof.
  intros H Ha Hb. destruct r as [a b]. cbn [fst snd] in *. destruct (char_schar_spec a) as (T1 & V1 & O1 & P1 & P2 & P3). destruct (char_schar_spec b) as (T2 & V2 & O2 & Q1 & Q2 & Q3).
  assert (RL : range_len (a, b) = 1%N <-> a = b).
  { unfold range_len. cbn [fst snd]. apply is_char_spec in Ha. apply is_char_spec in Hb. destruct (N.ltb_spec b a); [lia|].
    destruct (N.leb_spec a 55295), (N.leb_spec 57344 b); cbn [andb]; lia. }
  unfold range_items, fmt_range. cbn [fst snd]. destruct (N.eqb_spec (range_len (a, b)) 1) as [E|NE].
  - apply RL in E. subst b. cbn [flat_map sitem_text]. rewrite app_nil_r. split; [exact T1|]. split; [constructor; [split; cbn; now rewrite V1|constructor]|].
    split; [|split; [eauto|constructor; [split; [split; [exact O1|exact P1]|split; [exact P3|exact P2]]|constructor]]].
    intro c. split; [intros (i & [<-|[]] & K); cbn in K; lia|]. intro K. eexists. split; [now left|]. cbn. lia.
  - assert (a <> b) by (intro; apply NE, RL; assumption). destruct (N.ltb_spec (a + 1) b) as [L|L].
    + cbn [flat_map sitem_text]. rewrite app_nil_r, T1, T2. split; [reflexivity|]. split; [constructor; [split; cbn; [now rewrite V1|now rewrite V2]|constructor]|].
      split; [|split; [eauto|constructor; [split; [split; [split; [exact O1|exact O2]|exact P1]|split; [exact P3|exact P2]]|constructor]]].
      intro c. split; [intros (i & [<-|[]] & K); cbn in K; lia|]. intro K. eexists. split; [now left|]. cbn. lia.
    + assert (b = a + 1)%N by lia. cbn [flat_map sitem_text app]. rewrite app_nil_r, T1, T2. split; [reflexivity|].
      split; [constructor; [split; cbn; now rewrite V1|constructor; [split; cbn; now rewrite V2|constructor]]|].
      split; [|split; [eauto|constructor; [split; [split; [exact O1|exact P1]|split; [exact P3|exact P2]]|constructor; [split; [split; [exact O2|exact Q1]|split; [exact Q3|exact Q2]]|constructor]]]].
      intro c. split; [intros (i & [<-|[<-|[]]] & K); cbn in K; lia|]. intro K. assert (c = a \/ c = b)%N as [->| ->] by lia.
      * eexists. split; [now left|]. cbn. lia.
      * eexists. split; [right; now left|]. cbn. lia.
Qed.

Lemma items_of_spec s : cs_good s ->
  flat_map sitem_text (flat_map range_items s) = flat_map fmt_range s /\ Forall sitem_chars (flat_map range_items s) /\ (forall c, (exists i, In i (flat_map range_items s) /\ sitem_has i c) <-> cs_mem c s = true) /\ Forall (fun i => sitem_ok i /\ sitem_first i <> Plain 45 /\ sitem_first i <> Plain 94) (flat_map range_items s).
Proof.
  intro G. assert (R : forall r, In r s -> (fst r <= snd r)%N /\ is_char (fst r) = true /\ is_char (snd r) = true).
  { intros r Hr. destruct (cs_from_In s 0 r G Hr) as (A & B & C & D). auto. }
  clear G. induction s as [|r s IH].
  - split; [reflexivity|]. split; [constructor|]. split; [|constructor]. intro c. split; [intros (i & [] & _)|discriminate].
  - destruct (R r (or_introl eq_refl)) as (A & B & C). destruct (range_items_spec r A B C) as (X1 & X2 & X3 & X4 & X5). destruct (IH (fun r' H => R r' (or_intror H))) as (Y1 & Y2 & Y3 & Y5).
    cbn [flat_map]. rewrite flat_map_app, X1, Y1. split; [reflexivity|]. split; [now apply Forall_app|]. split; [|now apply Forall_app].
    intro c. rewrite cs_mem_cons, <- X3, <- Y3. split.
    + intros (i & Hi & K). apply in_app_iff in Hi as [Hi|Hi]; [left|right]; eauto.
    + intros [(i & Hi & K)|(i & Hi & K)]; exists i; (split; [apply in_app_iff; auto|exact K]).
Qed.

Lemma sitems_ok_all l : Forall (fun i => sitem_ok i /\ sitem_first i <> Plain 45 /\ sitem_first i <> Plain 94) l -> sitems_ok l.
Proof.
  induction 1 as [|i l (H1 & H2 & H3) F IH]; [exact Logic.I|]. split; [exact H1|]. split; [exact IH|]. destruct i; [|exact Logic.I].
  destruct F as [|j l (_ & Hj & _) F]; [exact Logic.I|exact Hj].
Qed.

Record faithful (l : list tok) (text : list N) (L : words) : Prop := {
  fa_text : pattern_text l = text;
  fa_ok : Forall tok_ok l;
  fa_chars : Forall tok_chars l;
  fa_inhabited : Forall sets_inhabited l;
  fa_append : forall r, (* appended to any reading *)
    same (a_done (act_toks l r)) (a_done r) /\ same (a_cur (act_toks l r)) (cat (a_cur r) L)
}.

Lemma faithful_atom t L : (match t with TBar | TOp _ => False | _ => True end) -> tok_ok t -> tok_chars t -> sets_inhabited t -> same (tok_act t) L ->
  faithful [t] (tok_text t) L.
Proof.
  intros NT H1 H2 H3 HL. split; try (constructor; [assumption|constructor]).
  - unfold pattern_text. cbn. apply app_nil_r.
  - intro r. unfold act_toks. cbn [fold_left].
    assert (E : act_tok r t (tok_act t) = Actual (a_done r) (cat (a_cur r) (tok_act t))) by (destruct t; try contradiction; reflexivity).
    rewrite E. cbn [a_done a_cur]. split; [apply same_refl|]. apply same_cat; [apply same_refl|exact HL].
Qed.

Lemma set_toks_faithful s : cs_good s -> s <> [] -> faithful (set_toks s) (fmt_set s) (matches (RSet s)).
Proof.
  intros G NE. unfold set_toks, fmt_set. destruct (N.eqb_spec (cs_len s) 1) as [E|N1].
  - destruct (len_one s G E) as (c & -> & Hc). cbn [fst]. destruct (char_tok_spec c) as (T & O & L & I & C & K). rewrite <- T. apply faithful_atom; auto.
    intros w _. rewrite L, m_set_iff. split.
    + intros ->. exists c. split; [reflexivity|]. apply cs_mem_iff. exists (c, c). split; [now left|cbn; lia].
    + intros (d & -> & H). apply cs_mem_iff in H as (r & [<-|[]] & H). cbn in H. f_equal. lia.
  - assert (IN : exists c, is_char c = true /\ cs_mem c s = true).
    { destruct s as [|[a b] s]; [congruence|]. destruct G as (_ & H & Ha & _). exists a. split; [exact Ha|]. apply cs_mem_iff. exists (a, b). split; [now left|cbn; lia]. }
    destruct IN as (c0 & Hc0 & Hm0).
    destruct (char_count / 2 <? cs_len s)%N.
    + destruct (items_of_spec (cs_gaps s) (gaps_good s G)) as (T & C & M & O).
      assert (HL : forall w, tok_words (TSet true (flat_map range_items (cs_gaps s))) w <-> exists c, w = [c] /\ is_char c = true /\ cs_mem c s = true).
      { intro w. cbn [tok_words]. split; intros (c & -> & Hc & H); exists c; (split; [reflexivity|]); (split; [exact Hc|]).
        - rewrite M, (gaps_mem s c G Hc) in H. destruct (cs_mem c s); [reflexivity|exfalso; now apply H].
        - rewrite M, (gaps_mem s c G Hc), H. discriminate. }
      replace ([91%N] ++ ([94%N] ++ flat_map fmt_range (cs_gaps s)) ++ [93%N]) with (tok_text (TSet true (flat_map range_items (cs_gaps s)))) by (cbn [tok_text]; rewrite T; reflexivity).
      apply faithful_atom; [exact Logic.I| | | |].
      * constructor; [now apply sitems_ok_all|discriminate].
      * now constructor.
      * econstructor. apply HL. exists c0. auto.
      * intros w Cw. cbn [tok_act]. rewrite HL, m_set_iff. split; [intros (c & -> & _ & H); eauto|]. intros (c & -> & H). inversion Cw; subst. eauto.
    + destruct (items_of_spec s G) as (T & C & M & O).
      assert (HL : forall w, tok_words (TSet false (flat_map range_items s)) w <-> exists c, w = [c] /\ is_char c = true /\ cs_mem c s = true).
      { intro w. cbn [tok_words]. split; intros (c & -> & Hc & H); exists c; (split; [reflexivity|]); (split; [exact Hc|]); now apply M. }
      replace ([91%N] ++ flat_map fmt_range s ++ [93%N]) with (tok_text (TSet false (flat_map range_items s))) by (cbn [tok_text]; rewrite T; reflexivity).
      apply faithful_atom; [exact Logic.I| | | |].
      * constructor; [now apply sitems_ok_all|]. intros _ i l' E. rewrite E in O. now inversion O.
      * now constructor.
      * econstructor. apply HL. exists c0. auto.
      * intros w Cw. cbn [tok_act]. rewrite HL, m_set_iff. split; [intros (c & -> & _ & H); eauto|]. intros (c & -> & H). inversion Cw; subst. eauto.
Qed.

(** Displayed alone. *)
Record displays (l : list tok) (text : list N) (L : words) : Prop := {
  di_text : pattern_text l = text;
  di_ok : Forall tok_ok l;
  di_chars : Forall tok_chars l;
  di_inhabited : Forall sets_inhabited l;
  di_words : same (act_all (act_toks l act_start)) L
}.

Lemma faithful_displays l text L : faithful l text L -> displays l text L.
Proof.
  intros [T O C I A]. split; try assumption. destruct (A act_start) as [A1 A2]. intros w Cw. unfold act_all. rewrite (A1 w Cw), (A2 w Cw). cbn [a_done a_cur act_start].
  rewrite cat_eps_l. tauto.
Qed.
Lemma displays_group l text L : displays l text L -> faithful [TGroup l] ([40%N] ++ text ++ [41%N]) L.
Proof.
  intros [T O C I A]. replace ([40%N] ++ text ++ [41%N]) with (tok_text (TGroup l)) by (cbn [tok_text]; unfold pattern_text in T; rewrite T; reflexivity).
  apply faithful_atom; [exact Logic.I|now constructor|now constructor|now constructor|exact A].
Qed.

Lemma act_toks_app l1 l2 r : act_toks (l1 ++ l2) r = act_toks l2 (act_toks l1 r).
Proof. unfold act_toks. apply fold_left_app. Qed.
Lemma pattern_text_app l1 l2 : pattern_text (l1 ++ l2) = pattern_text l1 ++ pattern_text l2.
Proof. apply flat_map_app. Qed.

Lemma faithful_nil : faithful [] [] eps.
Proof. split; try constructor; [apply same_refl|]. apply same_iff. intro. symmetry. apply cat_eps_r. Qed.
Lemma faithful_app l1 l2 t1 t2 L1 L2 : faithful l1 t1 L1 -> faithful l2 t2 L2 -> faithful (l1 ++ l2) (t1 ++ t2) (cat L1 L2).
Proof.
  intros [T1 O1 C1 I1 A1] [T2 O2 C2 I2 A2]. split; try (apply Forall_app; auto).
  - now rewrite pattern_text_app, T1, T2.
  - intro r. rewrite act_toks_app. destruct (A1 r) as [X1 X2]. destruct (A2 (act_toks l1 r)) as [Y1 Y2]. split; [eapply same_trans; eassumption|].
    eapply same_trans; [exact Y2|]. eapply same_trans; [apply same_cat; [exact X2|apply same_refl]|]. apply same_iff. intro. apply cat_assoc.
Qed.
Lemma faithful_same l t L L' : same L L' -> faithful l t L -> faithful l t L'.
Proof. intros S [T O C I A]. split; try assumption. intro r. destruct (A r) as [X Y]. split; [exact X|]. eapply same_trans; [exact Y|]. apply same_cat; [apply same_refl|exact S]. Qed.

Lemma act_op r o : act_toks [TOp o] r = Actual (a_done r) (op_words o (a_cur r)).
Proof. reflexivity. Qed.

Definition sub_faithful (e : regexp) : Prop := faithful (paren_toks e (toks_of e)) (parens e (re_display e)) (matches e).

Lemma printed e : sets_good e -> printable e ->
  displays (toks_of e) (re_display e) (matches e) /\ (re_is_simple e = true -> faithful (toks_of e) (re_display e) (matches e)).
Proof.
  induction e as [|s|l IH|e min max IH|l IH] using regexp_ind'; intros SG PR.
  - inversion PR.
  - inversion SG; inversion PR; subst. pose proof (set_toks_faithful s H0 H2) as F. split; [now apply faithful_displays|auto].
  - enough (F : faithful (toks_of (RSequence l)) (re_display (RSequence l)) (matches (RSequence l))) by (split; [now apply faithful_displays|auto]).
    inversion SG as [| |l' SGl| |]; inversion PR as [|l'' PRl SI| | | |]; subst. cbn [toks_of re_display].
    destruct l as [|e [|e' l0]].
    + cbn. apply (faithful_same _ _ eps); [apply same_iff; intro; symmetry; apply m_nil_iff|exact faithful_nil].
    + cbn [length Nat.ltb Nat.leb flat_map]. rewrite !app_nil_r. inversion IH; inversion SGl; inversion PRl; subst.
      apply (faithful_same _ _ (matches e)); [apply same_iff; intro; symmetry; apply m_seq_one|]. apply H1; auto.
    + remember (e :: e' :: l0) as l eqn:El. assert (Lt : Nat.ltb 1 (length l) = true) by (subst l; reflexivity). rewrite Lt.
      assert (ALL : forall e, In e l -> sub_faithful e).
      { intros x Hx. rewrite Forall_forall in *. destruct (IH x Hx (SGl x Hx) (PRl x Hx)) as [D F]. unfold sub_faithful, paren_toks, parens.
        destruct (re_is_simple x); [auto|now apply displays_group]. }
      clear - ALL. induction l as [|x l IH].
      * apply (faithful_same _ _ eps); [apply same_iff; intro; symmetry; apply m_nil_iff|exact faithful_nil].
      * cbn [flat_map]. apply (faithful_same _ _ (cat (matches x) (matches (RSequence l)))); [apply same_iff; intro; symmetry; apply m_cons_iff|].
        apply faithful_app; [apply ALL; now left|]. apply IH. intros y Hy. apply ALL. now right.
  - assert (SG' : sets_good e) by (inversion SG; assumption). assert (PR' : printable e) by (inversion PR; assumption).
    destruct (IH SG' PR') as [D F]. split; [|discriminate].
    assert (SF : sub_faithful e) by (unfold sub_faithful, paren_toks, parens; destruct (re_is_simple e); [auto|now apply displays_group]).
    destruct SF as [T O C I A]. cbn [toks_of re_display].
    assert (K : exists o, counts_op min max = o /\ fmt_counts min max = [op_char o] /\ RRepeat e min max = op_re o e).
    { inversion PR; subst; [exists OOptional|exists OStar|exists OPlus]; auto. }
    destruct K as (o & -> & -> & ->). split; try (apply Forall_app; split; [assumption|constructor; [constructor|constructor]]).
    + rewrite pattern_text_app, T. reflexivity.
    + rewrite act_toks_app, act_op. destruct (A act_start) as [X Y]. unfold act_all. cbn [a_done a_cur].
      intros w Cw. rewrite (X w Cw). cbn [a_done act_start]. rewrite (same_op o _ _ Y w Cw), op_matches.
      rewrite (same_op o (cat (a_cur act_start) (matches e)) (matches e) (same_iff _ _ (cat_eps_l _)) w Cw). tauto.
  - split; [|discriminate]. inversion SG as [| | |l' SGl|]; inversion PR as [| |l'' NE PRl| | |]; subst. cbn [toks_of re_display].
    assert (ALL : forall e, In e l -> sub_faithful e).
    { intros x Hx. rewrite Forall_forall in *. destruct (IH x Hx (SGl x Hx) (PRl x Hx)) as [D F]. unfold sub_faithful, paren_toks, parens.
      destruct (re_is_simple x); [auto|now apply displays_group]. }
    set (f := fun e => paren_toks e (toks_of e)).
    set (go := fix go (first : bool) (l : list regexp) {struct l} : list N :=
      match l with [] => [] | e :: l' => (if first then [] else [124%N]) ++ parens e (re_display e) ++ go false l' end).
    assert (G : forall l, l <> [] -> (forall e, In e l -> sub_faithful e) ->
      pattern_text (union_toks f l) = go true l /\ Forall tok_ok (union_toks f l) /\ Forall tok_chars (union_toks f l) /\ Forall sets_inhabited (union_toks f l) /\ forall r, same (a_cur r) eps -> same (act_all (act_toks (union_toks f l) r)) (fun w => a_done r w \/ matches (RUnion l) w)).
    { clear. intros l. induction l as [|e l IH]; intros NE ALL; [congruence|]. pose proof (ALL e (or_introl eq_refl)) as [T O C I A].
      destruct l as [|e' l].
      - cbn [union_toks go app]. rewrite app_nil_r. split; [exact T|]. split; [exact O|]. split; [exact C|]. split; [exact I|].
        intros r Hr. destruct (A r) as [X Y]. intros w Cw. unfold act_all. fold (f e) in X, Y. rewrite (X w Cw), (Y w Cw).
        rewrite (same_cat_eps _ (matches e) Hr w Cw), m_union_iff. cbn [In]. split; [intros [H|H]; [auto|right; eauto]|]. intros [H|(x & [<-|[]] & H)]; auto.
      - destruct (IH ltac:(discriminate) (fun x H => ALL x (or_intror H))) as (T' & O' & C' & I' & A').
        change (union_toks f (e :: e' :: l)) with (f e ++ TBar :: union_toks f (e' :: l)).
        assert (GG : go true (e :: e' :: l) = parens e (re_display e) ++ 124%N :: go true (e' :: l)) by reflexivity. rewrite GG.
        split; [|split; [|split; [|split]]].
        + rewrite pattern_text_app. unfold f at 1. rewrite T. f_equal. unfold pattern_text in *. cbn [flat_map tok_text app]. now rewrite T'.
        + apply Forall_app. split; [exact O|]. constructor; [constructor|exact O'].
        + apply Forall_app. split; [exact C|]. constructor; [constructor|exact C'].
        + apply Forall_app. split; [exact I|]. constructor; [constructor|exact I'].
        + intros r Hr. rewrite act_toks_app. change (TBar :: union_toks f (e' :: l)) with ([TBar] ++ union_toks f (e' :: l)). rewrite act_toks_app.
          destruct (A r) as [X Y]. fold (f e) in X, Y. intros w Cw.
          rewrite (A' (act_toks [TBar] (act_toks (f e) r)) (same_refl _) w Cw).
          assert (Z : a_done (act_toks [TBar] (act_toks (f e) r)) w <-> a_done (act_toks (f e) r) w \/ a_cur (act_toks (f e) r) w) by reflexivity.
          rewrite Z, (X w Cw), (Y w Cw), (same_cat_eps _ (matches e) Hr w Cw), !m_union_iff. cbn [In]. split.
          * intros [[H|H]|(x & Hx & H)]; [auto|right; exists e; auto|right; exists x; tauto].
          * intros [H|(x & [<-|Hx] & H)]; [auto|auto|right; exists x; auto]. }
    destruct (G l NE ALL) as (T & O & C & I & A). split; [exact T|exact O|exact C|exact I|].
    intros w Cw. rewrite (A act_start (same_refl _) w Cw). cbn. tauto.
Qed.

Theorem print_parse e : sets_good e -> printable e ->
  exists e', re_parse (re_display e) = Ok e' /\ forall w, chars w -> (matches e' w <-> matches e w).
Proof.
  intros SG PR. destruct (printed e SG PR) as [[T O C I A] _]. exists (tokens_re (toks_of e)). split; [rewrite <- T; now apply parse_tokens|].
  destruct (tokens_lang _ C I) as [_ L]. intros w Cw. rewrite (L w Cw). exact (A w Cw).
Qed.

(** *** Strings *)
Lemma from_str_snoc s c : re_from_str (s ++ [c]) = re_push (re_from_str s) (RSet (cs_char c)).
Proof. unfold re_from_str. now rewrite fold_left_app. Qed.

Lemma from_str_shape s : re_from_str s = match s with [c] => RSet (cs_char c) | _ => RSequence (map (fun c => RSet (cs_char c)) s) end.
Proof.
  induction s as [|c s IH] using rev_ind; [reflexivity|]. rewrite from_str_snoc, IH. destruct s as [|a [|b s]]; try reflexivity.
  rewrite map_app. reflexivity.
Qed.

Lemma from_str_lang s w : matches (re_from_str s) w <-> w = s.
Proof.
  assert (G : forall s w, matches (RSequence (map (fun c => RSet (cs_char c)) s)) w <-> w = s).
  { clear. induction s as [|c s IH]; intro w; cbn [map]; [apply m_nil_iff|]. rewrite m_cons_iff. split.
    - intros (u & v & -> & H1 & H2). apply IH in H2. apply m_set_iff in H1 as (d & -> & H). apply cs_char_mem in H. now subst.
    - intros ->. exists [c], s. split; [reflexivity|]. split; [|now apply IH]. apply m_set_iff. exists c. split; [reflexivity|]. now apply cs_char_mem. }
  rewrite from_str_shape. destruct s as [|c [|d s]]; try apply G. rewrite m_set_iff. split.
  - intros (x & -> & H). apply cs_char_mem in H. now subst.
  - intros ->. exists c. split; [reflexivity|]. now apply cs_char_mem.
Qed.

Lemma cs_char_list c : cs_char c = [(c, c)].
Proof. unfold cs_char, cs_insert. cbn [fst snd]. now rewrite N.ltb_irrefl. Qed.
Lemma char_len c : cs_len [(c, c)] = 1%N.
Proof.
  unfold cs_len, range_len. cbn [fold_right fst snd]. rewrite N.ltb_irrefl. destruct (N.leb_spec c 55295), (N.leb_spec 57344 c); cbn [andb]; lia.
Qed.
Lemma display_char c : fmt_set (cs_char c) = fmt_char c.
Proof. rewrite cs_char_list. unfold fmt_set. now rewrite char_len. Qed.
Lemma display_from_str s : re_display (re_from_str s) = pattern_text (map char_tok s).
Proof.
  assert (G : pattern_text (map char_tok s) = flat_map fmt_char s).
  { unfold pattern_text. induction s as [|c s IH]; [reflexivity|]. cbn [map flat_map]. rewrite IH. f_equal. apply char_tok_spec. }
  rewrite G, from_str_shape.
  assert (K : forall s, flat_map (fun e => parens e (re_display e)) (map (fun c => RSet (cs_char c)) s) = flat_map fmt_char s).
  { clear. induction s as [|c s IH]; [reflexivity|]. cbn [map flat_map]. rewrite IH. cbn [parens re_is_simple re_display]. now rewrite display_char. }
  destruct s as [|c [|d s]].
  - reflexivity.
  - cbn [re_display flat_map]. now rewrite display_char, app_nil_r.
  - rewrite <- K. reflexivity.
Qed.

Theorem from_str_parse s : re_parse (re_display (re_from_str s)) = Ok (re_from_str s).
Proof.
  rewrite display_from_str, parse_tokens.
  2:{ apply Forall_forall. intros t Ht. apply in_map_iff in Ht as (c & <- & _). apply char_tok_spec. }
  f_equal. unfold tokens_re.
  assert (A : forall s e, apply_toks (map char_tok s) [e] = [fold_left (fun e c => re_push e (RSet (cs_char c))) s e]).
  { clear. induction s as [|c s IH]; intro e; [reflexivity|]. cbn [map apply_toks fold_left]. fold (apply_toks (map char_tok s) (apply_tok (char_tok c) [e])).
    rewrite <- IH. f_equal. unfold char_tok. destruct (fmt_char_cases c) as [(d & -> & E)|(-> & _)]; cbn [apply_tok set_last]; [now rewrite E|reflexivity]. }
  rewrite A. cbn [rev app]. fold (re_from_str s). rewrite from_str_shape.
  destruct s as [|c [|d s]]; try reflexivity.
  cbn [re_simplified]. f_equal. induction (c :: d :: s) as [|x l IH]; [reflexivity|]. cbn [map flat_map]. rewrite IH. now rewrite cs_char_list.
Qed.
