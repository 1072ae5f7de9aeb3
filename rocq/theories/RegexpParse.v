(** * Parsing of regular expressions: proofs *)

From Coq Require Import String List Bool Arith NArith Lia.
Import ListNotations.
From Verif Require Import Base BaseProofs Orders CharModel CharSpec CharProofs RegexpModel RegexpSpec RegexpBuild.
Open Scope list_scope.

Section TokInd.
Variable P : tok -> Prop.
Hypothesis Pbar : P TBar.
Hypothesis Pop : forall o, P (TOp o).
Hypothesis Pchar : forall c, P (TChar c).
Hypothesis Pesc : forall c, P (TEscape c).
Hypothesis Pset : forall neg l, P (TSet neg l).
Hypothesis Pgroup : forall l, Forall P l -> P (TGroup l).
Fixpoint tok_ind' (t : tok) : P t :=
  match t with
  | TBar => Pbar
  | TOp o => Pop o
  | TChar c => Pchar c
  | TEscape c => Pesc c
  | TSet neg l => Pset neg l
  | TGroup l => Pgroup l ((fix go l : Forall P l := match l with [] => Forall_nil _ | t :: l => Forall_cons _ (tok_ind' t) (go l) end) l)
  end.
End TokInd.

(** ** Characters *)
Ltac charcase c := destruct c as [|c]; [|do 8 (try (destruct c as [c|c|]))].

Lemma unescape_of c : unescape c = escape_of c.
Proof. charcase c; reflexivity. Qed.

(** A printed character is either escaped, or itself and not special, even in a set. *)
Lemma fmt_char_cases c :
  (exists d, fmt_char c = [92%N; d] /\ escape_of d = c) \/
  (fmt_char c = [c] /\ special c = false /\ c <> 93%N /\ c <> 94%N /\ c <> 45%N /\ c <> 92%N).
Proof.
  charcase c; first [left; eexists; split; reflexivity|right; repeat split; try reflexivity; discriminate].
Qed.

(** ** Character sets *)
Definition item_range (i : sitem) : N * N :=
  match i with IOne x => (schar_value x, schar_value x) | IRange x y => (schar_value x, schar_value y) end.
Definition insert_items (l : list sitem) (set : charset) : charset :=
  fold_left (fun s i => cs_insert (item_range i) s) l set.
Definition charset_of (neg : bool) (l : list sitem) : charset :=
  let set := insert_items l [] in if neg then cs_complement set else set.

Definition before (st : set_state) (x : schar) : Prop :=
  match st with
  | Start => x <> Plain 94
  | RangeStart => True
  | RangeDashOrStart => x <> Plain 45
  | RangeEnd => False
  end.

Lemma read_first x st neg start set r : schar_ok x -> x <> Plain 93 -> before st x ->
  parse_charset st neg start set (schar_text x ++ r) =
  parse_charset RangeDashOrStart neg (Some (schar_value x)) (insert_start start set) r.
Proof.
  intros OK N B. destruct x as [c|c]; cbn [schar_text schar_value app].
  - cbn [schar_ok] in OK. assert (c <> 93%N) by congruence. cbn [parse_charset]. destruct st; cbn [before] in B; try contradiction.
    + assert (c <> 94%N) by congruence. now rewrite (proj2 (N.eqb_neq c 94)), (proj2 (N.eqb_neq c 93)), (proj2 (N.eqb_neq c 92)).
    + now rewrite (proj2 (N.eqb_neq c 93)), (proj2 (N.eqb_neq c 92)).
    + assert (c <> 45%N) by congruence. now rewrite (proj2 (N.eqb_neq c 45)), (proj2 (N.eqb_neq c 93)), (proj2 (N.eqb_neq c 92)).
  - rewrite <- unescape_of. destruct st; try contradiction; reflexivity.
Qed.

Lemma read_last y neg a set r : schar_ok y ->
  parse_charset RangeEnd neg (Some a) set (schar_text y ++ r) = parse_charset RangeStart neg None (cs_insert (a, schar_value y) set) r.
Proof.
  intros OK. destruct y as [c|c]; cbn [schar_text schar_value app].
  - cbn [schar_ok] in OK. cbn [parse_charset]. now rewrite (proj2 (N.eqb_neq c 92)).
  - rewrite <- unescape_of. reflexivity.
Qed.

Lemma read_dash neg start set r : parse_charset RangeDashOrStart neg start set (45%N :: r) = parse_charset RangeEnd neg start set r.
Proof. reflexivity. Qed.
Lemma read_close st neg start set r : st <> RangeEnd ->
  parse_charset st neg start set (93%N :: r) = Ok (if neg then cs_complement (insert_start start set) else insert_start start set, r).
Proof. destruct st; intro; [reflexivity|reflexivity|reflexivity|congruence]. Qed.

Lemma parse_items l : sitems_ok l -> forall st neg start set r, st <> RangeEnd -> (forall i l', l = i :: l' -> before st (sitem_first i)) ->
  parse_charset st neg start set (flat_map sitem_text l ++ 93%N :: r) =
  Ok (if neg then cs_complement (insert_items l (insert_start start set)) else insert_items l (insert_start start set), r).
Proof.
  induction l as [|i l IH]; intros OK st neg start set r NE HB; [now apply read_close|].
  destruct OK as ([O1 O2] & O3 & O4). specialize (HB i l eq_refl). cbn [flat_map]. rewrite <- app_assoc. destruct i as [x|x y]; cbn [sitem_text sitem_first] in *.
  - rewrite read_first by assumption. rewrite (IH O3); [reflexivity|discriminate|]. intros j l' ->. exact O4.
  - rewrite <- !app_assoc. destruct O1 as [Ox Oy]. rewrite read_first by assumption. cbn [app]. rewrite read_dash, read_last by assumption.
    rewrite (IH O3); [reflexivity|discriminate|]. intros; exact Logic.I.
Qed.

Lemma parse_set neg l r : tok_ok (TSet neg l) ->
  parse_charset Start false None [] ((if neg then [94%N] else []) ++ flat_map sitem_text l ++ 93%N :: r) = Ok (charset_of neg l, r).
Proof.
  intro OK. inversion OK as [| | | |? ? O1 O2|]; subst. destruct neg; cbn [app].
  - change (parse_charset Start false None [] (94%N :: ?s)) with (parse_charset RangeStart true None [] s).
    rewrite parse_items; [reflexivity|exact O1|discriminate|intros; exact Logic.I].
  - rewrite parse_items; [reflexivity|exact O1|discriminate|]. intros i l' E. exact (O2 eq_refl i l' E).
Qed.

(** Conversely. *)
Lemma parse_items_inv n : forall s, length s <= n -> forall neg start set res r,
  (parse_charset RangeStart neg start set s = Ok (res, r) -> exists l, sitems_ok l /\ s = flat_map sitem_text l ++ 93%N :: r) /\
  (parse_charset RangeDashOrStart neg start set s = Ok (res, r) ->
     (exists l, sitems_ok l /\ (forall i l', l = i :: l' -> sitem_first i <> Plain 45) /\ s = flat_map sitem_text l ++ 93%N :: r) \/
     (exists y l, schar_ok y /\ sitems_ok l /\ s = 45%N :: schar_text y ++ flat_map sitem_text l ++ 93%N :: r)).
Proof.
  induction n as [|n IH]; intros s Ln neg start set res r.
  - destruct s; [|cbn in Ln; lia]. split; discriminate.
  - assert (IT : forall c s', s = c :: s' -> c <> 93%N ->
      (if (c =? 92)%N then match s' with [] => Err IncompleteEscapeSequence | d :: s'' => parse_charset RangeDashOrStart neg (Some (unescape d)) (insert_start start set) s'' end
       else parse_charset RangeDashOrStart neg (Some c) (insert_start start set) s') = Ok (res, r) ->
      exists i l, sitems_ok (i :: l) /\ s = flat_map sitem_text (i :: l) ++ 93%N :: r /\ (c <> 45%N -> sitem_first i <> Plain 45)).
    { intros c s' -> N93 H. cbn [length] in Ln. destruct (N.eqb_spec c 92) as [->|N92].
      - destruct s' as [|d s'']; [discriminate|]. cbn [length] in Ln.
        destruct (IH s'' ltac:(lia) neg (Some (unescape d)) (insert_start start set) res r) as [_ K]. destruct (K H) as [(l & O & F & ->)|(y & l & Oy & O & ->)].
        + exists (IOne (Esc d)), l. split; [|split; [reflexivity|discriminate]]. split; [split; [exact Logic.I|discriminate]|]. split; [exact O|].
          destruct l as [|j l]; [exact Logic.I|]. exact (F j l eq_refl).
        + exists (IRange (Esc d) y), l. split; [|split; [cbn; rewrite <- !app_assoc; reflexivity|discriminate]].
          split; [split; [split; [exact Logic.I|exact Oy]|discriminate]|]. split; [exact O|exact Logic.I].
      - destruct (IH s' ltac:(lia) neg (Some c) (insert_start start set) res r) as [_ K]. destruct (K H) as [(l & O & F & ->)|(y & l & Oy & O & ->)].
        + exists (IOne (Plain c)), l. split; [|split; [reflexivity|cbn; congruence]]. split; [split; [exact N92|cbn; congruence]|]. split; [exact O|].
          destruct l as [|j l]; [exact Logic.I|]. exact (F j l eq_refl).
        + exists (IRange (Plain c) y), l. split; [|split; [cbn; rewrite <- !app_assoc; reflexivity|cbn; congruence]].
          split; [split; [split; [exact N92|exact Oy]|cbn; congruence]|]. split; [exact O|exact Logic.I]. }
    destruct s as [|c s']; [split; discriminate|]. split; intro H; cbn [parse_charset] in H.
    + destruct (N.eqb_spec c 93) as [->|N93].
      * injection H as _ <-. exists []. split; [exact Logic.I|reflexivity].
      * destruct (IT c s' eq_refl N93 H) as (i & l & O & E & _). now exists (i :: l).
    + destruct (N.eqb_spec c 45) as [->|N45].
      * right. destruct s' as [|d s'']; [discriminate|]. cbn [parse_charset] in H. cbn [length] in Ln.
        destruct (N.eqb_spec d 92) as [->|N92].
        -- destruct s'' as [|d' s3]; [discriminate|]. destruct start as [a|]; [|discriminate]. cbn [length] in Ln.
           apply (IH s3) in H; [|lia]. destruct H as (l & O & ->). exists (Esc d'), l. split; [exact Logic.I|]. split; [exact O|reflexivity].
        -- destruct start as [a|]; [|discriminate]. apply (IH s'') in H; [|lia]. destruct H as (l & O & ->). exists (Plain d), l. auto.
      * left. destruct (N.eqb_spec c 93) as [->|N93].
        -- injection H as _ <-. exists []. split; [exact Logic.I|]. split; [discriminate|reflexivity].
        -- destruct (IT c s' eq_refl N93 H) as (i & l & O & E & F). exists (i :: l). split; [exact O|]. split; [|exact E]. intros ? ? [= <- <-]. auto.
Qed.

Lemma parse_set_inv s res r : parse_charset Start false None [] s = Ok (res, r) ->
  exists neg l, tok_ok (TSet neg l) /\ s = (if neg then [94%N] else []) ++ flat_map sitem_text l ++ 93%N :: r /\ res = charset_of neg l.
Proof.
  intro H. assert (K : exists neg l, tok_ok (TSet neg l) /\ s = (if neg then [94%N] else []) ++ flat_map sitem_text l ++ 93%N :: r).
  { destruct s as [|c s]; [discriminate|]. destruct (N.eqb_spec c 94) as [->|N94].
    - change (parse_charset RangeStart true None [] s = Ok (res, r)) in H. apply (parse_items_inv (length s) s) in H as (l & O & ->); [|lia].
      exists true, l. split; [|reflexivity]. constructor; [exact O|discriminate].
    - assert (H' : parse_charset RangeStart false None [] (c :: s) = Ok (res, r)).
      { rewrite <- H. cbn [parse_charset]. now rewrite (proj2 (N.eqb_neq c 94)). }
      apply (parse_items_inv (length (c :: s)) (c :: s)) in H' as (l & O & E); [|lia]. exists false, l. split; [|exact E].
      constructor; [exact O|]. intros _ i l' ->. intro F. destruct i as [x|x y]; cbn [sitem_first] in F; subst x; cbn in E; congruence. }
  destruct K as (neg & l & O & ->). exists neg, l. split; [exact O|]. split; [reflexivity|]. rewrite (parse_set neg l r O) in H. congruence.
Qed.

(** No panic, and characters are consumed. *)
Lemma parse_charset_total n : forall s, length s <= n -> forall st neg start set, (start = None -> st = Start \/ st = RangeStart) ->
  match parse_charset st neg start set s with Ok (_, r) => length r < length s | Err _ => True | _ => False end.
Proof.
  induction n as [|n IH]; intros s Ln st neg start set HS; (destruct s as [|c s]; [exact Logic.I|]); cbn [length] in Ln; [lia|].
  assert (REC : forall s' st neg start set, length s' <= length s -> (start = None -> st = Start \/ st = RangeStart) ->
    match parse_charset st neg start set s' with Ok (_, r) => length r < length (c :: s) | Err _ => True | _ => False end).
  { intros s' st' neg' start' set' L HS'. specialize (IH s' ltac:(lia) st' neg' start' set' HS').
    destruct (parse_charset st' neg' start' set' s') as [[res r]| | |]; cbn [length]; try exact IH. lia. }
  assert (IT : match (if (c =? 93)%N then Ok (if neg then cs_complement (insert_start start set) else insert_start start set, s)
      else if (c =? 92)%N then match s with [] => Err IncompleteEscapeSequence | d :: s'' => parse_charset RangeDashOrStart neg (Some (unescape d)) (insert_start start set) s'' end
       else parse_charset RangeDashOrStart neg (Some c) (insert_start start set) s) with Ok (_, r) => length r < length (c :: s) | Err _ => True | _ => False end).
  { destruct (c =? 93)%N; [cbn; lia|]. destruct (c =? 92)%N.
    - destruct s as [|d s]; [exact Logic.I|]. apply REC; [cbn; lia|auto; discriminate].
    - apply REC; [lia|auto; discriminate]. }
  destruct st; cbn [parse_charset].
  - destruct (c =? 94)%N; [apply REC; [lia|auto; discriminate]|exact IT].
  - exact IT.
  - destruct (c =? 45)%N.
    + destruct start as [a|]; [apply REC; [lia|auto; discriminate]|].
      destruct (HS eq_refl); discriminate.
    + exact IT.
  - destruct start as [a|]; [|destruct (HS eq_refl); discriminate]. destruct (c =? 92)%N.
    + destruct s as [|d s]; [exact Logic.I|]. apply REC; [cbn; lia|auto; discriminate].
    + apply REC; [lia|auto; discriminate].
Qed.

(** ** Tokens *)
Definition set_last (f : regexp -> regexp) (top : list regexp) : list regexp :=
  match top with cur :: opts => f cur :: opts | [] => [] end.
Definition op_re (o : op) (e : regexp) : regexp :=
  match o with OOptional => RRepeat e 0 (Some 1) | OStar => RRepeat e 0 None | OPlus => RRepeat e 1 None end.

Fixpoint apply_tok (t : tok) (top : list regexp) : list regexp :=
  match t with
  | TBar => re_empty :: top
  | TOp o => set_last (op_re o) top
  | TChar c => set_last (fun cur => re_push cur (RSet (cs_char c))) top
  | TEscape c => set_last (fun cur => re_push cur (RSet (cs_char (escape_of c)))) top
  | TSet neg l => set_last (fun cur => re_push cur (RSet (charset_of neg l))) top
  | TGroup l =>
      set_last (fun cur => re_push cur (re_simplified (RUnion (rev (fold_left (fun top t => apply_tok t top) l [re_empty]))))) top
  end.
Definition apply_toks (l : list tok) (top : list regexp) : list regexp := fold_left (fun top t => apply_tok t top) l top.

Lemma apply_tok_nonempty t top : top <> [] -> apply_tok t top <> [].
Proof. destruct top as [|cur opts]; [congruence|]. intros _. destruct t; discriminate. Qed.
Lemma apply_toks_nonempty l : forall top, top <> [] -> apply_toks l top <> [].
Proof. induction l as [|t l IH]; intros top H; [exact H|]. apply IH, apply_tok_nonempty, H. Qed.

Inductive psteps : parse_stack -> list N -> parse_stack -> list N -> Prop :=
| ps_refl st s : psteps st s st s
| ps_step st c s st1 s1 st' s' : parse_step st c s = Ok (st1, s1) -> psteps st1 s1 st' s' -> psteps st (c :: s) st' s'.
Lemma ps_trans st s st1 s1 : psteps st s st1 s1 -> forall st' s', psteps st1 s1 st' s' -> psteps st s st' s'.
Proof. induction 1; intros; [assumption|]. eapply ps_step; eauto. Qed.
Lemma ps_one st c s st1 s1 : parse_step st c s = Ok (st1, s1) -> psteps st (c :: s) st1 s1.
Proof. intro H. eapply ps_step; [exact H|constructor]. Qed.

Lemma step_char top st c s : top <> [] -> special c = false ->
  parse_step (top :: st) c s = Ok (apply_tok (TChar c) top :: st, s).
Proof.
  intros NE SP. destruct top as [|cur opts]; [congruence|]. unfold special in SP. cbn [existsb] in SP.
  repeat (apply orb_false_iff in SP as [?E SP]). unfold parse_step. rewrite E, E0, E1, E2, E3, E4, E5, E6. reflexivity.
Qed.

Lemma tok_steps t : tok_ok t -> forall top st r, top <> [] -> psteps (top :: st) (tok_text t ++ r) (apply_tok t top :: st) r.
Proof.
  induction t as [|o|c|c|neg l|l IH] using tok_ind'; intros OK top st r NE; (destruct top as [|cur opts]; [congruence|]).
  - now apply ps_one.
  - destruct o; now apply ps_one.
  - inversion OK; subst. apply ps_one. now apply step_char.
  - apply ps_one. unfold parse_step. cbn [N.eqb Pos.eqb]. cbn [parse_escaped_char app bind update_last]. rewrite unescape_of. reflexivity.
  - cbn [tok_text]. rewrite <- !app_assoc. apply ps_one. unfold parse_step. cbn [N.eqb Pos.eqb].
    cbn [app]. rewrite (parse_set neg l r OK). reflexivity.
  - cbn [tok_text]. rewrite <- !app_assoc. cbn [app]. eapply ps_step; [reflexivity|].
    inversion OK as [| | | | |l' OKl]; subst.
    assert (G : forall top0, top0 <> [] -> psteps (top0 :: (cur :: opts) :: st) (flat_map tok_text l ++ 41%N :: r) (apply_toks l top0 :: (cur :: opts) :: st) (41%N :: r)).
    { clear OK NE. induction l as [|t l IHl]; intros top0 NE; [constructor|]. inversion IH; inversion OKl; subst.
      cbn [flat_map]. rewrite <- app_assoc. eapply ps_trans; [apply H1; assumption|]. apply IHl; [assumption|assumption|now apply apply_tok_nonempty]. }
    eapply ps_trans; [apply G; discriminate|]. now apply ps_one.
Qed.

Lemma toks_steps l : Forall tok_ok l -> forall top st r, top <> [] ->
  psteps (top :: st) (pattern_text l ++ r) (apply_toks l top :: st) r.
Proof.
  induction 1 as [|t l H F IH]; intros top st r NE; [constructor|]. unfold pattern_text. cbn [flat_map]. rewrite <- app_assoc.
  eapply ps_trans; [now apply tok_steps|]. apply IH. now apply apply_tok_nonempty.
Qed.

(** ** The loop *)
Definition stack_ok (st : parse_stack) : Prop := Forall (fun top => top <> []) st /\ st <> [].

Lemma parse_step_total st c s : stack_ok st ->
  match parse_step st c s with Ok (st', s') => stack_ok st' /\ length s' <= length s | Err _ => True | _ => False end.
Proof.
  intros [F NE]. destruct st as [|top st]; [congruence|]. inversion F as [|? ? N1 F1]; subst. destruct top as [|cur opts]; [congruence|].
  assert (SO : forall e, stack_ok ((e :: opts) :: st)) by (intro e; split; [constructor; [discriminate|exact F1]|discriminate]).
  unfold parse_step.
  destruct (c =? 40)%N; [split; [split; [constructor; [discriminate|exact F]|discriminate]|lia]|].
  destruct (c =? 41)%N.
  { destruct st as [|top' st]; [exact Logic.I|]. inversion F1 as [|? ? N2 F2]; subst. destruct top' as [|cur' opts']; [congruence|].
    cbn [update_last bind]. split; [|lia]. split; [constructor; [discriminate|exact F2]|discriminate]. }
  destruct (c =? 124)%N; [split; [split; [constructor; [discriminate|exact F1]|discriminate]|lia]|].
  destruct (c =? 91)%N.
  { pose proof (parse_charset_total (length s) s (le_n _) Start false None [] ltac:(auto)) as T.
    destruct (parse_charset Start false None [] s) as [[set s']| | |]; cbn [bind]; try exact T. cbn [update_last bind]. split; [apply SO|lia]. }
  destruct (c =? 92)%N.
  { destruct s as [|d s]; [exact Logic.I|]. cbn [parse_escaped_char bind update_last]. split; [apply SO|cbn; lia]. }
  destruct (c =? 63)%N; [split; [apply SO|lia]|]. destruct (c =? 42)%N; [split; [apply SO|lia]|]. destruct (c =? 43)%N; (split; [apply SO|lia]).
Qed.

Lemma psteps_ok st s st' s' : psteps st s st' s' -> stack_ok st -> stack_ok st' /\ length s' <= length s.
Proof.
  induction 1 as [|st c s st1 s1 st' s' E R IH]; intro OK; [auto|]. pose proof (parse_step_total st c s OK) as T. rewrite E in T.
  destruct T as [T1 T2]. destruct (IH T1). cbn [length]. split; [assumption|lia].
Qed.

Lemma parse_loop_total fuel : forall st s, length s < fuel -> stack_ok st ->
  match parse_loop fuel st s with Ok st' => stack_ok st' /\ psteps st s st' [] | Err _ => True | _ => False end.
Proof.
  induction fuel as [|fuel IH]; intros st s L OK; [lia|]. cbn [parse_loop]. destruct s as [|c s]; [split; [exact OK|constructor]|].
  cbn [length] in L. pose proof (parse_step_total st c s OK) as T. destruct (parse_step st c s) as [[st1 s1]| | |] eqn:E; cbn [bind]; try exact T.
  destruct T as [T1 T2]. specialize (IH st1 s1 ltac:(lia) T1). destruct (parse_loop fuel st1 s1) as [st'| | |]; try exact IH.
  destruct IH as [I1 I2]. split; [exact I1|eapply ps_step; eassumption].
Qed.

Lemma psteps_loop st s st' : psteps st s st' [] -> forall fuel, length s < fuel -> stack_ok st -> parse_loop fuel st s = Ok st'.
Proof.
  intro R. remember [] as z eqn:Ez in R. induction R as [st s|st c s st1 s1 st' s' E R IH]; intros fuel L OK; subst; (destruct fuel as [|fuel]; [lia|]).
  - reflexivity.
  - cbn [parse_loop]. rewrite E. cbn [bind]. pose proof (parse_step_total st c s OK) as T. rewrite E in T. destruct T as [T1 T2].
    cbn [length] in L. apply IH; [reflexivity|lia|exact T1].
Qed.

Lemma start_ok : stack_ok [[re_empty]].
Proof. split; [constructor; [discriminate|constructor]|discriminate]. Qed.

Definition tokens_re (l : list tok) : regexp := re_simplified (RUnion (rev (apply_toks l [re_empty]))).

Theorem parse_tokens l : Forall tok_ok l -> re_parse (pattern_text l) = Ok (tokens_re l).
Proof.
  intro OK. unfold re_parse. pose proof (toks_steps l OK [re_empty] [] [] ltac:(discriminate)) as R. rewrite app_nil_r in R.
  rewrite (psteps_loop _ _ _ R); [reflexivity|lia|exact start_ok].
Qed.

Theorem parse_never_panics s : (exists e, re_parse s = Ok e) \/ (exists err, re_parse s = Err err).
Proof.
  unfold re_parse. pose proof (parse_loop_total (S (length s)) [[re_empty]] s ltac:(lia) start_ok) as T.
  destruct (parse_loop (S (length s)) [[re_empty]] s) as [st|err| |]; cbn [bind]; try destruct T.
  - destruct H as [_ NE]. destruct st as [|top [|top' st]]; [congruence|left; eexists; reflexivity|right; eexists; reflexivity].
  - right. eexists. reflexivity.
Qed.

(** ** From the run to the tokens *)
Lemma step_cases top st c s st1 s1 : top <> [] -> parse_step (top :: st) c s = Ok (st1, s1) ->
  (c = 40%N /\ st1 = [re_empty] :: top :: st /\ s1 = s) \/
  (c = 41%N /\ st <> [] /\ s1 = s /\ length st1 = length st) \/
  (exists t, tok_ok t /\ c :: s = tok_text t ++ s1 /\ st1 = apply_tok t top :: st).
Proof.
  intros NE H. destruct top as [|cur opts]; [congruence|]. unfold parse_step in H.
  destruct (N.eqb_spec c 40) as [->|N1]; [injection H as <- <-; auto|].
  destruct (N.eqb_spec c 41) as [->|N2].
  { right. left. destruct st as [|[|cur' opts'] st]; [discriminate|discriminate|]. cbn [update_last bind] in H. injection H as <- <-.
    split; [reflexivity|]. split; [discriminate|]. auto. }
  right. right.
  destruct (N.eqb_spec c 124) as [->|N3]; [injection H as <- <-; exists TBar; split; [constructor|auto]|].
  destruct (N.eqb_spec c 91) as [->|N4].
  { apply bind_Ok in H as ([set s'] & H1 & H2). cbn [update_last bind] in H2. injection H2 as <- <-.
    apply parse_set_inv in H1 as (neg & l & OK & -> & ->). exists (TSet neg l). split; [exact OK|]. split; [|reflexivity].
    cbn [tok_text app]. rewrite <- !app_assoc. reflexivity. }
  destruct (N.eqb_spec c 92) as [->|N5].
  { destruct s as [|d s]; [discriminate|]. cbn [parse_escaped_char bind update_last] in H. injection H as <- <-. exists (TEscape d). split; [constructor|].
    split; [reflexivity|]. cbn [apply_tok set_last]. now rewrite unescape_of. }
  destruct (N.eqb_spec c 63) as [->|N6]; [injection H as <- <-; exists (TOp OOptional); split; [constructor|auto]|].
  destruct (N.eqb_spec c 42) as [->|N7]; [injection H as <- <-; exists (TOp OStar); split; [constructor|auto]|].
  destruct (N.eqb_spec c 43) as [->|N8]; [injection H as <- <-; exists (TOp OPlus); split; [constructor|auto]|].
  injection H as <- <-. exists (TChar c). split; [|auto]. constructor. unfold special. cbn [existsb].
  rewrite !(proj2 (N.eqb_neq c _)) by assumption. reflexivity.
Qed.

Lemma run_tokens n : forall s, length s <= n -> forall top st st', stack_ok (top :: st) -> psteps (top :: st) s st' [] -> length st' = 1 ->
  (st = [] -> exists l, Forall tok_ok l /\ s = pattern_text l) /\
  (st <> [] -> exists l r st1, Forall tok_ok l /\ s = pattern_text l ++ 41%N :: r /\ length st1 = length st /\ stack_ok st1 /\ psteps st1 r st' []).
Proof.
  induction n as [|n IH]; intros s Ln top st st' OK R LS.
  - destruct s; [|cbn in Ln; lia]. inversion R; subst. split; [exists []; split; [constructor|reflexivity]|].
    intro NE. destruct st; [congruence|cbn in LS; lia].
  - inversion R as [|? c s0 st1 s1 ? ? E R1]; subst.
    { split; [exists []; split; [constructor|reflexivity]|]. intro NE. destruct st; [congruence|cbn in LS; lia]. }
    pose proof (parse_step_total _ c s0 OK) as T. rewrite E in T. destruct T as [OK1 L1]. cbn [length] in Ln.
    destruct OK as [F NE0]. inversion F as [|? ? Ht Fs]; subst.
    destruct (step_cases _ _ _ _ _ _ Ht E) as [(-> & -> & ->)|[(-> & NE & -> & LE)|(t & Ot & ET & ->)]].
    + destruct (IH s0 ltac:(lia) _ _ _ OK1 R1 LS) as [_ K]. destruct K as (l & r & st1 & Ol & -> & LE & OK2 & R2); [discriminate|].
      assert (Lr : length r <= n) by (rewrite app_length in Ln; cbn [length] in Ln; lia).
      destruct st1 as [|top1 st1]; [destruct OK2; congruence|]. cbn [length] in LE. destruct (IH r Lr _ _ _ OK2 R2 LS) as [K1 K2]. split.
      * intros ->. destruct st1; [|cbn in LE; lia]. destruct (K1 eq_refl) as (l' & Ol' & ->). exists (TGroup l :: l'). split; [constructor; [now constructor|exact Ol']|].
        unfold pattern_text. cbn [flat_map tok_text]. rewrite <- !app_assoc. reflexivity.
      * intro NE. destruct K2 as (l' & r' & st2 & Ol' & -> & LE' & OK3 & R3); [destruct st1; [destruct st; [congruence|cbn in LE; lia]|discriminate]|].
        exists (TGroup l :: l'), r', st2. split; [constructor; [now constructor|exact Ol']|].
        split; [unfold pattern_text; cbn [flat_map tok_text]; rewrite <- !app_assoc; reflexivity|]. split; [lia|auto].
    + split; [congruence|]. intros _. exists [], s0, st1. split; [constructor|]. auto.
    + assert (Ls1 : length s1 <= n) by lia. destruct (IH s1 Ls1 _ _ _ OK1 R1 LS) as [K1 K2]. rewrite ET. split.
      * intro Es. destruct (K1 Es) as (l & Ol & ->). exists (t :: l). split; [now constructor|reflexivity].
      * intro NE. destruct (K2 NE) as (l & r & st2 & Ol & -> & LE & OK2 & R2). exists (t :: l), r, st2. split; [now constructor|].
        split; [unfold pattern_text; cbn [flat_map]; now rewrite <- app_assoc|auto].
Qed.

Theorem parse_well_formed s e : re_parse s = Ok e -> exists l, Forall tok_ok l /\ s = pattern_text l /\ e = tokens_re l.
Proof.
  intro H. assert (K : exists l, Forall tok_ok l /\ s = pattern_text l).
  { unfold re_parse in H. pose proof (parse_loop_total (S (length s)) [[re_empty]] s ltac:(lia) start_ok) as T.
    destruct (parse_loop (S (length s)) [[re_empty]] s) as [st|err| |]; cbn [bind] in H; try discriminate.
    destruct st as [|top [|top' st]]; try discriminate. destruct T as [_ R].
    exact (proj1 (run_tokens (length s) s (le_n _) [re_empty] [] _ start_ok R eq_refl) eq_refl). }
  destruct K as (l & Ol & ->). exists l. split; [exact Ol|]. split; [reflexivity|]. rewrite parse_tokens in H by exact Ol. congruence.
Qed.
