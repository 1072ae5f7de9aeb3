(** * Proofs about the program [tldr] *)

From Coq Require Import String Ascii List Bool Arith NArith ZArith Qcanon Lia.
Import ListNotations.
From Verif Require Import Base BaseProofs Orders PatternModel MatchingModel ValueModel LayoutModel HydrateModel TermModel
  DehydrateModel JsonModel CborModel AbsModel AbsJsonModel AbsJsonSpec PositionModel PositionSpec PositionProofs PositionProperties
  PreludeModel CliModel CliSpec CliProofs CliProperties MainModel MainSpec.
Open Scope list_scope.
Open Scope nat_scope.

(** ** The standard output *)
Lemma last_line_none s : last_line s = None -> ~ In newline s.
Proof.
  induction s as [|c s IH]; cbn [last_line]; [intros _ []|]. destruct (last_line s) as [[l t]|]; [discriminate|].
  destruct (Ascii.eqb_spec c newline) as [->|N]; [discriminate|]. intros _ [E|I]; [congruence|]. now apply IH.
Qed.
Lemma last_line_some s l t : last_line s = Some (l, t) -> s = l ++ t /\ ~ In newline t.
Proof.
  revert l t. induction s as [|c s IH]; intros l t; cbn [last_line]; [discriminate|].
  destruct (last_line s) as [[l0 t0]|] eqn:E.
  - intros [= <- <-]. destruct (IH _ _ eq_refl) as [-> N]. split; [reflexivity|exact N].
  - destruct (Ascii.eqb_spec c newline) as [->|_]; [|discriminate]. intros [= <- <-]. split; [reflexivity|]. now apply last_line_none.
Qed.

Section Output.
Variables (room : option nat) (capacity : nat).

(** The text that was given, of which the buffer keeps the end of the last line. *)
Definition fits (s : list ascii) : Prop := match room with None => True | Some r => length s <= r end.
Definition holds_text (o : stdout) (text : list ascii) : Prop :=
  fits (sent o) /\ sent o ++ pending o = text /\ ~ In newline (pending o) /\ length (pending o) <= capacity.
(** The output is full: it has the beginning of the text. *)
Definition full (o : stdout) (text : list ascii) : Prop :=
  exists r, room = Some r /\ length (sent o) = r /\ r < length text /\ sent o = firstn r text.

Lemma send_all o s t : fits o -> send room o s = (t, []) -> t = o ++ s /\ fits t.
Proof.
  unfold fits, send. destruct room as [r|]; intros Hf.
  - intros [= <- E]. assert (L : length s <= r - length o) by (rewrite <- (firstn_skipn (r - length o) s), E, app_nil_r, firstn_length; lia).
    rewrite firstn_all2 by exact L. split; [reflexivity|]. rewrite app_length. lia.
  - intros [= <-]. split; [reflexivity|exact I].
Qed.
Lemma send_part o s t p : fits o -> send room o s = (t, p) -> p <> [] ->
  exists r, room = Some r /\ length t = r /\ r < length o + length s /\ forall u, t = firstn r (o ++ s ++ u).
Proof.
  unfold fits, send. destruct room as [r|]; intros Hf E N; injection E as <- <-; [|now elim N].
  assert (L : r - length o < length s).
  { destruct (le_lt_dec (length s) (r - length o)) as [L|L]; [|exact L]. elim N. now apply skipn_all2. }
  exists r. split; [reflexivity|]. rewrite app_length, firstn_length. split; [lia|]. split; [lia|]. intro u.
  rewrite firstn_app, (firstn_all2 o) by exact Hf. f_equal. rewrite firstn_app. replace (r - length o - length s) with 0 by lia.
  cbn [firstn]. now rewrite app_nil_r.
Qed.
Lemma is_nil_true {A} (l : list A) : is_nil l = true -> l = [].
Proof. destruct l; [reflexivity|discriminate]. Qed.
Lemma is_nil_false {A} (l : list A) : is_nil l = false -> l <> [].
Proof. destruct l; [discriminate|congruence]. Qed.

Lemma flush_true o o' text : holds_text o text -> flush room o = (o', true) -> holds_text o' text /\ pending o' = [].
Proof.
  intros (Hf & Ht & Hn & Hc) E. unfold flush in E. destruct (send room (sent o) (pending o)) as [s p] eqn:S. injection E as <- Ep.
  apply is_nil_true in Ep as ->. destruct (send_all _ _ _ Hf S) as [-> Hf'].
  split; [|reflexivity]. unfold holds_text. cbn [sent pending]. rewrite app_nil_r. cbn [length In]. repeat split; auto; try lia.
Qed.
Lemma flush_false o o' text u : holds_text o text -> flush room o = (o', false) -> full o' (text ++ u).
Proof.
  intros (Hf & <- & Hn & Hc) E. unfold flush in E. destruct (send room (sent o) (pending o)) as [s p] eqn:S. injection E as <- Ep.
  apply is_nil_false in Ep. destruct (send_part _ _ _ _ Hf S Ep) as (r & R & L & LT & P).
  exists r. cbn [sent]. split; [exact R|]. split; [exact L|]. split; [rewrite !app_length; lia|]. rewrite <- app_assoc. apply P.
Qed.

(** Writing in the buffer something that may contain ends of lines: the buffer may then have some. *)
Definition holds_any (o : stdout) (text : list ascii) : Prop :=
  fits (sent o) /\ sent o ++ pending o = text /\ length (pending o) <= capacity.
Lemma flush_any_true o o' text : holds_any o text -> flush room o = (o', true) -> holds_text o' text /\ pending o' = [].
Proof.
  intros (Hf & Ht & Hc) E. unfold flush in E. destruct (send room (sent o) (pending o)) as [s p] eqn:S. injection E as <- Ep.
  apply is_nil_true in Ep as ->. destruct (send_all _ _ _ Hf S) as [-> Hf'].
  split; [|reflexivity]. unfold holds_text. cbn [sent pending]. rewrite app_nil_r. cbn [length In]. repeat split; auto; try lia.
Qed.
Lemma flush_any_false o o' text u : holds_any o text -> flush room o = (o', false) -> full o' (text ++ u).
Proof.
  intros (Hf & <- & Hc) E. unfold flush in E. destruct (send room (sent o) (pending o)) as [s p] eqn:S. injection E as <- Ep.
  apply is_nil_false in Ep. destruct (send_part _ _ _ _ Hf S Ep) as (r & R & L & LT & P).
  exists r. cbn [sent]. split; [exact R|]. split; [exact L|]. split; [rewrite !app_length; lia|]. rewrite <- app_assoc. apply P.
Qed.
Lemma buf_write_true o s o' text : holds_any o text -> buf_write room capacity o s = (o', true) ->
  holds_any o' (text ++ s) /\ (forall c, In c (pending o') -> In c (pending o) \/ In c s).
Proof.
  intros H. unfold buf_write. destruct (Nat.ltb_spec (length (pending o) + length s) capacity) as [L|L].
  - intros [= <-]. destruct H as (Hf & <- & Hc). split; [|intros c; cbn [pending]; apply in_app_or].
    unfold holds_any. cbn [sent pending]. rewrite app_length. rewrite app_assoc. repeat split; auto; lia.
  - destruct (Nat.ltb_spec capacity (length (pending o) + length s)) as [L2|L2].
    + destruct (flush room o) as [o1 [|]] eqn:Fl; [|discriminate].
      destruct (flush_any_true _ _ _ H Fl) as ((Hf1 & H1 & _) & P1). rewrite P1, app_nil_r in H1.
      destruct (Nat.leb_spec capacity (length s)) as [L3|L3].
      * destruct (send room (sent o1) s) as [t p] eqn:S. intros [= <- Ep]. apply is_nil_true in Ep as ->.
        destruct (send_all _ _ _ Hf1 S) as [-> Hf2]. unfold holds_any. cbn [sent pending]. rewrite P1, app_nil_r, H1.
        split; [|intros c []]. rewrite <- H1 at 1. cbn [length]. repeat split; auto; lia.
      * intros [= <-]. unfold holds_any. cbn [sent pending]. rewrite P1, <- H1. cbn [app]. split; [|auto]. repeat split; auto; lia.
    + assert (EQ : length (pending o) + length s = capacity) by lia. destruct H as (Hf & <- & Hc).
      destruct (Nat.leb_spec capacity (length s)) as [L3|L3].
      * assert (P0 : pending o = []) by (destruct (pending o); [reflexivity|cbn [length] in *; lia]).
        destruct (send room (sent o) s) as [t p] eqn:S. intros [= <- Ep]. apply is_nil_true in Ep as ->.
        destruct (send_all _ _ _ Hf S) as [-> Hf2]. unfold holds_any. cbn [sent pending]. rewrite P0, !app_nil_r.
        split; [|intros c []]. cbn [length]. repeat split; auto; lia.
      * intros [= <-]. unfold holds_any. cbn [sent pending]. rewrite app_length, app_assoc. split; [|intros c; apply in_app_or].
        repeat split; auto; lia.
Qed.
Lemma buf_write_false o s o' text u : holds_any o text -> buf_write room capacity o s = (o', false) -> full o' (text ++ s ++ u).
Proof.
  intros H. unfold buf_write. destruct (Nat.ltb_spec (length (pending o) + length s) capacity) as [L|L]; [discriminate|].
  destruct (Nat.ltb_spec capacity (length (pending o) + length s)) as [L2|L2].
  - destruct (flush room o) as [o1 [|]] eqn:Fl.
    + destruct (flush_any_true _ _ _ H Fl) as ((Hf1 & H1 & _) & P1). rewrite P1, app_nil_r in H1.
      destruct (Nat.leb_spec capacity (length s)) as [L3|L3]; [|discriminate].
      destruct (send room (sent o1) s) as [t p] eqn:S. intros [= <- Ep]. apply is_nil_false in Ep.
      destruct (send_part _ _ _ _ Hf1 S Ep) as (r & R & Lr & LT & P). exists r. cbn [sent]. rewrite <- H1.
      split; [exact R|]. split; [exact Lr|]. split; [rewrite !app_length; lia|apply P].
    + intros [= <-]. now apply (flush_any_false o _ text (s ++ u)).
  - destruct H as (Hf & <- & Hc). destruct (Nat.leb_spec capacity (length s)) as [L3|L3]; [|discriminate].
    assert (P0 : pending o = []) by (destruct (pending o); [reflexivity|cbn [length] in *; lia]).
    destruct (send room (sent o) s) as [t p] eqn:S. intros [= <- Ep]. apply is_nil_false in Ep.
    destruct (send_part _ _ _ _ Hf S Ep) as (r & R & Lr & LT & P). exists r. cbn [sent]. rewrite P0, app_nil_r.
    split; [exact R|]. split; [exact Lr|]. split; [rewrite !app_length; lia|apply P].
Qed.

Lemma holds_text_any o text : holds_text o text <-> holds_any o text /\ ~ In newline (pending o).
Proof. unfold holds_text, holds_any. tauto. Qed.

Lemma line_write_true o s o' text : holds_text o text -> line_write room capacity o s = (o', true) -> holds_text o' (text ++ s).
Proof.
  intros H. unfold line_write. destruct (last_line s) as [[l t]|] eqn:LL.
  - destruct (last_line_some _ _ _ LL) as [-> Nt]. destruct (is_nil (pending o)) eqn:NP.
    + destruct (send room (sent o) l) as [x p] eqn:S. destruct (is_nil p) eqn:Ep; [|discriminate]. apply is_nil_true in Ep as ->.
      apply is_nil_true in NP. destruct H as (Hf & <- & Hn & Hc). destruct (send_all _ _ _ Hf S) as [-> Hf2].
      intros E. assert (H1 : holds_any (Stdout (sent o ++ l) []) (sent o ++ l)).
      { unfold holds_any. cbn [sent pending length]. rewrite app_nil_r. repeat split; auto; lia. }
      destruct (buf_write_true _ _ _ _ H1 E) as (H2 & P2). apply holds_text_any. rewrite NP, app_nil_r, app_assoc. split; [exact H2|].
      intro I. destruct (P2 _ I) as [[]|I2]. contradiction.
    + apply holds_text_any in H as (H & _). destruct (buf_write room capacity o l) as [o1 [|]] eqn:B; [|discriminate].
      destruct (buf_write_true _ _ _ _ H B) as (H1 & _). destruct (flush room o1) as [o2 [|]] eqn:Fl; [|discriminate].
      destruct (flush_any_true _ _ _ H1 Fl) as (H2 & P2). intros E. apply holds_text_any in H2 as (H2 & _).
      destruct (buf_write_true _ _ _ _ H2 E) as (H3 & P3). apply holds_text_any. rewrite app_assoc. split; [exact H3|].
      intro I. destruct (P3 _ I) as [I3|I3]; [rewrite P2 in I3; destruct I3|contradiction].
  - apply last_line_none in LL. assert (E0 : match rev (pending o) with c :: _ => if Ascii.eqb c newline then flush room o else (o, true) | [] => (o, true) end = (o, true)).
    { destruct (rev (pending o)) as [|c r] eqn:R; [reflexivity|]. destruct (Ascii.eqb_spec c newline) as [->|_]; [|reflexivity].
      destruct H as (_ & _ & Hn & _). elim Hn. apply in_rev. rewrite R. now left. }
    rewrite E0. intros E. apply holds_text_any in H as (H & Hn). destruct (buf_write_true _ _ _ _ H E) as (H1 & P1).
    apply holds_text_any. split; [exact H1|]. intro I. destruct (P1 _ I); contradiction.
Qed.
Lemma line_write_false o s o' text u : holds_text o text -> line_write room capacity o s = (o', false) -> full o' (text ++ s ++ u).
Proof.
  intros H. unfold line_write. destruct (last_line s) as [[l t]|] eqn:LL.
  - destruct (last_line_some _ _ _ LL) as [-> Nt]. destruct (is_nil (pending o)) eqn:NP.
    + destruct (send room (sent o) l) as [x p] eqn:S. apply is_nil_true in NP. destruct H as (Hf & <- & Hn & Hc). rewrite NP, app_nil_r.
      destruct (is_nil p) eqn:Ep.
      * apply is_nil_true in Ep as ->. destruct (send_all _ _ _ Hf S) as [-> Hf2].
        intros E. assert (H1 : holds_any (Stdout (sent o ++ l) []) (sent o ++ l)).
        { unfold holds_any. cbn [sent pending length]. rewrite app_nil_r. repeat split; auto; lia. }
        pose proof (buf_write_false _ _ _ _ u H1 E) as H2. now rewrite <- !app_assoc in H2 |- *.
      * intros [= <-]. apply is_nil_false in Ep. destruct (send_part _ _ _ _ Hf S Ep) as (r & R & Lr & LT & P). exists r. cbn [sent].
        rewrite <- !app_assoc. split; [exact R|]. split; [exact Lr|]. split; [rewrite !app_length; lia|apply P].
    + apply holds_text_any in H as (H & _). destruct (buf_write room capacity o l) as [o1 [|]] eqn:B.
      * destruct (buf_write_true _ _ _ _ H B) as (H1 & _). destruct (flush room o1) as [o2 [|]] eqn:Fl.
        -- destruct (flush_any_true _ _ _ H1 Fl) as (H2 & P2). intros E. apply holds_text_any in H2 as (H2 & _).
           pose proof (buf_write_false _ _ _ _ u H2 E) as H3. now rewrite <- !app_assoc in H3 |- *.
        -- intros [= <-]. pose proof (flush_any_false _ _ _ (t ++ u) H1 Fl) as H2. now rewrite <- !app_assoc in H2 |- *.
      * intros [= <-]. pose proof (buf_write_false _ _ _ _ (t ++ u) H B) as H2. now rewrite <- !app_assoc.
  - apply last_line_none in LL. assert (E0 : match rev (pending o) with c :: _ => if Ascii.eqb c newline then flush room o else (o, true) | [] => (o, true) end = (o, true)).
    { destruct (rev (pending o)) as [|c r] eqn:R; [reflexivity|]. destruct (Ascii.eqb_spec c newline) as [->|_]; [|reflexivity].
      destruct H as (_ & _ & Hn & _). elim Hn. apply in_rev. rewrite R. now left. }
    rewrite E0. intros E. apply holds_text_any in H as (H & Hn). now apply (buf_write_false _ _ _ _ u H).
Qed.

Lemma write_pieces_true ps : forall o o' text, holds_text o text -> write_pieces room capacity o ps = (o', true) -> holds_text o' (text ++ concat ps).
Proof.
  induction ps as [|p ps IH]; intros o o' text H; cbn [write_pieces concat].
  - intros [= <-]. now rewrite app_nil_r.
  - destruct (line_write room capacity o p) as [o1 [|]] eqn:L; [|discriminate]. intro E. rewrite app_assoc.
    apply (IH o1); [|exact E]. now apply (line_write_true o).
Qed.
Lemma write_pieces_false ps : forall o o' text, holds_text o text -> write_pieces room capacity o ps = (o', false) -> full o' (text ++ concat ps).
Proof.
  induction ps as [|p ps IH]; intros o o' text H; cbn [write_pieces concat]; [discriminate|].
  destruct (line_write room capacity o p) as [o1 [|]] eqn:L.
  - intro E. rewrite app_assoc. apply (IH o1); [|exact E]. now apply (line_write_true o).
  - intros [= <-]. now apply (line_write_false o).
Qed.
Lemma start : holds_text (Stdout [] []) [].
Proof. unfold holds_text, fits. cbn. split; [destruct room; [lia|exact I]|]. repeat split; auto; lia. Qed.

(** What is received in the end. *)
Lemma close_true o text : holds_text o text -> close room o = accepted room text.
Proof.
  intros (Hf & <- & _). unfold close, flush, send, accepted, fits in *. destruct room as [r|]; cbn [fst sent]; [|reflexivity].
  rewrite firstn_app, (firstn_all2 (sent o)) by exact Hf. reflexivity.
Qed.
Lemma close_false o text : full o text -> close room o = accepted room text.
Proof.
  intros (r & R & L & LT & P). unfold close, flush, send, accepted. rewrite R. cbn [fst sent].
  replace (r - length (sent o)) with 0 by lia. cbn [firstn]. now rewrite app_nil_r.
Qed.
End Output.

(** ** Loading the files *)
Section Load.
Context {TS : TextSyntax} {IS : IriSyntax} {AE : AbsExternal} {X : Xsd} {CC : Cmp cbor} {F : Type} {FM : Formats F}.
Variable file : string -> option string.

Lemma map_err_bind {E E' A B} (f : E -> E') (o : outcome E A) (k : A -> outcome E B) :
  map_err f (bind o k) = bind (map_err f o) (fun a => map_err f (k a)).
Proof. destruct o; reflexivity. Qed.
Lemma map_err_map {E E' E'' A} (f : E' -> E'') (g : E -> E') (o : outcome E A) : map_err f (map_err g o) = map_err (fun e => f (g e)) o.
Proof. destruct o; reflexivity. Qed.
Lemma insert_layouts_err new : forall m e, insert_layouts new m = Err e -> e = CliLayoutBuild LayoutRedefinition.
Proof.
  induction new as [|[id l] new IH]; intros m e; cbn [insert_layouts]; [discriminate|].
  destruct (layouts_insert id l m) as [m' [old|]]; [intros [= <-]; reflexivity|apply IH].
Qed.
Lemma load_layout_cli fuel fs id name source m n : nth_error fs id = Some (name, source) ->
  map_err cli_error_of (load_layout_at fuel fs id m n) = load_layout fuel source m n.
Proof.
  intros E. unfold load_layout_at, load_layout. rewrite E. cbn [unwrap bind snd]. destruct (json_parse source) as [j|]; [|reflexivity].
  pose proof (C99_same_result j) as S. destruct (read_layout j) as [l|e|w|]; rewrite S; cbn [map_err bind]; try reflexivity.
  destruct (build_with_context term_context l (n, [])) as [o s]. destruct o as [r|e|w|]; cbn [map_err bind]; try reflexivity.
  destruct (builder_build fuel (snd s)) as [new|e|w|]; cbn [map_err bind]; try reflexivity.
  destruct (insert_layouts new m) as [m'|e|w|] eqn:EI; cbn [map_err bind cli_error_of]; try reflexivity. now rewrite (insert_layouts_err _ _ _ EI).
Qed.

Lemma nth_last {A} (l : list A) a : nth_error (l ++ [a]) (length l) = Some a.
Proof. rewrite nth_error_app2, Nat.sub_diag by lia. reflexivity. Qed.

Lemma load_each_cli fuel names : forall fs m n,
  map_err cli_error_of (snd (load_each file fuel names fs m n)) = load_all file fuel names m n.
Proof.
  induction names as [|name names IH]; intros fs m n; [reflexivity|]. cbn [load_each load_all].
  destruct (file name) as [source|]; [|reflexivity]. cbn [ok_or bind].
  pose proof (load_layout_cli fuel (fs ++ [(name, source)]) (length fs) name source m n (nth_last _ _)) as E.
  destruct (load_layout_at fuel (fs ++ [(name, source)]) (length fs) m n) as [[[r m1] n1]|e|w|]; rewrite <- E; cbn [map_err bind snd]; try reflexivity.
  specialize (IH (fs ++ [(name, source)]) m1 n1). destruct (load_each file fuel names (fs ++ [(name, source)]) m1 n1) as [fs' o].
  cbn [snd] in *. rewrite <- IH, map_err_bind. destruct o as [[[rs m2] n2]|e|w|]; reflexivity.
Qed.

Lemma load_each_length fuel names : forall fs m n fs' x, load_each file fuel names fs m n = (fs', Ok x) -> length fs' = length fs + length names.
Proof.
  induction names as [|name names IH]; intros fs m n fs' x; cbn [load_each length]; [intros [= <- _]; lia|].
  destruct (file name) as [source|]; [|discriminate].
  destruct (load_layout_at fuel (fs ++ [(name, source)]) (length fs) m n) as [[[r m1] n1]|e|w|]; try discriminate.
  destruct (load_each file fuel names (fs ++ [(name, source)]) m1 n1) as [fs1 o] eqn:L. intros [= <- E].
  destruct o as [y|e|w|]; try discriminate. rewrite (IH _ _ _ _ _ L), app_length. cbn [length]. lia.
Qed.

(** The first file that is not loaded. *)
Lemma load_each_err fuel names : forall fs m n fs' e, load_each file fuel names fs m n = (fs', Err e) ->
  exists before name after x, names = before ++ name :: after /\ load_all file fuel before m n = Ok x /\
    (file name = None /\ e = MainIO \/
     exists source, file name = Some source /\ length fs' = length fs + length before + 1 /\
       nth_error fs' (length fs + length before) = Some (name, source) /\
       load_layout_at fuel fs' (length fs + length before) (snd (fst x)) (snd x) = Err e).
Proof.
  induction names as [|name names IH]; intros fs m n fs' e; cbn [load_each]; [discriminate|].
  destruct (file name) as [source|] eqn:FI.
  - destruct (load_layout_at fuel (fs ++ [(name, source)]) (length fs) m n) as [[[r m1] n1]|e1|w|] eqn:LL; try discriminate.
    + destruct (load_each file fuel names (fs ++ [(name, source)]) m1 n1) as [fs1 o] eqn:L. intros [= <- E].
      destruct o as [[[rs m2] n2]|e2|w|]; try discriminate. injection E as ->.
      destruct (IH _ _ _ _ _ L) as (before & nm & after & [[rs m2] n2] & -> & LA & H). exists (name :: before), nm, after, (r :: rs, m2, n2).
      split; [reflexivity|]. split.
      * cbn [load_all]. rewrite FI. cbn [ok_or bind].
        rewrite <- (load_layout_cli fuel (fs ++ [(name, source)]) (length fs) name source m n (nth_last _ _)), LL. cbn [map_err bind].
        rewrite LA. reflexivity.
      * cbn [fst snd] in *. destruct H as [H|(s & FS & LEN & NTH & H)]; [now left|right]. exists s. split; [exact FS|].
        rewrite app_length in *. cbn [length] in *.
        replace (length fs + S (length before)) with (length fs + 1 + length before) by lia. auto.
    + intros [= <- ->]. exists [], name, names, ([], m, n). split; [reflexivity|]. split; [reflexivity|]. right. exists source.
      split; [exact FI|]. rewrite app_length. cbn [length fst snd]. rewrite Nat.add_0_r. split; [reflexivity|]. split; [apply nth_last|exact LL].
  - intros [= <- <-]. exists [], name, names, ([], m, n). split; [reflexivity|]. split; [reflexivity|]. now left.
Qed.

(** The error of one file. *)
Lemma load_layout_err fuel fs id name source m n e : nth_error fs id = Some (name, source) -> load_layout_at fuel fs id m n = Err e ->
  (json_parse source = None /\ e = MainJsonSyntax id) \/
  (exists j e', json_parse source = Some j /\ read_layout j = Err e' /\ e = MainLayoutSyntax id (code_map_of j) e') \/
  (exists b, e = MainLayoutBuild id b) \/ (exists c, e = MainCommand c).
Proof.
  intros N. unfold load_layout_at. rewrite N. cbn [unwrap bind snd]. destruct (json_parse source) as [j|]; [|intros [= <-]; auto].
  destruct (read_layout j) as [l|e'|w|] eqn:R; cbn [map_err bind]; try discriminate; [|intros [= <-]; right; left; eauto].
  destruct (build_with_context term_context l (n, [])) as [o s]. destruct o as [r|b|w|]; cbn [map_err bind]; try discriminate; [|intros [= <-]; eauto].
  destruct (builder_build fuel (snd s)) as [new|c|w|]; cbn [map_err bind]; try discriminate; [|intros [= <-]; eauto].
  destruct (insert_layouts new m) as [m'|c|w|]; cbn [map_err bind]; try discriminate. intros [= <-]; eauto.
Qed.

(** A file that is not loaded after others that are. *)
Lemma load_each_stops fuel before : forall name after source fs m n x, load_all file fuel before m n = Ok x -> file name = Some source ->
  exists fs', (forall e, load_layout_at fuel fs' (length fs + length before) (snd (fst x)) (snd x) = Err e ->
    load_each file fuel (before ++ name :: after) fs m n = (fs', Err e)) /\
    length fs' = length fs + length before + 1 /\ nth_error fs' (length fs + length before) = Some (name, source).
Proof.
  induction before as [|b before IH]; intros name after source fs m n x L FI; cbn [load_all] in L.
  - injection L as <-. exists (fs ++ [(name, source)]). cbn [app load_each length fst snd]. rewrite Nat.add_0_r, FI.
    split; [intros e ->; reflexivity|]. split; [now rewrite app_length|apply nth_last].
  - apply bind_Ok in L as (s & FB & L). destruct (file b) as [s'|] eqn:FB'; [|discriminate]. injection FB as ->.
    apply bind_Ok in L as ([[r m1] n1] & LL & L). apply bind_Ok in L as ([[rs m2] n2] & LA & L). injection L as <-.
    destruct (IH name after source (fs ++ [(b, s)]) m1 n1 _ LA FI) as (fs' & H & LEN & NTH). exists fs'. cbn [app load_each length fst snd] in *.
    rewrite FB'. rewrite app_length in *. cbn [length] in *.
    replace (length fs + S (length before)) with (length fs + 1 + length before) by lia. split; [|split; [exact LEN|exact NTH]].
    pose proof (load_layout_cli fuel (fs ++ [(b, s)]) (length fs) b s m n (nth_last _ _)) as E. rewrite LL in E.
    destruct (load_layout_at fuel (fs ++ [(b, s)]) (length fs) m n) as [y|e1|w|]; cbn [map_err] in E; try discriminate. injection E as ->.
    intros e He. rewrite (H e He). reflexivity.
Qed.
End Load.
