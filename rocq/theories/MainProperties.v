(** * C103 and C104: the exit status, the output and the diagnostics of the program [tldr] *)

From Coq Require Import String Ascii List Bool Arith NArith ZArith Qcanon Lia.
Import ListNotations.
From Verif Require Import Base BaseProofs Orders PatternModel MatchingModel ValueModel LayoutModel HydrateModel TermModel
  DehydrateModel JsonModel JsonSpec JsonProperties CborModel AbsModel AbsJsonModel AbsJsonSpec AbsJsonProofs AbsJsonProperties PositionModel PositionSpec PositionProperties
  PreludeModel CliModel CliSpec CliProofs CliProperties MainModel MainSpec MainProofs.
Open Scope list_scope.
Open Scope nat_scope.

Section Main.
Context {TS : TextSyntax} {IS : IriSyntax} {AE : AbsExternal} {X : Xsd} {CC : Cmp cbor} {F : Type} {FM : Formats F}.
Variables (arbitrary_precision : bool) (json_float : string -> option F)
  (from_f64 : F -> option Qc) (to_f64 : Qc -> F).
Variable index : list (quad term) -> dataset term.
Variable order : list (quad res) -> list (quad res).
Variable lines : list (quad term) -> list (quad term).
Variable extra_properties : term -> option (list (term * term)).
Variable is_unsigned_long : string -> bool.
Variable file : string -> option string.
Variable stdin : string.
Variables (room : option nat) (capacity : nat).
Variable pieces : string -> list (list ascii).
Hypothesis pieces_text : forall text, concat (pieces text) = list_ascii_of_string text.

Notation run_with := (run arbitrary_precision json_float from_f64 to_f64 index order lines extra_properties is_unsigned_long file stdin).
Notation run_files := (run_main arbitrary_precision json_float from_f64 to_f64 index order lines extra_properties is_unsigned_long file stdin).
Notation program := (main arbitrary_precision json_float from_f64 to_f64 index order lines extra_properties is_unsigned_long file stdin
  room capacity pieces).

(** The program is the one of [CliModel.v]. *)
Lemma run_main_cli fuel a : map_err cli_error_of (snd (run_files fuel a)) = run_with fuel a.
Proof.
  rewrite run_loads. unfold run_main.
  pose proof (load_each_cli file fuel (a_layouts a) [] [] 0) as E1. destruct (load_each file fuel (a_layouts a) [] [] 0) as [fs o].
  cbn [snd] in E1. rewrite <- E1. destruct o as [[[rs m] n]|e|w|]; cbn [map_err bind snd]; try reflexivity.
  pose proof (load_each_cli file fuel (a_include a) fs m n) as E2. destruct (load_each file fuel (a_include a) fs m n) as [fs' o'].
  cbn [snd] in E2. rewrite <- E2. destruct o' as [[[rs' m'] n']|e|w|]; cbn [map_err bind snd]; try reflexivity.
  destruct (a_command a) as [c|]; [|reflexivity]. rewrite map_err_map. cbn [cli_error_of].
  match goal with |- map_err _ ?o = _ => destruct o; reflexivity end.
Qed.

(** The first file at fault, among those that are given and included. *)
Lemma run_main_err fuel a fs e : run_files fuel a = (fs, Err e) ->
  (exists c, e = MainCommand c) \/
  exists before name after x, a_layouts a ++ a_include a = before ++ name :: after /\ load_all file fuel before [] 0 = Ok x /\
    (file name = None /\ e = MainIO \/
     exists source, file name = Some source /\ length fs = length before + 1 /\ nth_error fs (length before) = Some (name, source) /\
       load_layout_at fuel fs (length before) (snd (fst x)) (snd x) = Err e).
Proof.
  unfold run_main.
  pose proof (load_each_cli file fuel (a_layouts a) [] [] 0) as C1.
  destruct (load_each file fuel (a_layouts a) [] [] 0) as [fs1 o1] eqn:L1. destruct o1 as [[[rs m] n]|e1|w|]; try discriminate.
  - cbn [snd map_err] in C1. pose proof (load_each_length file _ _ _ _ _ _ _ L1) as LEN1. cbn [length Nat.add] in LEN1.
    destruct (load_each file fuel (a_include a) fs1 m n) as [fs2 o2] eqn:L2. destruct o2 as [[[rs' m'] n']|e2|w|]; try discriminate.
    + intros [= <- E]. left. destruct (a_command a) as [c|]; [|discriminate].
      match type of E with map_err _ ?o = _ => destruct o; try discriminate; injection E as <-; eauto end.
    + intros [= <- <-]. right. destruct (load_each_err file _ _ _ _ _ _ _ L2) as (before & name & after & [[rs2 m2] n2] & EN & LA & H).
      exists (a_layouts a ++ before), name, after, (rs ++ rs2, m2, n2). split; [rewrite EN, <- app_assoc; reflexivity|].
      split; [rewrite load_all_app, <- C1; cbn [bind]; rewrite LA; reflexivity|].
      rewrite app_length, <- LEN1. cbn [fst snd] in *. destruct H as [H|(s & FS & LEN & NTH & H)]; [now left|right]. exists s. auto.
  - intros [= <- <-]. right. destruct (load_each_err file _ _ _ _ _ _ _ L1) as (before & name & after & x & EN & LA & H).
    exists before, name, (after ++ a_include a), x. split; [rewrite EN, <- app_assoc; reflexivity|]. split; [exact LA|exact H].
Qed.

Lemma loaded_acceptable fuel names x : load_all file fuel names [] 0 = Ok x -> acceptable file names.
Proof.
  destruct x as [[rs m] n]. intro L. destruct (all_brings file fuel _ _ _ _ _ _ L empty_wf empty_later) as (ls & idss & D & W & ND & _).
  exists ls, idss. auto.
Qed.

(** What the diagnostic of an error is; it is always printed. *)
Lemma diagnostic_of fuel a fs e : run_files fuel a = (fs, Err e) ->
  exists d, into_diagnostic e = Ok d /\ emit fs d = Ok tt /\
    (md_labels d = [] \/
     exists id name source, first_bad file (a_layouts a ++ a_include a) id name source /\
       (json_parse source = None /\ d = MainDiagnostic MsgJson [(id, LabelJson)] [] \/
        exists j, json_parse source = Some j /\ (forall l, ~ layout_doc j l) /\ md_message d = MsgLayoutSyntax /\ describes j id d)).
Proof.
  intros E. destruct (run_main_err _ _ _ _ E) as [(c & ->)|(before & name & after & x & EN & LA & H)].
  { assert (G : exists d, into_diagnostic (MainCommand c) = Ok d /\ md_labels d = []) by (destruct c; cbn [into_diagnostic]; eexists; split; reflexivity).
    destruct G as (d & D & N). exists d. split; [exact D|]. unfold emit. rewrite N. cbn [forallb]. auto. }
  destruct H as [(_ & ->)|(source & FS & LEN & NTH & H)]; [eexists; split; [reflexivity|]; split; [reflexivity|left; reflexivity]|].
  assert (FB : first_bad file (a_layouts a ++ a_include a) (length before) name source).
  { exists before, after. split; [exact EN|]. split; [reflexivity|]. split; [exact FS|]. exact (loaded_acceptable _ _ _ LA). }
  assert (LT : (length before <? length fs) = true) by (apply Nat.ltb_lt; lia).
  destruct (load_layout_err fuel fs (length before) name source _ _ e NTH H) as [(J & ->)|[(j & e' & J & R & ->)|[(b & ->)|(c & ->)]]].
  - eexists. split; [reflexivity|]. unfold emit. cbn [md_labels forallb fst]. rewrite LT. split; [reflexivity|]. right.
    exists (length before), name, source. split; [exact FB|]. left. auto.
  - cbn [into_diagnostic]. rewrite (C99_diagnostic j e' R). cbn [bind]. eexists. split; [reflexivity|].
    assert (NL : forall l, ~ layout_doc j l).
    { intros l D. apply C56_reads in D. pose proof (C99_same_result j) as S. rewrite R in S. congruence. }
    pose proof (C99_points_at j e' R) as PA. pose proof (C99_other j e' R) as OT.
    split.
    + unfold emit. cbn [md_labels].
      destruct (pe_error e'); try (cbn [labels map forallb fst]; now rewrite LT).
      destruct (pe_other e'); cbn [labels map forallb fst]; now rewrite !LT.
    + right. exists (length before), name, source. split; [exact FB|]. right. exists j. split; [exact J|]. split; [exact NL|].
      split; [reflexivity|]. exists (pe_error e'), (position e'), (pe_other e'). split; [exact PA|]. cbn [md_labels md_notes].
      destruct (pe_error e') eqn:EE;
        try (destruct (pe_other e') as [i'|]; [exfalso; destruct OT as [OT _]; destruct OT as [k OT]; discriminate|]; split; reflexivity).
      destruct (pe_other e') as [i'|]; split; reflexivity.
  - eexists. split; [reflexivity|]. split; [reflexivity|left; reflexivity].
  - assert (G : exists d, into_diagnostic (MainCommand c) = Ok d /\ md_labels d = []) by (destruct c; cbn [into_diagnostic]; eexists; split; reflexivity).
    destruct G as (d & D & N). exists d. split; [exact D|]. unfold emit. rewrite N. cbn [forallb]. auto.
Qed.

(** ** C103 *)
Definition write_error : main_diagnostic := MainDiagnostic MsgWrite [] [].

(** The program from the result of the command. *)
Lemma program_ok fuel a text : run_with fuel a = Ok text ->
  (exists o, holds_text room capacity o (list_ascii_of_string text) /\
     program fuel a = Ok (ExitSuccess, accepted room (list_ascii_of_string text))) \/
  (~ enough room (list_ascii_of_string text) /\ program fuel a = Ok (ExitFailure write_error, accepted room (list_ascii_of_string text))).
Proof.
  rewrite <- run_main_cli. unfold main. destruct (run_files fuel a) as [fs o]. cbn [snd]. destruct o as [t|e|w|]; cbn [map_err]; try discriminate.
  intros [= ->]. destruct (write_pieces room capacity (Stdout [] []) (pieces text)) as [out [|]] eqn:WP.
  - left. apply (write_pieces_true room capacity _ _ _ [] (start room capacity)) in WP. cbn [app] in WP. rewrite pieces_text in WP.
    exists out. split; [exact WP|]. now rewrite (close_true _ _ _ _ WP).
  - right. apply (write_pieces_false room capacity _ _ _ [] (start room capacity)) in WP. cbn [app] in WP. rewrite pieces_text in WP.
    split.
    + destruct WP as (r & -> & _ & LT & _). cbn [enough]. lia.
    + cbn [into_diagnostic bind emit md_labels forallb]. now rewrite (close_false _ _ _ WP).
Qed.

(** A command that fails writes nothing on the standard output: it exits with the status of a failure and a
    diagnostic. *)
Theorem C103_error fuel a e : run_with fuel a = Err e -> exists d, program fuel a = Ok (ExitFailure d, []).
Proof.
  rewrite <- run_main_cli. unfold main. pose proof (diagnostic_of fuel a) as D. destruct (run_files fuel a) as [fs o]. cbn [snd].
  destruct o as [t|e'|w|]; cbn [map_err]; try discriminate. intros _. destruct (D fs e' eq_refl) as (d & I & M & _). exists d.
  rewrite I. cbn [bind]. rewrite M. cbn [bind]. unfold close, flush, send. cbn [sent pending]. destruct room; cbn [fst sent app]; [|reflexivity].
  now rewrite firstn_nil.
Qed.

(** When the output accepts all that is written, the program succeeds exactly when the command does, and the output
    is the text of the command. *)
Theorem C103_success fuel a : (forall text, run_with fuel a = Ok text -> enough room (list_ascii_of_string text)) -> forall out,
  program fuel a = Ok (ExitSuccess, out) <-> exists text, run_with fuel a = Ok text /\ out = list_ascii_of_string text.
Proof.
  intros EN out.
  assert (AC : forall text, run_with fuel a = Ok text -> accepted room (list_ascii_of_string text) = list_ascii_of_string text).
  { intros text R. specialize (EN text R). unfold accepted, enough in *. destruct room; [now apply firstn_all2|reflexivity]. }
  split.
  - intro P. destruct (run_with fuel a) as [text|e|w|] eqn:R.
    + exists text. split; [reflexivity|]. destruct (program_ok _ _ _ R) as [(o & _ & P')|(NE & _)].
      * rewrite P in P'. injection P' as ->. now apply AC.
      * elim NE. now apply EN.
    + destruct (C103_error _ _ _ R) as (d & P'). congruence.
    + exfalso. rewrite <- run_main_cli in R. unfold main in P. destruct (run_files fuel a) as [fs [| | |]]; cbn [snd map_err] in R; try discriminate.
    + exfalso. rewrite <- run_main_cli in R. unfold main in P. destruct (run_files fuel a) as [fs [| | |]]; cbn [snd map_err] in R; try discriminate.
  - intros (text & R & ->). destruct (program_ok _ _ _ R) as [(o & _ & P)|(NE & _)]; [now rewrite P, AC|]. elim NE. now apply EN.
Qed.

(** The program panics only when the command does: printing a diagnostic never does. *)
Theorem C103_panic fuel a w : program fuel a = Panic w <-> run_with fuel a = Panic w.
Proof.
  split.
  - intro P. destruct (run_with fuel a) as [text|e|w'|] eqn:R.
    + destruct (program_ok _ _ _ R) as [(o & _ & P')|(_ & P')]; congruence.
    + destruct (C103_error _ _ _ R) as (d & P'). congruence.
    + rewrite <- run_main_cli in R. unfold main in P. destruct (run_files fuel a) as [fs [| | |]]; cbn [snd map_err] in R; try discriminate. congruence.
    + rewrite <- run_main_cli in R. unfold main in P. destruct (run_files fuel a) as [fs [| | |]]; cbn [snd map_err] in R; try discriminate.
  - intro R. rewrite <- run_main_cli in R. unfold main. destruct (run_files fuel a) as [fs [| | |]]; cbn [snd map_err] in R; try discriminate. congruence.
Qed.

(** When the output does not accept everything: it has the beginning of the text.  The program reports it, unless what is
    missing is a part of the last line, not longer than the buffer. *)
Theorem C103_refused_partial fuel a text : run_with fuel a = Ok text -> ~ enough room (list_ascii_of_string text) ->
  exists st, program fuel a = Ok (st, accepted room (list_ascii_of_string text)) /\
    (st = ExitFailure write_error \/
     st = ExitSuccess /\ exists missing, accepted room (list_ascii_of_string text) ++ missing = list_ascii_of_string text /\
       ~ In newline missing /\ length missing <= capacity).
Proof.
  intros R NE. destruct (program_ok _ _ _ R) as [(o & (Hf & HT & HN & HC) & P)|(_ & P)].
  - exists ExitSuccess. split; [exact P|]. right. split; [reflexivity|].
    destruct room as [r|] eqn:ER; [|now elim NE]. cbn [accepted enough] in *. exists (skipn r (list_ascii_of_string text)).
    split; [apply firstn_skipn|]. rewrite <- HT, skipn_app. cbn [fits] in Hf. unfold fits in Hf.
    rewrite (skipn_all2 (sent o)) by exact Hf. cbn [app]. split.
    + intro I. apply HN. rewrite <- (firstn_skipn (r - length (sent o)) (pending o)). apply in_or_app. now right.
    + rewrite skipn_length. lia.
  - exists (ExitFailure write_error). split; [exact P|]. now left.
Qed.

(** Hence for quads, the lines of which all end: success means that all of them are written. *)
Lemma rdf_write_ends ds : list_ascii_of_string (rdf_write ds) = [] \/ exists l, list_ascii_of_string (rdf_write ds) = l ++ [newline].
Proof.
  assert (AP : forall s t, list_ascii_of_string (String.append s t) = list_ascii_of_string s ++ list_ascii_of_string t).
  { induction s as [|c s IH]; intro t; [reflexivity|]. cbn [String.append list_ascii_of_string app]. now rewrite IH. }
  induction ds as [|q ds IH]; [now left|]. right. cbn [rdf_write]. rewrite !AP. cbn [list_ascii_of_string].
  destruct IH as [->|(l & ->)].
  - exists (list_ascii_of_string (quad_print q) ++ [" "%char; "."%char]). rewrite <- !app_assoc. reflexivity.
  - exists (list_ascii_of_string (quad_print q) ++ [" "%char; "."%char] ++ newline :: l). rewrite <- !app_assoc. reflexivity.
Qed.
Lemma quads_text fuel a text : writes_quads a -> run_with fuel a = Ok text -> exists ds, text = rdf_write ds.
Proof.
  rewrite run_loads. intros W H. apply bind_Ok in H as ([[rs m] n] & _ & H). apply bind_Ok in H as ([[rs' m'] n'] & _ & H).
  destruct W as [E|[E|(input & layout & E)]]; rewrite E in H.
  - injection H as <-. now exists [].
  - cbn [run_command] in H. apply bind_Ok in H as (ds & _ & H). injection H as <-. eauto.
  - cbn [run_command] in H. apply bind_Ok in H as (r & _ & H). apply bind_Ok in H as (v & _ & H). apply bind_Ok in H as (x & _ & H).
    injection H as <-. eauto.
Qed.
Theorem C103_quads fuel a out : writes_quads a ->
  program fuel a = Ok (ExitSuccess, out) -> exists text, run_with fuel a = Ok text /\ out = list_ascii_of_string text.
Proof.
  intros W P. destruct (run_with fuel a) as [text|e|w|] eqn:R.
  - exists text. split; [reflexivity|]. destruct (program_ok _ _ _ R) as [(o & (Hf & HT & HN & HC) & P')|(_ & P')]; [|congruence].
    rewrite P in P'. injection P' as ->. destruct (quads_text _ _ _ W R) as (ds & ->). rewrite <- HT.
    assert (PN : pending o = []).
    { destruct (rdf_write_ends ds) as [E|(l & E)]; rewrite E in HT.
      - destruct (pending o); [reflexivity|]. destruct (sent o); discriminate.
      - destruct (pending o) as [|c0 p0] eqn:EP0; [reflexivity|]. destruct (exists_last (l := c0 :: p0) ltac:(discriminate)) as (p & c & EP).
        rewrite EP in HT, HN. rewrite app_assoc in HT. apply app_inj_tail in HT as [_ ->]. elim HN. apply in_or_app. right. now left. }
    rewrite PN, app_nil_r. unfold accepted, fits in *. destruct room; [now apply firstn_all2|reflexivity].
  - destruct (C103_error _ _ _ R) as (d & P'). congruence.
  - apply C103_panic in R. congruence.
  - exfalso. rewrite <- run_main_cli in R. unfold main in P. destruct (run_files fuel a) as [fs [| | |]]; cbn [snd map_err] in R; try discriminate.
Qed.

(** ** C104 *)

(** A diagnostic with labels is about the first file at fault: those before it are acceptable, it is not a JSON document, or it is
    not the document of a layout; then the labels are on the fragments that the error is about. *)
Theorem C104_blames fuel a d out : program fuel a = Ok (ExitFailure d, out) -> md_labels d <> [] ->
  exists id name source, first_bad file (a_layouts a ++ a_include a) id name source /\
    (json_parse source = None /\ d = MainDiagnostic MsgJson [(id, LabelJson)] [] \/
     exists j, json_parse source = Some j /\ (forall l, ~ layout_doc j l) /\ md_message d = MsgLayoutSyntax /\ describes j id d).
Proof.
  intros P NL. pose proof (diagnostic_of fuel a) as D. unfold main in P. destruct (run_files fuel a) as [fs o].
  destruct o as [t|e|w|]; try discriminate.
  - destruct (write_pieces room capacity (Stdout [] []) (pieces t)) as [o' [|]]; try discriminate.
    cbn [into_diagnostic bind emit md_labels forallb] in P. injection P as <- _. now elim NL.
  - destruct (D fs e eq_refl) as (d' & I & M & H). rewrite I in P. cbn [bind] in P. rewrite M in P. cbn [bind] in P. injection P as -> _.
    destruct H as [H|H]; [contradiction|exact H].
Qed.

(** Conversely such a file is always the one reported. *)
Lemma first_bad_loads names id name source : scalar_values -> first_bad file names id name source ->
  exists before after, names = before ++ name :: after /\ length before = id /\ file name = Some source /\
    exists N, forall fuel, N <= fuel -> exists x, load_all file fuel before [] 0 = Ok x.
Proof.
  intros SV (before & after & EN & LB & FS & (ls & idss & DD & W & ND)). exists before, after.
  split; [exact EN|]. split; [exact LB|]. split; [exact FS|].
  destruct (all_accepts file before ls idss SV DD W ND 0) as (N & n' & H). exists N. intros fuel LE.
  destruct (H fuel LE [] empty_wf empty_later ltac:(reflexivity)) as (rs & m & E & _). eauto.
Qed.
Lemma app_split {A} (l1 l2 before after : list A) b : l1 ++ l2 = before ++ b :: after ->
  (exists after', l1 = before ++ b :: after' /\ after = after' ++ l2) \/ (exists before', before = l1 ++ before' /\ l2 = before' ++ b :: after).
Proof.
  revert before. induction l1 as [|a l1 IH]; intros before E; [right; exists before; auto|].
  destruct before as [|b' before]; cbn [app] in E; injection E as -> E.
  - left. exists l1. auto.
  - destruct (IH before E) as [(after' & -> & ->)|(before' & -> & ->)]; [left; exists after'; auto|right; exists before'; auto].
Qed.
(** The run stops at the first file that is not loaded. *)
Lemma run_main_stops fuel a before name after source x :
  a_layouts a ++ a_include a = before ++ name :: after -> file name = Some source -> load_all file fuel before [] 0 = Ok x ->
  exists fs, nth_error fs (length before) = Some (name, source) /\
    forall e, load_layout_at fuel fs (length before) (snd (fst x)) (snd x) = Err e -> run_files fuel a = (fs, Err e).
Proof.
  intros EN FS LA. unfold run_main. apply app_split in EN as [(after' & E1 & ->)|(before' & -> & E2)].
  - rewrite E1. destruct (load_each_stops file fuel before name after' source [] [] 0 x LA FS) as (fs & H & _ & NTH). cbn [length Nat.add] in *.
    exists fs. split; [exact NTH|]. intros e He. now rewrite (H e He).
  - rewrite load_all_app in LA. apply bind_Ok in LA as ([[rs m] n] & L1 & LA). apply bind_Ok in LA as ([[rs' m'] n'] & L2 & LA). injection LA as <-.
    pose proof (load_each_cli file fuel (a_layouts a) [] [] 0) as C1. rewrite L1 in C1.
    destruct (load_each file fuel (a_layouts a) [] [] 0) as [fs1 o1] eqn:E1. cbn [snd] in C1.
    destruct o1 as [y|e|w|]; cbn [map_err] in C1; try discriminate. injection C1 as ->.
    pose proof (load_each_length file _ _ _ _ _ _ _ E1) as LEN1. cbn [length Nat.add] in LEN1.
    rewrite E2. destruct (load_each_stops file fuel before' name after source fs1 m n _ L2 FS) as (fs & H & _ & NTH).
    rewrite LEN1, <- app_length in NTH, H. exists fs. split; [exact NTH|]. cbn [fst snd] in *. intros e He. now rewrite (H e He).
Qed.
Lemma program_err fuel a fs e d : run_files fuel a = (fs, Err e) -> into_diagnostic e = Ok d -> program fuel a = Ok (ExitFailure d, []).
Proof.
  intros E I. destruct (diagnostic_of fuel a fs e E) as (d' & I' & M & _). rewrite I in I'. injection I' as <-.
  unfold main. rewrite E, I. cbn [bind]. rewrite M. cbn [bind]. unfold close, flush, send. cbn [sent pending].
  destruct room; cbn [fst sent app]; [|reflexivity]. now rewrite firstn_nil.
Qed.
Theorem C104_json a id name source : scalar_values -> first_bad file (a_layouts a ++ a_include a) id name source ->
  json_parse source = None ->
  exists N, forall fuel, N <= fuel -> program fuel a = Ok (ExitFailure (MainDiagnostic MsgJson [(id, LabelJson)] []), []).
Proof.
  intros SV FB J. destruct (first_bad_loads _ _ _ _ SV FB) as (before & after & EN & <- & FS & N & HN). exists N. intros fuel LE.
  destruct (HN fuel LE) as (x & LA). destruct (run_main_stops fuel a _ _ _ _ _ EN FS LA) as (fs & NTH & H).
  apply (program_err fuel a fs (MainJsonSyntax (length before))); [|reflexivity]. apply H. unfold load_layout_at. rewrite NTH. cbn [unwrap bind snd].
  now rewrite J.
Qed.
Theorem C104_syntax a id name source j : scalar_values -> first_bad file (a_layouts a ++ a_include a) id name source ->
  json_parse source = Some j -> json_wf j -> (forall c, constant_in c j -> ~ Exponents c) -> (forall l, ~ layout_doc j l) ->
  exists N d, md_message d = MsgLayoutSyntax /\ describes j id d /\ forall fuel, N <= fuel -> program fuel a = Ok (ExitFailure d, []).
Proof.
  intros SV FB J WF NX NL. destruct (first_bad_loads _ _ _ _ SV FB) as (before & after & EN & LB & FS & N & HN).
  assert (R : exists e, read_layout j = Err e).
  { pose proof (C99_same_result j) as S. destruct (C56_outcome j WF NX) as [(l & D)|(e & D)].
    - elim (NL l). now apply C56_reads.
    - destruct (read_layout j) as [l|e'|w|]; try congruence. eauto. }
  destruct R as (e & R).
  assert (G : forall fuel, N <= fuel -> exists fs, run_files fuel a = (fs, Err (MainLayoutSyntax id (code_map_of j) e))).
  { intros fuel LE. destruct (HN fuel LE) as (x & LA). destruct (run_main_stops fuel a _ _ _ _ _ EN FS LA) as (fs & NTH & H).
    exists fs. apply H. unfold load_layout_at. rewrite NTH. cbn [unwrap bind snd]. rewrite J, R, LB. reflexivity. }
  destruct (G N (le_n N)) as (fs0 & G0). destruct (diagnostic_of N a _ _ G0) as (d & I & _ & _). exists N, d.
  assert (P : forall fuel, N <= fuel -> program fuel a = Ok (ExitFailure d, [])).
  { intros fuel LE. destruct (G fuel LE) as (fs & Gf). exact (program_err _ _ _ _ _ Gf I). }
  pose proof (P N (le_n N)) as PN. cbn [into_diagnostic] in I. rewrite (C99_diagnostic j e R) in I. cbn [bind] in I. injection I as <-.
  destruct (C104_blames _ _ _ _ PN) as (id' & name' & source' & FB' & H).
  { cbn [md_labels]. destruct (pe_error e); try discriminate. destruct (pe_other e); discriminate. }
  split; [reflexivity|]. split; [|exact P]. destruct H as [(_ & H)|(j' & _ & _ & _ & H)]; [discriminate H|].
  pose proof (C99_points_at j e R) as PA. pose proof (C99_other j e R) as OT.
  exists (pe_error e), (position e), (pe_other e). split; [exact PA|]. cbn [md_labels md_notes].
  destruct (pe_error e) eqn:EE;
    try (destruct (pe_other e) as [i'|]; [exfalso; destruct OT as [OT _]; destruct OT as [k OT]; discriminate|]; split; reflexivity).
  destruct (pe_other e) as [i'|]; split; reflexivity.
Qed.
End Main.
