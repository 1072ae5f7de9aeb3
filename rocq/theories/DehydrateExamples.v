(** * Dehydration: witnesses, counter-examples and non-vacuity for C21 to C31 and C59 to C61 *)

From Coq Require Import String List Bool Arith NArith ZArith Permutation QArith Qcanon Lia.
Import ListNotations.
From Verif Require Import Base BaseProofs Orders PatternModel MatchingModel MatchingSpec ValueModel ValueProofs
  LayoutModel LayoutSpec HydrateModel HydrateSpec TermModel HydrateExamples DehydrateModel DehydrateSpec
  DehydrateProofs DehydrateEmits DehydrateFinish DehydrateProperties.
Open Scope list_scope.
Open Scope nat_scope.
Open Scope string_scope.

(** Any string without space is taken as an IRI in the examples. *)
Fixpoint no_space (s : string) : bool :=
  match s with
  | EmptyString => true
  | String c s' => negb (eqb (Ascii.nat_of_ascii c) 32) && no_space s'
  end.
Global Instance example_iris : IriSyntax := no_space.

Definition same (l : list (quad res)) : list (quad res) := l.
Lemma same_perm l : Permutation (same l) l.
Proof. apply Permutation_refl. Qed.

(** ** A record with an identifier, a set, and a list *)

Definition team : layouts term := [
  (iri "team", ProductL no_header [
      (key "id", Field (self (VFormat (iri "id") [PVar 0] None)) true);
      (key "members", Field (self (VFormat (iri "members") [PVar 0] None)) true);
      (key "name", Field (prop "name" (iri "string")) true);
      (key "todo", Field (prop "todo" (iri "tasks")) false)]);
  (iri "id", IdL no_header (PVar 0) None);
  (iri "members", UnorderedL no_header (prop "member" (iri "member")));
  (iri "member", ProductL (Header 1 0 [Quad (PVar 0) (PRes (iri "type")) (PRes (iri "Person")) None]) [
      (key "age", Field (prop "age" (iri "number")) false);
      (key "name", Field (prop "name" (iri "string")) true)]);
  (iri "tasks", OrderedL no_header
      (Item 1 (VFormat (iri "string") [PVar 3] None)
        [Quad (PVar 1) (PRes (iri "first")) (PVar 3) None;
         Quad (PVar 1) (PRes (iri "rest")) (PVar 2) None]) (PVar 0) (PRes (iri "nil")));
  (iri "pair", SizedL no_header [prop "left" (iri "string"); prop "right" (iri "number")]);
  (iri "number", DataL KNumber no_header (PVar 0) (iri xsd_integer));
  (iri "string", DataL (KTextString None) no_header (PVar 0) (iri xsd_string))].
Definition team_reg : registry term := layouts_get team.

Definition vtext (s : string) : value := VLit (LText s).
Definition vint (z : Z) : value := VLit (LNum (Qc_of_Z z)).

Definition team_value : value := VMap [
  (key "id", vtext "http://team");
  (key "members", VList [VMap [(key "age", vint 42); (key "name", vtext "Alice")];
                         VMap [(key "name", vtext "Bob")]]);
  (key "name", vtext "A");
  (key "todo", VList [vtext "read"; vtext "prove"])].

Definition blank (s : string) : term := TmBlank s.
Definition q3 (s : term) (p : string) (o : term) : quad term := Quad s (iri p) o None.
Definition team_quads : list (quad term) := [
  q3 (iri "http://team") "member" (blank "0");
  q3 (blank "0") "type" (iri "Person");
  q3 (blank "0") "age" (int "42");
  q3 (blank "0") "name" (text "Alice");
  q3 (iri "http://team") "member" (blank "1");
  q3 (blank "1") "type" (iri "Person");
  q3 (blank "1") "name" (text "Bob");
  q3 (iri "http://team") "name" (text "A");
  q3 (iri "http://team") "todo" (blank "2");
  q3 (blank "2") "first" (text "read");
  q3 (blank "2") "rest" (blank "3");
  q3 (blank "3") "first" (text "prove");
  q3 (blank "3") "rest" (iri "nil")].

Example dehydrate_team :
  dehydrate same team_reg 10 team_value (iri "team") default_options = Ok (team_quads, [iri "http://team"]).
Proof. vm_compute. reflexivity. Qed.

(** C21, C25, C28 and C24 apply. *)
Example team_emits :
  Emits (fun t => t) (fun q => In q team_quads) eq team_reg (iri "team") [iri "http://team"] team_value.
Proof. exact (C25_emits default_options team_reg same same_perm _ _ _ _ _ dehydrate_team). Qed.

Example team_instances q : In q team_quads -> registry_instance (fun t => t) team_reg q.
Proof. exact (C25_only_instances default_options team_reg same same_perm _ _ _ _ _ q dehydrate_team). Qed.

Example team_count : exists l, team_reg (iri "team") = Some l /\ length [iri "http://team"] = input_number default_options l.
Proof. exact (C21_output_count default_options team_reg same same_perm _ _ _ _ _ dehydrate_team). Qed.

Example team_calls :
  match team_reg (iri "team") with
  | Some l => calls default_options team_reg 10 team_value (iri "team") l
  | None => []
  end = [EAssign (RInput 0) (iri "http://team");
         ENew (RAnon 0); ENew (RAnon 1); EAssign (RAnon 1) (int "42"); ENew (RAnon 2);
         EAssign (RAnon 2) (text "Alice");
         ENew (RAnon 3); ENew (RAnon 4); EAssign (RAnon 4) (text "Bob");
         ENew (RAnon 5); EAssign (RAnon 5) (text "A");
         ENew (RAnon 6); ENew (RAnon 7); ENew (RAnon 8); EAssign (RAnon 8) (text "read");
         ENew (RAnon 9); EAssign (RAnon 9) (text "prove")].
Proof. vm_compute. reflexivity. Qed.

(** With two inputs requested on the top layout. *)
Example dehydrate_any :
  dehydrate same (layouts_get [(iri "any", Always)]) 10 team_value (iri "any")
    (Options (Some 2) (o_input_term default_options) 0 (o_next default_options))
  = Ok ([], [blank "input0"; blank "input1"]).
Proof. vm_compute. reflexivity. Qed.

(** ** C22, C23 *)
Example missing_name :
  dehydrate same team_reg 10 (VMap [(key "age", vint 1)]) (iri "member") default_options
  = Err (DMissingRequiredKey (iri "member") (key "name") [(key "age", vint 1)]).
Proof. vm_compute. reflexivity. Qed.

Example unknown_key :
  dehydrate same team_reg 10 (VMap [(key "age", vint 1); (key "other", vint 1)]) (iri "member") default_options
  = Err DIncompatibleLayout.
Proof. vm_compute. reflexivity. Qed.

Definition member_fields : list (value * field term) := [
  (key "age", Field (prop "age" (iri "number")) false);
  (key "name", Field (prop "name" (iri "string")) true)].
Definition member_header : header term :=
  Header 1 0 [Quad (PVar 0) (PRes (iri "type")) (PRes (iri "Person")) None].

(** Hypotheses of [C22_missing_key] and [C22_unknown_key]. *)
Example age_accepted : exists st,
  dehydrate_layout input_interpretation (dehydrate_with input_interpretation team_reg 9)
    (VMap [(key "age", vint 1)]) None (iri "member") (ProductL member_header (all_optional member_fields))
    [RInput 0] initial = (Ok tt, st).
Proof. eexists. vm_compute. reflexivity. Qed.

(** C22: another failure may come first. *)
Definition bytes_reg : registry term := layouts_get [
  (iri "r", ProductL no_header [(key "b", Field (prop "b" (iri "bytes")) true)]);
  (iri "bytes", DataL KByteString no_header (PVar 0) (iri "base64"))].
Theorem C22_failure_refuted : exists (reg : registry term) m h fs ref k,
  reg ref = Some (ProductL h fs) /\ In k (map fst m) /\ ~ In k (map fst fs) /\
  exists w, dehydrate same reg 10 (VMap m) ref default_options = Panic w.
Proof.
  exists bytes_reg, [(key "b", VLit (LBytes "x")); (key "c", vint 1)]. eexists _, _, (iri "r"), (key "c").
  split; [reflexivity|]. split; [simpl; auto|]. split; [simpl; intuition discriminate|].
  eexists. vm_compute. reflexivity.
Qed.

Example pair_ok : exists ds vals,
  dehydrate same team_reg 10 (VList [vtext "a"; vint 3]) (iri "pair") default_options = Ok (ds, vals) /\ length ds = 2.
Proof. eexists _, _. vm_compute. split; reflexivity. Qed.
Example pair_short :
  dehydrate same team_reg 10 (VList [vtext "a"]) (iri "pair") default_options = Err DIncompatibleLayout.
Proof. vm_compute. reflexivity. Qed.
Example pair_long :
  dehydrate same team_reg 10 (VList [vtext "a"; vint 3; vint 4]) (iri "pair") default_options = Err DIncompatibleLayout.
Proof. vm_compute. reflexivity. Qed.
(** Hypothesis of [C23_tuple_mismatch]. *)
Example pair_prefix : exists st,
  dehydrate_layout input_interpretation (dehydrate_with input_interpretation team_reg 9)
    (VList [vtext "a"]) None (iri "pair") (SizedL no_header [prop "left" (iri "string")])
    [RInput 0] initial = (Ok tt, st).
Proof. eexists. vm_compute. reflexivity. Qed.

(** ** C26: the graph of a value format is ignored *)

Definition graph_reg : registry term := layouts_get [
  (iri "r", ProductL no_header
     [(key "a", Field (Item 0 (VFormat (iri "s") [PVar 0] (Some (Some (PRes (iri "g"))))) []) true)]);
  (iri "s", ProductL (Header 1 0 [Quad (PVar 0) (PRes (iri "p")) (PRes (iri "o")) None;
                                  Quad (PVar 0) (PRes (iri "p")) (PRes (iri "o")) (Some (PRes (iri "h")))]) [])].

Theorem C26_graph_refuted :
  exists (reg : registry term) v ref ds vals,
    dehydrate same reg 10 v ref default_options = Ok (ds, vals) /\
    (* a component evaluated in the graph [g], with a pattern without graph *)
    (exists h h' k it l p t, reg ref = Some (ProductL h [(k, Field it true)]) /\
       vf_graph (it_value it) = Some (Some (PRes t)) /\ reg (vf_layout (it_value it)) = Some l /\
       l = ProductL h' [] /\ In p (h_dataset h') /\ q_g p = None /\
       (* has no instance in this graph *)
       (forall q, In q ds -> q_g q <> Some t)).
Proof.
  exists graph_reg, (VMap [(key "a", VMap [])]), (iri "r"). eexists _, _. split; [vm_compute; reflexivity|].
  eexists _, _, _, _, _, _, (iri "g"). split; [reflexivity|]. split; [reflexivity|]. split; [reflexivity|].
  split; [reflexivity|]. split; [left; reflexivity|]. split; [reflexivity|].
  intros q [<-|[<-|[]]]; discriminate.
Qed.

(** What holds: the patterns with a graph are emitted in this graph. *)
Theorem C26_explicit_graph_partial {Gn} (opts : options Gn) (reg : registry term) order fuel v ref ds vals h fs p t :
  (forall l, Permutation (order l) l) ->
  dehydrate order reg fuel v ref opts = Ok (ds, vals) ->
  reg ref = Some (ProductL h fs) -> In p (h_dataset h) -> q_g p = Some (PRes t) ->
  exists q, In q ds /\ q_g q = Some t /\ exists env, inst_quad (fun t => t) env p q.
Proof.
  intros OP H E Hp Hg. apply C25_emits in H; [|exact OP].
  inversion H as [r i v' E1|r i h1 c env E1|r i k h1 res dt env r' v' l E1|r i h1 res pat env r' s E1
    |r i h1 fs1 env m E1 L O|r i h1 vs env va v' E1|r i h1 it env l E1|r i h1 node hd tl env head l E1
    |r i h1 its env l E1]; subst; rewrite E in E1; try discriminate.
  injection E1 as <- <-. destruct O as (rs & _ & -> & O). destruct (O p Hp) as (q & Hq & Hi).
  exists q. split; [exact Hq|]. split; [|eexists; exact Hi].
  destruct Hi as (_ & _ & _ & Hi). rewrite Hg in Hi. inversion Hi as [|p' r' Hi']; subst.
  inversion Hi'; subst. reflexivity.
Qed.

Example graph_case : exists ds vals,
  dehydrate same graph_reg 10 (VMap []) (iri "s") default_options = Ok (ds, vals) /\
  In (Quad (blank "input0") (iri "p") (iri "o") (Some (iri "h"))) ds.
Proof. eexists _, _. split; [vm_compute; reflexivity|]. simpl. auto. Qed.

(** ** C27: the variants that failed leave traces *)

Definition sum_reg (vs : list (variant term)) : registry term := layouts_get [
  (iri "sum", SumL no_header vs);
  (iri "A", ProductL (Header 1 0 [Quad (PVar 0) (PRes (iri "type")) (PRes (iri "A")) None])
     [(key "n", Field (prop "n" (iri "number")) true)]);
  (iri "B", ProductL no_header [(key "s", Field (prop "s" (iri "string")) true)]);
  (iri "idnum", SizedL no_header [self (VFormat (iri "id") [PVar 0] None); prop "n" (iri "number")]);
  (iri "strid", SizedL no_header [prop "s" (iri "string"); self (VFormat (iri "id") [PVar 0] None)]);
  (iri "id", IdL no_header (PVar 0) None);
  (iri "number", DataL KNumber no_header (PVar 0) (iri xsd_integer));
  (iri "string", DataL (KTextString None) no_header (PVar 0) (iri xsd_string))].
Definition var (name layout : string) : variant term := Variant name (self (VFormat (iri layout) [PVar 0] None)).

(** The value is rejected by the first variant, accepted by the second; the result has a quad of the
    first. *)
Theorem C27_sum_trace_refuted :
  exists va vb v ds ds' vals,
    dehydrate same (sum_reg [va]) 10 v (iri "sum") default_options = Err DIncompatibleLayout /\
    dehydrate same (sum_reg [vb]) 10 v (iri "sum") default_options = Ok (ds', vals) /\
    dehydrate same (sum_reg [va; vb]) 10 v (iri "sum") default_options = Ok (ds, vals) /\
    exists q, In q ds /\ ~ In q ds' /\
      ~ exists l p env, sum_reg [] (vf_layout (it_value (va_item vb))) = Some l /\
          quad_pattern_of l p /\ inst_quad (fun t => t) env p q.
Proof.
  exists (var "a" "A"), (var "b" "B"), (VMap [(key "s", vtext "x")]). eexists _, _, _.
  split; [vm_compute; reflexivity|]. split; [vm_compute; reflexivity|]. split; [vm_compute; reflexivity|].
  exists (q3 (blank "input0") "type" (iri "A")). split; [left; reflexivity|]. split.
  - intros [H|[]]. discriminate.
  - intros (l & p & env & E & Q & Hi). assert (l = ProductL no_header [(key "s", Field (prop "s" (iri "string")) true)]) as ->.
    { cbn in E. congruence. }
    inversion Q as [| | |h fs p' Hin|h fs k f p' Hin Hp| | | | | | | |]; subst; [destruct Hin|].
    destruct Hin as [[= <- <-]|[]]. destruct Hp as [<-|[]]. destruct Hi as (_ & Hp & _). simpl in Hp.
    inversion Hp.
Qed.

(** Exactly one variant accepts the value, but the sum fails. *)
Theorem C27_sum_ambiguity_refuted :
  exists va vb v ds vals,
    dehydrate same (sum_reg [va]) 10 v (iri "sum") default_options = Err DIncompatibleLayout /\
    dehydrate same (sum_reg [vb]) 10 v (iri "sum") default_options = Ok (ds, vals) /\
    exists a b, dehydrate same (sum_reg [va; vb]) 10 v (iri "sum") default_options = Err (DTermAmbiguity a b).
Proof.
  exists (var "a" "idnum"), (var "b" "strid"), (VList [vtext "http://a"; vtext "http://b"]). eexists _, _.
  split; [vm_compute; reflexivity|]. split; [vm_compute; reflexivity|].
  eexists _, _. vm_compute. reflexivity.
Qed.

(** Hypotheses of [C27_sum_partial]: one variant accepts. *)
Example sum_attempts : exists e st1 bs st2,
  open input_interpretation (Root [RInput 0]) 0 [] initial = (Ok e, st1) /\
  Attempts input_interpretation (sum_reg [var "a" "A"; var "b" "B"]) 9 (VMap [(key "s", vtext "x")]) None e
    [var "a" "A"; var "b" "B"] st1 bs st2 /\
  length (accepted bs) = 1 /\ variants_instantiable (1 + 0) [var "a" "A"; var "b" "B"].
Proof.
  eexists _, _, _, _. split; [vm_compute; reflexivity|]. split; [|split].
  - eapply At_reject; [vm_compute; reflexivity|]. eapply At_accept; [vm_compute; reflexivity|]. constructor.
  - reflexivity.
  - intros va x [<-|[<-|[]]] (p & [] & _).
Qed.

(** ... two variants accept. *)
Example sum_ambiguous :
  dehydrate same (sum_reg [var "x" "string"; var "y" "id"]) 10 (vtext "a") (iri "sum") default_options
  = Err DDataAmbiguity.
Proof. vm_compute. reflexivity. Qed.

(** Hypotheses of [C27_literal_variants_partial]. *)
Example literal_attempt : exists st',
  attempt input_interpretation (sum_reg []) 9 (vtext "a") None (Root [RInput 0]) (var "n" "number") initial
  = (Err DIncompatibleLayout, st') /\
  forall x, ~ undeclared_in (DataL KNumber no_header (PVar 0) (iri xsd_integer)) x.
Proof.
  eexists. split; [vm_compute; reflexivity|]. intros x [[(p & [] & _) _]|[[= <-] H]]. simpl in H. lia.
Qed.

(** ** C28 *)
Definition two_ids : registry term := layouts_get [
  (iri "r", SizedL no_header [self (VFormat (iri "id") [PVar 0] None); self (VFormat (iri "id") [PVar 0] None)]);
  (iri "id", IdL no_header (PVar 0) None)].
Example conflict :
  dehydrate same two_ids 10 (VList [vtext "a"; vtext "b"]) (iri "r") default_options
  = Err (DTermAmbiguity (iri "a") (iri "b")).
Proof. vm_compute. reflexivity. Qed.
Example conflict_hypotheses : exists l, two_ids (iri "r") = Some l /\
  In (EAssign (RInput 0) (iri "a")) (calls default_options two_ids 10 (VList [vtext "a"; vtext "b"]) (iri "r") l) /\
  In (EAssign (RInput 0) (iri "b")) (calls default_options two_ids 10 (VList [vtext "a"; vtext "b"]) (iri "r") l) /\
  fst (dehydrate_with input_interpretation two_ids 10 (VList [vtext "a"; vtext "b"]) None (iri "r")
         (map RInput (seq 0 (input_number default_options l))) initial) = Ok tt.
Proof.
  eexists. split; [reflexivity|]. split; [vm_compute; auto|]. split; [vm_compute; auto|]. vm_compute. reflexivity.
Qed.
Example no_conflict :
  dehydrate same two_ids 10 (VList [vtext "a"; vtext "a"]) (iri "r") default_options = Ok ([], [iri "a"]).
Proof. vm_compute. reflexivity. Qed.

(** ** C29, C61 *)
Example lookup :
  instantiate_pattern input_interpretation (Child (Child (Root [RInput 0; RInput 1]) [RAnon 0]) [RAnon 1; RAnon 2]) (PVar 3)
  = Ok (RAnon 1).
Proof. reflexivity. Qed.
Definition unscoped : registry term := layouts_get [
  (iri "r", ProductL no_header [(key "a", Field (self (VFormat (iri "r") [PVar 7] None)) false)])].
Example undeclared :
  dehydrate same unscoped 10 (VMap [(key "a", VMap [])]) (iri "r") default_options = Err (DUndeclaredVariable 7).
Proof. vm_compute. reflexivity. Qed.

(** ** C31: [todo!()] *)
Theorem C31_no_panic_refuted :
  (exists (reg : registry term) v ref w, dehydrate same reg 10 v ref default_options = Panic w /\
     exists h r dt, reg ref = Some (DataL KByteString h r dt)) /\
  (exists (reg : registry term) v ref w, dehydrate same reg 10 v ref default_options = Panic w /\
     exists h r dt, reg ref = Some (DataL KBoolean h r dt)) /\
  (exists (reg : registry term) v ref w, dehydrate same reg 10 v ref default_options = Panic w /\
     exists h r, reg ref = Some (DataL KNumber h r (iri xsd_integer))).
Proof.
  split; [|split].
  - exists bytes_reg, (VLit (LBytes "x")), (iri "bytes"). eexists. split; [vm_compute; reflexivity|].
    eexists _, _, _. reflexivity.
  - exists (layouts_get [(iri "b", DataL KBoolean no_header (PVar 0) (iri xsd_string))]), (VLit (LBool true)), (iri "b").
    eexists. split; [vm_compute; reflexivity|]. eexists _, _, _. reflexivity.
  - exists team_reg, (VLit (LNum (Q2Qc (1 # 3)))), (iri "number"). eexists. split; [vm_compute; reflexivity|].
    eexists _, _. reflexivity.
Qed.

(** The hypotheses of [C31_no_panic_partial]. *)
Example team_supported : forall r l, reaches team_reg (iri "team") r -> team_reg r = Some l -> supported l.
Proof.
  intros r l _. revert r l. refine (layouts_get_all supported _ _). unfold team.
  repeat constructor; simpl; eauto.
Qed.
Fixpoint numbers (v : value) : list Qc :=
  match v with
  | VLit (LNum n) => [n]
  | VLit _ => []
  | VMap m => flat_map (fun e => numbers (snd e)) m
  | VList l => flat_map numbers l
  end.
Lemma part_numbers n v : part (VLit (LNum n)) v -> In n (numbers v).
Proof.
  remember (VLit (LNum n)) as u eqn:Eu. induction 1 as [v|v k w m Hw H IH|v w l Hw H IH]; subst.
  - now left.
  - cbn [numbers]. apply in_flat_map. exists (k, w). split; [exact Hw|now apply IH].
  - cbn [numbers]. apply in_flat_map. exists w. split; [exact Hw|now apply IH].
Qed.
Example team_decimals n : part (VLit (LNum n)) team_value -> decimal_print n <> None.
Proof.
  intro H. apply part_numbers in H. change (numbers team_value) with [Qc_of_Z 42] in H.
  destruct H as [<-|[]]. vm_compute. discriminate.
Qed.

(** ** C59: a sum can recurse on the same value *)
Definition loop_reg : registry term := layouts_get [(iri "loop", SumL no_header [var "x" "loop"])].
Theorem C59_terminates_refuted : forall fuel v,
  dehydrate same loop_reg fuel v (iri "loop") default_options = OutOfFuel.
Proof.
  intros fuel v. unfold dehydrate. change (loop_reg (iri "loop")) with (Some (SumL no_header [var "x" "loop"])).
  cbn [ok_or bind input_count h_input no_header seq map].
  assert (forall fuel st, dehydrate_with input_interpretation loop_reg fuel v None (iri "loop") [RInput 0] st
          = (OutOfFuel, st)) as H.
  { clear. induction fuel as [|fuel IH]; intros st; [reflexivity|]. cbn [dehydrate_with]. unfold dehydrate_body.
    change (loop_reg (iri "loop")) with (Some (SumL no_header [var "x" "loop"])).
    cbn [input_count h_input no_header length Nat.eqb dehydrate_layout h_intro h_dataset].
    unfold bindM, open, bindM, env_intro, bindM. cbn [new_resources ret instantiate_dataset dehydrate_variants].
    unfold bindM, env_intro, bindM, is_ok, dehydrate_sub_value, bindM, lift. cbn -[dehydrate_with].
    unfold ret. simpl. rewrite IH. reflexivity. }
  rewrite H. reflexivity.
Qed.

(** The hypotheses of [C59_terminates]. *)
Example team_terminates : exists fuel, forall fuel', fuel <= fuel' -> forall g inputs st,
  fst (dehydrate_with input_interpretation team_reg fuel' team_value g (iri "team") inputs st) <> OutOfFuel.
Proof.
  apply (C59_terminates input_interpretation team_reg (fun _ => 0) 1); [lia|].
  intros r h vs va E. apply bt_get_In in E. unfold team in E. simpl in E.
  repeat (destruct E as [E|E]; [discriminate|]). contradiction.
Qed.

(** ** C60 *)
Example frame_case : exists st',
  dehydrate_with input_interpretation team_reg 10 (VMap [(key "name", vtext "x")]) None (iri "member") [RInput 0]
    (DState (InputInterp [] 0) [Quad (RInput 0) (RInput 0) (RInput 0) None]) = (Ok tt, st') /\
  length (ds_output st') = 3.
Proof. eexists. split; [vm_compute; reflexivity|reflexivity]. Qed.

(** ** C62: identifiers of the layouts *)

(** A resource introduced by dehydration gets the identifier of a blank node of the layout. *)
Theorem C62_no_clash_refuted :
  exists (reg : registry term) v ref ds vals,
    dehydrate same reg 10 v ref default_options = Ok (ds, vals) /\
    exists h h' k it p q, reg ref = Some (ProductL h [(k, Field it true)]) /\ it_intro it = 1 /\ h_input h = 1 /\
      reg (vf_layout (it_value it)) = Some (ProductL h' []) /\
      it_dataset it = [Quad (PRes p) (PRes q) (PVar 1) None] /\ In (Quad p q p None) ds.
Proof.
  exists (layouts_get [(iri "r", ProductL no_header
            [(key "a", Field (Item 1 (VFormat (iri "s") [PVar 1] None)
               [Quad (PRes (blank "0")) (PRes (iri "p")) (PVar 1) None]) true)]);
           (iri "s", ProductL no_header [])]), (VMap [(key "a", VMap [])]), (iri "r").
  eexists _, _. split; [vm_compute; reflexivity|].
  eexists _, _, _, _, (blank "0"), (iri "p"). repeat (split; [reflexivity|]). left. reflexivity.
Qed.

Print Assumptions C12_dehydrate_arity.
Print Assumptions C12_dehydrate_arity_ok.
Print Assumptions C13_dehydrate_public.
Print Assumptions C13_dehydrate_not_found.
Print Assumptions C13_dehydrate_closed.
Print Assumptions C16_dehydrate_never.
Print Assumptions C16_dehydrate_always.
Print Assumptions C16_dehydrate_public.
Print Assumptions C21_output_count.
Print Assumptions C22_record_keys.
Print Assumptions C22_missing_key.
Print Assumptions C22_unknown_key.
Print Assumptions C22_not_a_map.
Print Assumptions C22_missing_key_only.
Print Assumptions C22_failure_refuted.
Print Assumptions C23_tuple_length.
Print Assumptions C23_tuple_mismatch.
Print Assumptions C24_introduced_fresh.
Print Assumptions C24_fresh_terms.
Print Assumptions default_options_fresh.
Print Assumptions C25_emits.
Print Assumptions C25_only_instances.
Print Assumptions C26_graph_ignored.
Print Assumptions C26_graph_refuted.
Print Assumptions C26_explicit_graph_partial.
Print Assumptions C27_sum_partial.
Print Assumptions C27_literal_variants_partial.
Print Assumptions C27_sum_trace_refuted.
Print Assumptions C27_sum_ambiguity_refuted.
Print Assumptions C28_conflict.
Print Assumptions C28_functional.
Print Assumptions C28_ambiguity_only.
Print Assumptions C29_lookup.
Print Assumptions C29_undeclared.
Print Assumptions C31_no_panic_partial.
Print Assumptions C31_no_panic_refuted.
Print Assumptions C59_terminates.
Print Assumptions C59_terminates_refuted.
Print Assumptions C60_output_grows.
Print Assumptions C60_output_frame.
Print Assumptions C61_undeclared_only.
Print Assumptions C62_no_clash_refuted.
