(** * Properties of the command line *)

From Coq Require Import String Ascii List Bool Arith NArith ZArith Qcanon Permutation Lia.
Import ListNotations.
From Verif Require Import Base BaseProofs Orders PatternModel MatchingModel ValueModel LayoutModel HydrateModel TermModel
  DehydrateModel DehydrateFinish JsonModel CborModel AbsModel AbsSpec AbsJsonModel AbsJsonSpec AbsAcceptSpec
  GenSpec CodeGenModel PreludeSpec PreludeModel PreludeProperties CliModel CliSpec CliProofs CliMono.
Open Scope list_scope.
Open Scope nat_scope.

Section Cli.
Context {TS : TextSyntax} {IS : IriSyntax} {AE : AbsExternal} {X : Xsd} {CC : Cmp cbor} {F : Type} {FM : Formats F}.
Variables (arbitrary_precision : bool) (json_float : string -> option F)
  (from_f64 : F -> option Qc) (to_f64 : Qc -> F).
Variable index : list (quad term) -> dataset term.
Variable order : list (quad res) -> list (quad res).
Variable lines : list (quad term) -> list (quad term).
Variable extra_properties : term -> option (list (term * term)).
Variable is_unsigned_long : string -> bool.
Variable file : string -> option string.

Notation run_with := (run arbitrary_precision json_float from_f64 to_f64 index order lines extra_properties is_unsigned_long file).
Notation run_command_with := (run_command from_f64 to_f64 index order lines extra_properties is_unsigned_long).

(** The program on its arguments. *)
Lemma run_loads stdin fuel a : run_with stdin fuel a =
  let* x := load_all file fuel (a_layouts a) [] 0 in
  let '(rs, m, n) := x in
  let* y := load_all file fuel (a_include a) m n in
  let '(_, m, n) := y in
  match a_command a with
  | None => Ok ""%string
  | Some c => run_command_with stdin fuel c
      (union_get (reg_with (layouts_get m)
         (option_get (if a_no_prelude a then None else Some (prelude_registry arbitrary_precision json_float from_f64 fuel)))))
      (fold_left (fun d r => default_set r d) rs DefaultNone)
  end.
Proof.
  unfold run. rewrite load_files_all, bind_bind. apply bind_ext. intros [[rs m] n]. cbn [bind]. rewrite include_files_all, bind_bind.
  apply bind_ext. intros [[rs' m'] n']. reflexivity.
Qed.

Lemma empty_later : no_later 0 [].
Proof. intros k _. reflexivity. Qed.
Lemma empty_wf : bt_wf (@nil (term * layout term)).
Proof. constructor. Qed.

Lemma run_loaded stdin fuel a out : run_with stdin fuel a = Ok out ->
  exists rs m n, load_all file fuel (a_layouts a ++ a_include a) [] 0 = Ok (rs, m, n).
Proof.
  rewrite run_loads, load_all_app. intro H. apply bind_Ok in H as ([[rs m] n] & L & H). rewrite L. cbn [bind].
  apply bind_Ok in H as ([[rs' m'] n'] & L' & H). rewrite L'. cbn [bind]. eauto.
Qed.

Lemma split_load fuel names names' rs m n : load_all file fuel (names ++ names') [] 0 = Ok (rs, m, n) ->
  exists rs1 rs2 m1 n1, rs = rs1 ++ rs2 /\ load_all file fuel names [] 0 = Ok (rs1, m1, n1) /\
    load_all file fuel names' m1 n1 = Ok (rs2, m, n) /\ length rs1 = length names.
Proof.
  rewrite load_all_app. intro H. apply bind_Ok in H as ([[rs1 m1] n1] & L & H). apply bind_Ok in H as ([[rs2 m2] n2] & L' & H).
  injection H as <- <- <-. exists rs1, rs2, m1, n1. split; [reflexivity|]. split; [exact L|]. split; [exact L'|].
  destruct (all_brings file fuel names _ _ _ _ _ L empty_wf empty_later) as (ls & idss & D & _ & _ & _ & _ & _ & _ & DF & _).
  clear - D DF. revert rs1 DF. induction D as [|? ? ? ? _ _ IH]; intros rs DF; inversion DF; subst; [reflexivity|]. cbn [length]. f_equal. auto.
Qed.

(** C86.  Whatever the command: it runs only if the files are acceptable together. *)
Theorem C86_rejects stdin fuel a out : run_with stdin fuel a = Ok out -> acceptable file (a_layouts a ++ a_include a).
Proof.
  intro H. apply run_loaded in H as (rs & m & n & L).
  destruct (all_brings file fuel _ _ _ _ _ _ L empty_wf empty_later) as (ls & idss & D & W & ND & _). exists ls, idss. auto.
Qed.

(** The files are accepted exactly when they are acceptable together: without command, the program only
    checks the files. *)
Theorem C86_accepts stdin layouts includes no_prelude : scalar_values ->
  (acceptable file (layouts ++ includes) <->
   exists N, forall fuel, N <= fuel -> run_with stdin fuel (Args layouts includes no_prelude None) = Ok ""%string).
Proof.
  intro SV. split.
  - intros (ls & idss & D & W & ND). destruct (all_accepts file _ ls idss SV D W ND 0) as (N & n' & H).
    exists N. intros fuel LE. destruct (H fuel LE [] empty_wf empty_later ltac:(reflexivity)) as (rs & m' & E & _).
    rewrite load_all_app in E. rewrite run_loads. cbn [a_layouts a_include a_command].
    apply bind_Ok in E as ([[rs1 m1] n1] & L1 & E). rewrite L1. cbn [bind].
    apply bind_Ok in E as ([[rs2 m2] n2] & L2 & E). rewrite L2. reflexivity.
  - intros (N & H). exact (C86_rejects _ _ _ _ (H N (le_n N))).
Qed.

(** The order of the files does not matter, nor whether they are included. *)
Lemma Forall2_perm {A B} (P : A -> B -> Prop) l l' : Permutation l l' -> forall m, Forall2 P l m -> exists m', Forall2 P l' m' /\ Permutation m m'.
Proof.
  induction 1 as [|x l l' _ IH|x y l|l l' l'' _ IH1 _ IH2]; intros m H.
  - exists m. split; [exact H|apply Permutation_refl].
  - inversion H as [|? b ? m0 Hx Hl]; subst. destruct (IH m0 Hl) as (m' & H' & P'). exists (b :: m'). split; [constructor; auto|now constructor].
  - inversion H as [|? b ? m0 Hx Hl]; subst. inversion Hl as [|? b' ? m1 Hy Hl']; subst. exists (b' :: b :: m1).
    split; [constructor; auto|constructor].
  - destruct (IH1 m H) as (m1 & H1 & P1). destruct (IH2 m1 H1) as (m2 & H2 & P2). exists m2. split; [exact H2|eapply Permutation_trans; eassumption].
Qed.
Lemma concat_perm {A} (l l' : list (list A)) : Permutation l l' -> Permutation (concat l) (concat l').
Proof.
  induction 1 as [|x l l' _ IH|x y l|l l' l'' _ IH1 _ IH2]; cbn [concat].
  - constructor.
  - now apply Permutation_app_head.
  - rewrite !app_assoc. apply Permutation_app_tail, Permutation_app_comm.
  - eapply Permutation_trans; eassumption.
Qed.
Theorem C86_order names names' : Permutation names names' -> acceptable file names -> acceptable file names'.
Proof.
  intros P (ls & idss & D & W & ND). destruct (Forall2_perm _ _ _ P _ D) as (ls' & D' & P').
  destruct (Forall2_perm _ _ _ P' _ W) as (idss' & W' & P''). exists ls', idss'. split; [exact D'|]. split; [exact W'|].
  eapply Permutation_NoDup; [apply concat_perm, P''|exact ND].
Qed.

Lemma default_none rs d : fold_left (fun d r => default_set r d) rs d =
  match rs with [] => d | [r] => default_set r d | _ => DefaultAmbiguous end.
Proof.
  assert (A : forall rs, fold_left (fun d r => default_set r d) rs DefaultAmbiguous = DefaultAmbiguous) by (induction rs0; auto).
  destruct rs as [|r [|r' rs]]; [reflexivity|reflexivity|]. cbn [fold_left]. destruct d; apply A.
Qed.

(** The commands use the layouts of the files, the meaning of which is that of the documents (see C70 and C76), and
    then the prelude: one registry, whatever the command and the input.  [rs]: the references of the files
    that are not included. *)
Theorem C86_registry layouts includes no_prelude : scalar_values -> preset_syntax -> acceptable file (layouts ++ includes) ->
  exists N ls rs rs' m reg d,
    Forall2 (document file) (layouts ++ includes) ls /\ length rs = length layouts /\
    made_of m ls (rs ++ rs') /\ lookup m no_prelude reg /\
    (forall preferred, default_get d preferred =
      match preferred, rs with
      | Some r, _ => Ok r
      | None, [] => Err CliNoDefaultLayout
      | None, [r] => Ok r
      | None, _ => Err CliAmbiguousDefaultLayout
      end) /\
    forall stdin fuel c, N <= fuel ->
      run_with stdin fuel (Args layouts includes no_prelude (Some c)) = run_command_with stdin fuel c reg d.
Proof.
  intros SV PS (ls & idss & D & W & ND). destruct (all_accepts file _ ls idss SV D W ND 0) as (N & n' & H).
  destruct (H N (le_n N) [] empty_wf empty_later ltac:(reflexivity)) as (rs & m & E & _). clear H.
  destruct (split_load _ _ _ _ _ _ E) as (rs1 & rs2 & m1 & n1 & -> & L1 & L2 & LEN).
  destruct (all_brings file N _ _ _ _ _ _ E empty_wf empty_later) as (ls' & idss' & D' & _ & _ & _ & _ & Wm & _ & DF & _ & OR).
  exists N, ls', rs1, rs2, m.
  exists (union_get (reg_with (layouts_get m)
            (option_get (if no_prelude then None else Some (prelude_registry arbitrary_precision json_float from_f64 0))))).
  exists (fold_left (fun d r => default_set r d) rs1 DefaultNone).
  split; [exact D'|]. split; [exact LEN|]. split; [|split; [|split; [|]]].
  - split; [exact DF|]. intros r Q. apply OR in Q as [Q|Q]; [now elim Q|exact Q].
  - intros r l. unfold union_get, reg_with. cbn [u_1 u_0].
    destruct (layouts_get m r) as [l0|] eqn:G.
    + split; [intros [= ->]; now left|]. intros [H|(H & _)]; [exact H|discriminate H].
    + destruct no_prelude; cbn [option_get].
      * split; [discriminate|]. intros [H|(_ & H & _)]; discriminate H.
      * unfold prelude_registry. destruct (C82_prelude arbitrary_precision json_float from_f64 0 PS) as (pm & EP & P).
        assert (EG : prelude_get arbitrary_precision json_float from_f64 0 r = Ok (layouts_get pm r)) by (unfold prelude_get; rewrite EP; reflexivity).
        rewrite EG. rewrite (P r l). split.
        -- intros (p & -> & ->). right. split; [reflexivity|]. split; [reflexivity|]. eauto.
        -- intros [H|(_ & _ & H)]; [discriminate H|exact H].
  - intro preferred. rewrite default_none. destruct preferred as [r|]; [reflexivity|]. destruct rs1 as [|r [|r' rs1]]; reflexivity.
  - intros stdin fuel c LE. rewrite run_loads. cbn [a_layouts a_include a_command a_no_prelude].
    rewrite (load_all_mono file N fuel _ LE _ _ _ L1). cbn [bind]. rewrite (load_all_mono file N fuel _ LE _ _ _ L2). cbn [bind].
    rewrite (prelude_mono _ _ _ fuel PS). reflexivity.
Qed.

(** C87.  The layout of a command.  Without [--layout]: when one file is given (besides the included
    ones), its layout, named by its identifier, or by [_:0] when it has none. *)
Theorem C87_default stdin fuel f includes no_prelude c l r : uses_layout c None -> document file f l ->
  (forall i, identifier l i -> r = TmIri i) -> (anonymous l -> r = TmBlank (nat_string 0)) ->
  run_with stdin fuel (Args [f] includes no_prelude (Some c)) =
  run_with stdin fuel (Args [f] includes no_prelude (Some (with_layout c r))).
Proof.
  intros U (source & j & FI & P & D) ID AN. rewrite !run_loads. cbn [a_layouts a_include a_command a_no_prelude load_all].
  rewrite FI. cbn [ok_or bind]. destruct (load_layout fuel source [] 0) as [[[r0 m0] n0]| | |] eqn:L; try reflexivity. cbn [bind].
  assert (r0 = r) as ->.
  { destruct (load_brings _ _ _ _ _ _ _ L empty_wf empty_later) as (j' & l' & ids & P' & D' & W & _ & _ & _ & _ & _ & _ & _ & ID' & AN').
    rewrite P in P'. injection P' as <-. apply AbsJsonProperties.C56_reads in D, D'. rewrite D in D'. injection D' as <-.
    destruct (header_of l) as [h|] eqn:Hh.
    - destruct (ah_id h) as [i|] eqn:Hi.
      + apply AbsAccept.well_formed_eq in W as (own & inner & O & _). unfold own_id in O. rewrite Hh, Hi in O. destruct O as (i' & Di & _).
        assert (IDi : identifier l i') by (exists h, i; auto). now rewrite (ID _ IDi), (ID' _ IDi).
      + assert (A : anonymous l) by (intros h' Hh'; congruence). now rewrite (AN A), (AN' A).
    - assert (A : anonymous l) by (intros h' Hh'; congruence). now rewrite (AN A), (AN' A). }
  destruct (load_all file fuel includes m0 n0) as [[[rs m] n]| | |]; try reflexivity. cbn [bind fold_left default_set].
  inversion U; subst; reflexivity.
Qed.

(** When none or several are given, the command fails, whatever is included. *)
Theorem C87_no_default stdin a c : scalar_values -> a_command a = Some c -> uses_layout c None ->
  acceptable file (a_layouts a ++ a_include a) -> length (a_layouts a) <> 1 ->
  exists N, forall fuel, N <= fuel -> run_with stdin fuel a =
    Err (match a_layouts a with [] => CliNoDefaultLayout | _ => CliAmbiguousDefaultLayout end).
Proof.
  intros SV EC U (ls & idss & D & W & ND) NE. destruct (all_accepts file _ ls idss SV D W ND 0) as (N & n' & H).
  exists N. intros fuel LE. destruct (H fuel LE [] empty_wf empty_later ltac:(reflexivity)) as (rs & m & E & _). clear H.
  destruct (split_load _ _ _ _ _ _ E) as (rs1 & rs2 & m1 & n1 & -> & L1 & L2 & LEN).
  rewrite run_loads, L1. cbn [bind]. rewrite L2. cbn [bind]. rewrite EC, default_none.
  destruct (a_layouts a) as [|f [|f' fs]]; [| |]; destruct rs1 as [|r [|r' rs1]]; try discriminate LEN; try (now elim NE);
    inversion U; subst; reflexivity.
Qed.

(** With [--layout], the layouts given are all the same: giving a file and including it. *)
Theorem C87_include stdin fuel a c r : a_command a = Some c -> uses_layout c (Some r) ->
  run_with stdin fuel a = run_with stdin fuel (Args [] (a_layouts a ++ a_include a) (a_no_prelude a) (Some c)).
Proof.
  intros EC U. rewrite !run_loads. cbn [a_layouts a_include a_command a_no_prelude load_all bind]. rewrite EC, load_all_app, bind_bind.
  apply bind_ext. intros [[rs m] n]. rewrite bind_bind. apply bind_ext. intros [[rs' m'] n']. cbn [bind]. inversion U; subst; reflexivity.
Qed.
End Cli.
