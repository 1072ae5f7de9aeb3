(** * Specification of the macros and of the program that generate types from files (C92, C93) *)

From Coq Require Import String Ascii List Bool Arith NArith ZArith QArith Qcanon.
Import ListNotations.
From Verif Require Import Base Orders PatternModel ValueModel LayoutModel HydrateModel TermModel NumberModel DehydrateModel
  JsonModel AbsModel AbsSpec AbsJsonModel AbsJsonSpec AbsAcceptSpec AbsSerdeModel AbsSerdeSpec AttrModel CodeGenModel CliModel
  CliSpec GenProgModel.
Open Scope list_scope.
Open Scope nat_scope.
Open Scope string_scope.

(** The layout and all those written inside it have an identifier. *)
Definition all_named (l : alayout) : Prop :=
  forall l', AbsSpec.inside l l' -> exists h c, header_of l' = Some h /\ ah_id h = Some c.

(** The documents are well formed, no identifier is given to two layouts... *)
Definition consistent {IS : IriSyntax} {AE : AbsExternal} (ls : list alayout) : Prop :=
  exists idss, Forall2 (well_formed no_env) ls idss /\ NoDup (concat idss).
(** ...and anonymous layouts are written in one of them at most. *)
Definition one_anonymous (ls : list alayout) : Prop :=
  forall i j l l', nth_error ls i = Some l -> nth_error ls j = Some l' -> ~ all_named l -> ~ all_named l' -> i = j.

Section Files.
Context {TS : TextSyntax} {F : Type} {FM : Formats F}.
Variables (arbitrary_precision : bool) (json_float : string -> option F) (from_f64 : F -> option Qc).
Variable file : string -> option string.

(** The file [name] is a JSON document that serde reads as the layout [l] (see C85 for the layouts that it describes,
    and C72). *)
Definition serde_document (name : string) (l : alayout) : Prop :=
  exists source j s, file name = Some source /\ json_parse source = Some j /\
    json_serde arbitrary_precision json_float j = Ok s /\ layout_deserialize from_f64 s = Ok l.
(** The file exists, and is not the document of a layout. *)
Definition unreadable (name : string) : Prop :=
  file name <> None /\ forall l, ~ serde_document name l.

(** The documents among the files: [readable names ls] when all the files exist and [ls] are the layouts of those that
    are documents. *)
Inductive readable : list string -> list alayout -> Prop :=
| readable_nil : readable [] []
| readable_document name names l ls : serde_document name l -> readable names ls -> readable (name :: names) (l :: ls)
| readable_skip name names ls : unreadable name -> readable names ls -> readable (name :: names) ls.

(** The file [name] describes the layout [l], with no literal in a language and with numbers that serde presents as
    they are: both readers agree. *)
Definition plain_document (name : string) (l : alayout) : Prop :=
  exists source j s, file name = Some source /\ json_parse source = Some j /\ layout_doc j l /\
    without_language l /\ numbers_alike arbitrary_precision json_float from_f64 j /\ json_serde arbitrary_precision json_float j = Ok s.
End Files.

(** The references of documents: their identifiers, or some blank node. *)
Definition reference_of {IS : IriSyntax} {AE : AbsExternal} (l : alayout) (r : term) : Prop :=
  (forall i, identifier l i -> r = TmIri i) /\ (anonymous l -> exists k, r = TmBlank k).

(** The declarations [use] of a module: [registers items prefix name] when the last declaration that has the attribute
    [tldr("prefix")] brings [name] in scope. *)
Inductive names_item : use_tree -> string -> Prop :=
| ni_name i : names_item (UseName i) i
| ni_rename i i' : names_item (UseRename i i') i'
| ni_path i t n : names_item t n -> names_item (UsePath i t) n.
Inductive prefix_of : list attribute -> string -> Prop :=
| po_last attrs p : (forall a, In a attrs -> exists q, a = Attr "tldr" (Some [TkStr q])) ->
    prefix_of (attrs ++ [Attr "tldr" (Some [TkStr p])])%list p.
Definition use_declares (it : mod_item) (p n : string) : Prop :=
  exists attrs t, it = ItemUse attrs t /\ prefix_of attrs p /\ names_item t n.
Definition registers (items : list mod_item) (p n : string) : Prop :=
  exists before it after, items = (before ++ it :: after)%list /\ use_declares it p n /\
    forall it' n', In it' after -> ~ use_declares it' p n'.
(** The items that a module may have. *)
Definition item_ok (it : mod_item) : Prop :=
  exists attrs t, it = ItemUse attrs t /\ (attrs = [] \/ exists p n, use_declares it p n).
