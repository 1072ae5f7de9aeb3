(** * Readers and writers for the examples of the command line

    Any injective encoding will do for [Formats]: the ones of std++. *)

From Coq Require Import String Ascii List Bool Arith NArith ZArith QArith Qcanon Lia.
From stdpp Require countable strings.
Import ListNotations.
From Verif Require Import Base PatternModel ValueModel LayoutModel HydrateModel TermModel DehydrateModel JsonModel JsonProperties CborModel
  CliModel CliSpec CliData CborReadModel.
Open Scope list_scope.
Open Scope nat_scope.
Open Scope string_scope.

(** The bits of a number, as a text ended by anything else. *)
Fixpoint bits_text (p : positive) : string :=
  match p with
  | xH => ""
  | xO p => String "0" (bits_text p)
  | xI p => String "1" (bits_text p)
  end.
Fixpoint text_bits (s : string) : positive * string :=
  match s with
  | String "0" s => let (p, r) := text_bits s in (xO p, r)
  | String "1" s => let (p, r) := text_bits s in (xI p, r)
  | s => (xH, s)
  end.
Lemma text_bits_app p r : match r with String "0" _ | String "1" _ => False | _ => True end ->
  text_bits (bits_text p ++ r) = (p, r).
Proof.
  intro H. induction p as [p IH|p IH|].
  - change (text_bits (String "1" (bits_text p ++ r)) = (xI p, r)). cbn [text_bits]. now rewrite IH.
  - change (text_bits (String "0" (bits_text p ++ r)) = (xO p, r)). cbn [text_bits]. now rewrite IH.
  - change (text_bits r = (xH, r)).
    destruct r as [|c r]; [reflexivity|]. destruct c as [[] [] [] [] [] [] [] []]; try reflexivity; contradiction.
Qed.
Lemma append_nil s : s ++ "" = s.
Proof. induction s as [|c s IH]; [reflexivity|]. change (String c (s ++ "") = String c s). now rewrite IH. Qed.
Lemma text_bits_text p : text_bits (bits_text p) = (p, "").
Proof. rewrite <- (append_nil (bits_text p)). now apply text_bits_app. Qed.

Definition enc {A} `{countable.Countable A} (a : A) : string := bits_text (countable.encode a).
Definition dec {A} `{countable.Countable A} (s : string) : option A := countable.decode (fst (text_bits s)).
Lemma dec_enc {A} `{countable.Countable A} (a : A) : dec (enc a) = Some a.
Proof. unfold dec, enc. rewrite text_bits_text. apply countable.decode_encode. Qed.

(** ** JSON *)
Notation tree := (countable.gen_tree string).
Notation node := (@countable.GenNode string).
Notation tip := (@countable.GenLeaf string).
Fixpoint json_tree (j : json) : tree :=
  match j with
  | JNull => node 0 []
  | JBool b => node (if b then 1 else 2) []
  | JNum s => node 3 [tip s]
  | JStr s => tip s
  | JArr l => node 4 (map json_tree l)
  | JObj o => node 5 (map (fun e => node 0 [tip (fst e); json_tree (snd e)]) o)
  end.
Fixpoint tree_json (t : tree) : json :=
  match t with
  | countable.GenLeaf s => JStr s
  | countable.GenNode 1 _ => JBool true
  | countable.GenNode 2 _ => JBool false
  | countable.GenNode 3 (countable.GenLeaf s :: _) => JNum s
  | countable.GenNode 4 l => JArr (map tree_json l)
  | countable.GenNode 5 l =>
      JObj (map (fun t => match t with
                          | countable.GenNode _ (countable.GenLeaf k :: t' :: _) => (k, tree_json t')
                          | _ => ("", JNull)
                          end) l)
  | _ => JNull
  end.
Lemma tree_json_tree j : tree_json (json_tree j) = j.
Proof.
  induction j as [|b|s|s|l IH|o IH] using json_ind'; try reflexivity.
  - destruct b; reflexivity.
  - cbn [json_tree tree_json]. f_equal. induction IH as [|j l Hj _ IHl]; [reflexivity|]. cbn [map]. now rewrite Hj, IHl.
  - cbn [json_tree tree_json]. f_equal. induction IH as [|[k j] l Hj _ IHl]; [reflexivity|]. cbn [map fst snd] in *. now rewrite Hj, IHl.
Qed.

(** ** The data of serde; the floats are the rationals. *)
Definition scalar : Type := ((Z + Z) + (Qc + string))%type.
Notation stree := (countable.gen_tree scalar).
Notation snode := (@countable.GenNode scalar).
Notation stip := (@countable.GenLeaf scalar).
Fixpoint serde_tree (s : serde_value Qc) : stree :=
  match s with
  | SUnit => snode 0 []
  | SBool b => snode (if b then 1 else 2) []
  | SU64 n => stip (inl (inl n))
  | SI64 n => stip (inl (inr n))
  | SF64 q => stip (inr (inl q))
  | SStr s => stip (inr (inr s))
  | SBytes s => snode 3 [stip (inr (inr s))]
  | SSeq l => snode 4 (map serde_tree l)
  | SMap m => snode 5 (map (fun e => snode 0 [serde_tree (fst e); serde_tree (snd e)]) m)
  end.
Fixpoint tree_serde (t : stree) : serde_value Qc :=
  match t with
  | countable.GenLeaf (inl (inl n)) => SU64 n
  | countable.GenLeaf (inl (inr n)) => SI64 n
  | countable.GenLeaf (inr (inl q)) => SF64 q
  | countable.GenLeaf (inr (inr s)) => SStr s
  | countable.GenNode 1 _ => SBool true
  | countable.GenNode 2 _ => SBool false
  | countable.GenNode 3 (countable.GenLeaf (inr (inr s)) :: _) => SBytes s
  | countable.GenNode 4 l => SSeq (map tree_serde l)
  | countable.GenNode 5 l =>
      SMap (map (fun t => match t with
                          | countable.GenNode _ (k :: t' :: _) => (tree_serde k, tree_serde t')
                          | _ => (SUnit, SUnit)
                          end) l)
  | _ => SUnit
  end.
Lemma tree_serde_tree s : tree_serde (serde_tree s) = s.
Proof.
  induction s as [s HL|l IH|l IH] using (@serde_ind' Qc).
  - destruct s as [|b| | | | | | |]; try contradiction; try reflexivity. destruct b; reflexivity.
  - cbn [serde_tree tree_serde]. f_equal. induction IH as [|j l Hj _ IHl]; [reflexivity|]. cbn [map]. now rewrite Hj, IHl.
  - cbn [serde_tree tree_serde]. f_equal. induction IH as [|[k j] l [Hk Hj] _ IHl]; [reflexivity|]. cbn [map fst snd] in *. now rewrite Hk, Hj, IHl.
Qed.

(** ** Quads *)
Definition code : Type := (nat * string * string)%type.
Definition term_code (t : term) : code :=
  match t with
  | TmIri i => (0, i, "")
  | TmBlank b => (1, b, "")
  | TmLit (RdfLiteral v (TypeAny ty)) => (2, v, ty)
  | TmLit (RdfLiteral v (TypeLang tag)) => (3, v, tag)
  end.
Definition code_term (c : code) : term :=
  match c with
  | (0, i, _) => TmIri i
  | (1, b, _) => TmBlank b
  | (2, v, ty) => TmLit (RdfLiteral v (TypeAny ty))
  | (_, v, tag) => TmLit (RdfLiteral v (TypeLang tag))
  end.
Lemma code_term_code t : code_term (term_code t) = t.
Proof. destruct t as [i|b|[v [ty|tag]]]; reflexivity. Qed.
Definition quad_code (q : quad term) : code * code * code * option code :=
  (term_code (q_s q), term_code (q_p q), term_code (q_o q), option_map term_code (q_g q)).
Definition code_quad (c : code * code * code * option code) : quad term :=
  let '(s, p, o, g) := c in Quad (code_term s) (code_term p) (code_term o) (option_map code_term g).
Lemma code_quad_code q : code_quad (quad_code q) = q.
Proof. destruct q as [s p o [g|]]; unfold quad_code, code_quad; cbn [q_s q_p q_o q_g option_map]; now rewrite !code_term_code. Qed.

(** One quad per line. *)
Fixpoint lines_parse (fuel : nat) (s : string) : option (list (quad term)) :=
  match fuel with
  | 0 => None
  | S fuel =>
      match s with
      | EmptyString => Some []
      | s =>
          let (p, r) := text_bits s in
          match r with
          | String " " (String "." (String "010" r)) =>
              match countable.decode p, lines_parse fuel r with
              | Some c, Some qs => Some (code_quad c :: qs)
              | _, _ => None
              end
          | _ => None
          end
      end
  end.

Global Instance codec : Formats Qc := {|
  json_parse s := option_map tree_json (dec s);
  json_print pretty j := enc (json_tree j) ++ (if pretty then String "010" "" else "");
  cbor_parse s := option_map tree_serde (dec s);
  cbor_print s := enc (serde_tree s);
  cbor_value_print c := match cbor_read (fun q => q) c with Ok s => enc (serde_tree s) | _ => "" end;
  nquads_parse s := lines_parse (S (String.length s)) s;
  quad_print q := enc (quad_code q)
|}.

Lemma dec_enc_app {A} `{countable.Countable A} (a : A) r : match r with String "0" _ | String "1" _ => False | _ => True end ->
  dec (enc a ++ r) = Some a.
Proof. intro N. unfold dec, enc. rewrite text_bits_app by exact N. apply countable.decode_encode. Qed.

Lemma length_app (s t : string) : String.length (s ++ t) = String.length s + String.length t.
Proof. induction s as [|c s IH]; [reflexivity|]. change (S (String.length (s ++ t)) = S (String.length s + String.length t)). now rewrite IH. Qed.

Lemma lines_back qs : forall fuel, String.length (rdf_write qs) < fuel -> lines_parse fuel (rdf_write qs) = Some qs.
Proof.
  induction qs as [|q qs IH]; intros fuel L; (destruct fuel as [|fuel]; [exfalso; exact (Nat.nlt_0_r _ L)|]); [reflexivity|].
  cbn [rdf_write] in *. change (quad_print q) with (bits_text (countable.encode (quad_code q))) in *. rewrite !length_app in L.
  assert (T := text_bits_app (countable.encode (quad_code q)) (" ." ++ String "010" (rdf_write qs)) I).
  remember (bits_text (countable.encode (quad_code q)) ++ " ." ++ String "010" (rdf_write qs)) as s eqn:E.
  destruct s as [|c s].
  - exfalso. destruct (bits_text (countable.encode (quad_code q))); discriminate E.
  - cbn [lines_parse]. rewrite T.
    change (" ." ++ String "010" (rdf_write qs)) with (String " " (String "." (String "010" (rdf_write qs)))). cbn iota beta. rewrite countable.decode_encode. rewrite IH.
    + now rewrite code_quad_code.
    + change (String.length " .") with 2 in L. change (String.length (String "010" (rdf_write qs))) with (S (String.length (rdf_write qs))) in L. lia.
Qed.

Lemma codec_laws : format_laws (fun q : Qc => q).
Proof.
  split.
  - intros pretty j _. unfold json_parse, json_print, codec. rewrite dec_enc_app by (destruct pretty; exact I).
    cbn [option_map]. now rewrite tree_json_tree.
  - intros s _ _. unfold cbor_parse, cbor_print, codec. rewrite dec_enc. cbn [option_map]. now rewrite tree_serde_tree.
  - intro qs. apply lines_back. apply Nat.lt_succ_diag_r.
Qed.
