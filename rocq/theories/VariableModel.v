(** * Names of variables (layouts/src/abs/syntax/pattern/variable.rs)

    The characters are numbers (code points).  [VariableName] and [VariableNameBuf] are the string they hold; their
    conversions ([as_str], [to_owned], [deref], [borrow], [as_ref], [into_string], [fmt]: 38-75, 121-172) are the
    identity. *)

From Coq Require Import String List Bool NArith.
Import ListNotations.
From Verif Require Import Base Orders PatternModel ValueModel LayoutModel HydrateModel TermModel DehydrateModel AbsModel AbsJsonModel.
Open Scope list_scope.
Open Scope N_scope.

(** [c.is_ascii_digit()] (external). *)
Definition is_ascii_digit (c : N) : bool := (48 <=? c) && (c <=? 57).

(** ['a'..='b'] in a pattern. *)
Definition between (a b c : N) : bool := (a <=? c) && (c <=? b).

(** [is_pn_char_base] — layouts/src/abs/syntax/pattern/variable.rs 92-94. *)
Definition is_pn_char_base (c : N) : bool :=
  between 65 90 c || between 97 122 c || between 0xc0 0xd6 c || between 0xd8 0xf6 c || between 0xf8 0x2ff c ||
  between 0x370 0x37d c || between 0x37f 0x1fff c || between 0x200c 0x200d c || between 0x2070 0x218f c ||
  between 0x2c00 0x2fef c || between 0x3001 0xd7ff c || between 0xf900 0xfdcf c || between 0xfdf0 0xfffd c ||
  between 0x10000 0xeffff c.

(** [is_pn_char_u] — layouts/src/abs/syntax/pattern/variable.rs 96-98. *)
Definition is_pn_char_u (c : N) : bool := is_pn_char_base c || (c =? 95) || (c =? 58).

(** [is_pn_char] — layouts/src/abs/syntax/pattern/variable.rs 100-103. *)
Definition is_pn_char (c : N) : bool :=
  is_pn_char_u c || (c =? 45) || between 48 57 c || (c =? 0xb7) || between 0x300 0x36f c || between 0x203f 0x2040 c.

(** [check_variable_name] — layouts/src/abs/syntax/pattern/variable.rs 77-90. *)
Definition check_variable_name (w : list N) : bool :=
  match w with
  | c :: w' => if is_ascii_digit c || is_pn_char_u c then forallb is_pn_char w' else false
  | [] => false
  end.

(** [VariableName::new] and [VariableNameBuf::new] — layouts/src/abs/syntax/pattern/variable.rs 20-27, 112-119. *)
Definition variable_name_new {TS : TextSyntax} (s : string) : option string :=
  if check_variable_name (chars s) then Some s else None.

(** ** Patterns as terms — layouts/src/abs/syntax/pattern/mod.rs *)

(** [BlankIdBuf::from_suffix] (external): the suffixes that [BlankId::new] accepts after [_:]. *)
Definition blank_from_suffix {TS : TextSyntax} (name : string) : option string :=
  blank_suffix ("_:" ++ name)%string.

(** [From<rdf_types::LiteralType> for LiteralType] — layouts/src/abs/syntax/pattern/literal.rs 80-89. *)
Definition type_from_term (ty : lit_type) : alit_type :=
  match ty with TypeAny i => ATypeIri i | TypeLang tag => ATypeLang tag end.

(** [Pattern::from_term] — layouts/src/abs/syntax/pattern/mod.rs 54-60, with [From<rdf_types::Literal> for LiteralValue]
    (pattern/literal.rs 47-54). *)
Definition pattern_from_term (t : term) : apattern :=
  match t with
  | TmIri i => AIri i
  | TmBlank b => AVar b
  | TmLit l => ALiteral (rl_value l) (type_from_term (rl_type l))
  end.

(** [Pattern::to_term] — layouts/src/abs/syntax/pattern/mod.rs 62-71. *)
Definition pattern_to_term {TS : TextSyntax} {IS : IriSyntax} {AE : AbsExternal} (p : apattern) (sc : scope)
  : outcome build_error term :=
  match p with
  | AVar name =>
      let* b := unwrap "pattern/mod.rs 64: BlankIdBuf::from_suffix" (blank_from_suffix name) in Ok (TmBlank b)
  | AIri i => let* i := resolve i sc in Ok (TmIri i)
  | ALiteral v ty => let* ty := resolve_type ty sc in Ok (TmLit (RdfLiteral v ty))
  end.
