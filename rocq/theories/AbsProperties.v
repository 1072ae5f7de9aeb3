(** * Properties of the compilation of layouts: scoping, IRIs, redefinitions (C52-C55) *)

From Coq Require Import String Ascii List Bool Arith NArith Lia.
Import ListNotations.
From Verif Require Import Base BaseProofs PatternModel ValueModel LayoutModel LayoutSpec
  MatchingSpec HydrateModel TermModel DehydrateModel AbsModel AbsSpec AbsProofs.
Open Scope list_scope.
Open Scope nat_scope.

Section Properties.
Context {IS : IriSyntax} {AE : AbsExternal}.

(** ** C52: scoping *)

(** The scope of a document has no variable; a header declares its inputs, then its intros, after
    the visible ones; an item declares its intros after these; nested layouts see no variable. *)
Theorem C52_scopes :
  sees scope_default [] /\
  (forall sc ns h sc', sees sc ns -> with_header h sc = Ok sc' -> sees sc' (ns ++ ah_input h ++ ah_intro h)) /\
  (forall sc ns intro, sees sc ns -> sees (with_intro intro sc) (ns ++ intro)) /\
  (forall sc, sees (without_variables sc) []).
Proof.
  split; [apply sees_default|]. split; [|split; [intros; now apply sees_intro|apply sees_without]].
  intros sc ns h sc' S H. now apply (sees_header h sc).
Qed.

(** A name denotes its innermost declaration, and is rejected when there is none. *)
Theorem C52_variable sc ns name : sees sc ns ->
  (forall x, scope_variable sc name = Ok x <-> innermost ns name x) /\
  (scope_variable sc name = Err (UndeclaredVariable name) <-> ~ In name ns) /\
  (In name ns -> exists x, scope_variable sc name = Ok x).
Proof.
  intros S. split; [apply S|]. split.
  - split.
    + intros H. now apply (sees_not_In sc ns) in H.
    + intros N. destruct (scope_variable_inv sc name) as [[x H]|H]; [|assumption].
      apply (sees_In _ _ _ _ S) in H as [H _]. easy.
  - intros I. apply In_innermost in I as [x Hx]. exists x. now apply S.
Qed.

Section Documents.
Context {St R : Type} {CR : Cmp R} (ctx : context St R).

Lemma build_layout_eq l sc : build_layout ctx l sc = layout_body ctx (build_layout ctx) l sc.
Proof. now destruct l. Qed.

Lemma nested_inside l l' l'' : inside l l' -> nested l' l'' -> inside l l''.
Proof.
  induction 1 as [l|l l1 l2 N I IH]; intros K.
  - apply (inside_nested l l'' l''); [assumption|constructor].
  - now apply (inside_nested l l1 l''); [|apply IH].
Qed.

(** The logic above for a whole document. *)
Lemma document_triple l0 :
  triple
    (fun b b' => forall r p, In (r, p) b' -> In (r, p) b \/ (literal_inputs l0 -> scoped_pre p))
    (fun e => forall name, e = UndeclaredVariable name -> exists l', inside l0 l' /\ uses_undeclared l' name)
    (exists l', inside l0 l' /\ unimplemented l')
    (build_with_context ctx l0)
    (fun _ => forall l', inside l0 l' -> (forall name, ~ uses_undeclared l' name) /\ ~ unimplemented l').
Proof.
  match goal with |- triple ?t ?e ?p _ _ => set (T := t); set (E := e); set (P := p) end.
  assert (K : forall l, inside l0 l -> forall sc, sees sc [] ->
    triple T E P (build_layout ctx l sc)
      (fun _ => forall l', inside l l' -> (forall name, ~ uses_undeclared l' name) /\ ~ unimplemented l')).
  { intros l. induction l as [l IH] using layout_ind. intros I sc S. rewrite build_layout_eq.
    eapply t_weaken.
    - apply (t_layout ctx T E P) with
        (Qn := fun l => forall l', inside l l' -> (forall name, ~ uses_undeclared l' name) /\ ~ unimplemented l').
      + intros b r p H. now left.
      + intros a b c AB BC r p H. apply BC in H as [H|H]; [now apply AB in H|now right].
      + intros e H name ->. now destruct (H name).
      + exact S.
      + intros l' N sc' S'. apply IH; [assumption|now apply (nested_inside l0 l)|assumption].
      + intros name U name' [= <-]. now exists l.
      + intros U. now exists l.
      + intros id pre b H r p HI. apply bt_insert_In in HI as [->|HI]; [right|now left].
        intros LI. apply H. now apply LI in I.
    - intros r (U & M & N) l' J. inversion J as [|? l1 ? N1 J1]; subst; [now split|]. now apply (N l1). }
  apply K; [constructor|apply sees_default].
Qed.

(** An undeclared name anywhere in a document makes the compilation fail, and the error
    [UndeclaredVariable] is only returned for such names. *)
Theorem C52_undeclared_rejected l l' name s r s' :
  inside l l' -> uses_undeclared l' name -> build_with_context ctx l s <> (Ok r, s').
Proof.
  intros I U H. destruct (document_triple l s) as [_ K]. rewrite H in K. cbn in K.
  apply K in I as [I _]. now apply I in U.
Qed.

Theorem C52_undeclared_reported l name s s' :
  build_with_context ctx l s = (Err (UndeclaredVariable name), s') ->
  exists l', inside l l' /\ uses_undeclared l' name.
Proof.
  intros H. destruct (document_triple l s) as [_ K]. rewrite H in K. cbn in K. now apply K.
Qed.

(** ** C53: compiled layouts are well scoped *)

(** Every variable of a layout defined by the compilation is declared where it is used, also
    when the compilation fails after this definition.  [literal_inputs]: literal and unit layouts
    are compiled with one input, whatever the number of their inputs. *)
Theorem C53_scoped_partial l s o s' ref p lay x :
  literal_inputs l -> build_with_context ctx l s = (o, s') ->
  In (ref, p) (snd s') -> ~ In (ref, p) (snd s) -> prelayout_of p lay -> ~ undeclared_in lay x.
Proof.
  intros LI H I N PL. destruct (document_triple l s) as [K _]. rewrite H in K. cbn in K.
  apply K in I as [I|I]; [easy|]. now apply I.
Qed.

(** ** C71: the compilation panics on unions and intersections only *)
Theorem C71_panics l s w s' :
  build_with_context ctx l s = (Panic w, s') ->
  exists l' h, inside l l' /\ (l' = AUnion h \/ l' = AIntersection h).
Proof.
  intros H. destruct (document_triple l s) as [_ K]. rewrite H in K. cbn in K.
  destruct K as (l' & I & U). destruct l' as [| | | | | | | |h|h]; try easy.
  - exists (AUnion h), h. auto.
  - exists (AIntersection h), h. auto.
Qed.

(** A document with a union or an intersection never compiles, and the compilation always ends. *)
Theorem C71_unions l l' h s r s' :
  inside l l' -> l' = AUnion h \/ l' = AIntersection h -> build_with_context ctx l s <> (Ok r, s').
Proof.
  intros I U H. destruct (document_triple l s) as [_ K]. rewrite H in K. cbn in K.
  apply K in I as [_ I]. apply I. now destruct U as [->| ->].
Qed.

Theorem C71_terminates l s s' : build_with_context ctx l s <> (OutOfFuel, s').
Proof. intros H. destruct (document_triple l s) as [_ K]. now rewrite H in K. Qed.
End Documents.

(** ** C54: compact IRIs *)

Lemma get_cons c s n : String.get n (String c s) = match n with 0 => Some c | S n => String.get n s end.
Proof. now destruct n. Qed.

Lemma no_delimiter_cons c s : no_delimiter (String c s) <->
  (c <> ":" /\ c <> "/" /\ c <> "?" /\ c <> "#")%char /\ no_delimiter s.
Proof.
  split.
  - intros H. split; [exact (H 0 c eq_refl)|]. intros n. exact (H (S n)).
  - intros [H K] [|n] c'; rewrite get_cons; [intros [= <-]; exact H|apply K].
Qed.

Lemma absolute_scheme s scheme suffix : absolute s scheme suffix ->
  iri_scheme s = Some scheme /\ after_colon s = Some suffix.
Proof.
  intros [-> D]. induction scheme as [|c scheme IH]; [now split|].
  apply no_delimiter_cons in D as [(A & B & C & F) D]. cbn [append iri_scheme after_colon].
  apply Ascii.eqb_neq in A, B, C, F. rewrite A, B, C, F. cbn [orb]. destruct (IH D) as [H K]. now rewrite H, K.
Qed.

Lemma scheme_absolute s scheme : iri_scheme s = Some scheme -> exists suffix, absolute s scheme suffix.
Proof.
  revert scheme. induction s as [|c s IH]; intros scheme; cbn [iri_scheme]; [discriminate|].
  destruct (Ascii.eqb_spec c ":") as [->|A].
  - intros [= <-]. exists s. split; [reflexivity|]. now intros [|n] c.
  - destruct (Ascii.eqb_spec c "/") as [|B]; [discriminate|].
    destruct (Ascii.eqb_spec c "?") as [|C]; [discriminate|].
    destruct (Ascii.eqb_spec c "#") as [|D]; [discriminate|]. cbn [orb].
    destruct (iri_scheme s) as [t|]; [|discriminate]. intros [= <-].
    destruct (IH t eq_refl) as (suffix & -> & N). exists suffix. split; [reflexivity|].
    apply no_delimiter_cons. tauto.
Qed.

(** The scheme of a reference and its suffix are unique. *)
Theorem C54_unique s a b a' b' : absolute s a b -> absolute s a' b' -> a = a' /\ b = b'.
Proof.
  intros H K. apply absolute_scheme in H as [H1 H2], K as [K1 K2]. split; congruence.
Qed.

(** A compact IRI whose scheme is a declared prefix expands to the prefix followed by the suffix,
    and is rejected if this is not an IRI. *)
Theorem C54_prefixed s scheme suffix prefix sc :
  absolute s scheme suffix -> hm_get scheme (sc_prefixes sc) = Some prefix ->
  resolve s sc = (if is_iri (prefix ++ suffix) then Ok (prefix ++ suffix)%string
                  else Err (InvalidIri (prefix ++ suffix))).
Proof.
  intros A P. apply absolute_scheme in A as [H K]. unfold resolve. now rewrite H, P, K.
Qed.

(** Other absolute IRIs are unchanged. *)
Theorem C54_absolute s scheme suffix sc :
  absolute s scheme suffix -> hm_get scheme (sc_prefixes sc) = None -> resolve s sc = Ok s.
Proof. intros A P. apply absolute_scheme in A as [H K]. unfold resolve. now rewrite H, P. Qed.

(** Relative references are resolved with the base, and fail without base. *)
Theorem C54_relative s sc :
  (forall scheme suffix, ~ absolute s scheme suffix) ->
  resolve s sc = match sc_base sc with Some base => Ok (iri_resolved base s) | None => Err (NoBaseIri s) end.
Proof.
  intros N. unfold resolve. destruct (iri_scheme s) as [t|] eqn:H; [|reflexivity].
  apply scheme_absolute in H as [u H]. now apply N in H.
Qed.

(** Every reference is in one of these cases. *)
Theorem C54_cases s : (exists scheme suffix, absolute s scheme suffix) \/
                      (forall scheme suffix, ~ absolute s scheme suffix).
Proof.
  destruct (iri_scheme s) as [t|] eqn:H; [left; exists t; now apply scheme_absolute|right].
  intros t u A. apply absolute_scheme in A as [A _]. congruence.
Qed.

Lemma with_prefixes_get old ps : forall m m', with_prefixes old ps m = Ok m' -> forall name,
  (forall before p after, ps = before ++ (name, p) :: after -> (forall q, ~ In (name, q) after) ->
     exists p', resolve p old = Ok p' /\ hm_get name m' = Some p') /\
  ((forall q, ~ In (name, q) ps) -> hm_get name m' = hm_get name m).
Proof.
  induction ps as [|[n p] ps IH]; intros m m' H name; cbn [with_prefixes] in H.
  - injection H as <-. split; [|reflexivity]. now intros [|].
  - apply bind_Ok in H as (p' & Hp & H). destruct (IH _ _ H name) as [A B]. split.
    + intros [|x before] q after E N.
      * injection E as -> -> ->. exists p'. split; [assumption|]. rewrite B by assumption.
        cbn [hm_insert hm_get]. now rewrite String.eqb_refl.
      * injection E as _ ->. now apply (A before q after).
    + intros N. rewrite B by (intros q I; apply (N q); now right). cbn [hm_insert hm_get].
      destruct (String.eqb_spec name n) as [->|]; [|reflexivity]. exfalso. apply (N p). now left.
Qed.

Lemma with_intro_env intro : forall sc, sc_base (with_intro intro sc) = sc_base sc /\
  sc_prefixes (with_intro intro sc) = sc_prefixes sc.
Proof.
  induction intro as [|n intro IH]; intros sc; [now split|]. destruct (IH (scope_bind n sc)) as [A B]. now split.
Qed.

(** The prefixes declared by a header hide those of the outer scope, the last one being used, and
    are themselves resolved in the outer scope. *)
Theorem C54_header h sc sc' name : with_header h sc = Ok sc' ->
  (forall p, declared_prefix h name p ->
     exists p', resolve p sc = Ok p' /\ hm_get name (sc_prefixes sc') = Some p') /\
  ((forall p, ~ In (name, p) (ah_prefixes h)) -> hm_get name (sc_prefixes sc') = hm_get name (sc_prefixes sc)) /\
  (forall b, ah_base h = Some b -> exists b', resolve b sc = Ok b' /\ sc_base sc' = Some b') /\
  (ah_base h = None -> sc_base sc' = sc_base sc).
Proof.
  intros H. unfold with_header in H. apply bind_Ok in H as (base & Hb & H).
  apply bind_Ok in H as (ps & Hp & H). injection H as <-.
  destruct (with_intro_env (ah_input h ++ ah_intro h) (Scope base ps (sc_variables sc) (sc_count sc))) as [-> ->].
  cbn [sc_base sc_prefixes]. destruct (with_prefixes_get _ _ _ _ Hp name) as [A B].
  split; [|split; [exact B|]].
  - intros p (before & after & E & N). now apply (A before p after).
  - split; intros.
    + rewrite H in Hb. apply bind_Ok in Hb as (b' & R & E). injection E as <-. now exists b'.
    + rewrite H in Hb. now injection Hb as <-.
Qed.
End Properties.
