(** * Lemmas on layouts and serde *)

From Coq Require Import String Ascii List Bool Arith NArith ZArith QArith Qcanon Lia Sorted.
Import ListNotations.
From Verif Require JsonProperties.
From Verif Require Import Base BaseProofs Orders PatternModel ValueModel LayoutModel NumberModel NumberSpec
  HydrateModel JsonModel JsonSpec RegexpModel AbsModel AbsSpec AbsJsonModel AbsJsonSpec
  AbsSerdeModel AbsSerdeSpec.
Open Scope list_scope.
Open Scope nat_scope.

(** ** Structures *)

Section Structures.
Context {F : Type}.
Notation sv := (serde_value F).

(** The values of a key in a map. *)
Definition lookup (m : list (sv * sv)) (key : string) : list sv :=
  flat_map (fun e : sv * sv =>
    match fst e with SStr k => if String.eqb k key then [snd e] else [] | _ => [] end) m.
(** The keys are texts of [names]. *)
Definition Keys (names : list string) (m : list (sv * sv)) : Prop :=
  forall k s, In (k, s) m -> exists n, k = SStr n /\ In n names.

Definition at_most_one (l : list sv) : outcome unit (option sv) :=
  match l with [] => Ok None | [s] => Ok (Some s) | _ => Err tt end.

Lemma lookup_app m m' key : lookup (m ++ m') key = lookup m key ++ lookup m' key.
Proof. apply flat_map_app. Qed.
Lemma lookup_nil key : lookup [] key = [].
Proof. reflexivity. Qed.
Lemma lookup_entry k s key : lookup (entry k s) key = if String.eqb k key then [s] else [].
Proof. unfold lookup, entry. cbn [flat_map fst snd]. apply app_nil_r. Qed.
Lemma lookup_unless b k s key :
  lookup (entry_unless b k s) key = if String.eqb k key then if b then [] else [s] else [].
Proof. unfold entry_unless. destruct b; [destruct (String.eqb k key); reflexivity|apply lookup_entry]. Qed.
Lemma lookup_some {T} k (ser : T -> sv) t key :
  lookup (entry_some k ser t) key =
  if String.eqb k key then match t with Some t => [ser t] | None => [] end else [].
Proof. unfold entry_some. destruct t; [apply lookup_entry|destruct (String.eqb k key); reflexivity]. Qed.

Lemma named_lookup m names : Keys names m -> exists o, named m = Ok o /\ only names o = Ok o /\
  forall key, field_at o key = at_most_one (lookup m key).
Proof.
  assert (A : Keys names m -> exists o, named m = Ok o /\ (forall e, In e o -> In (fst e) names) /\
    forall key, map snd (filter (fun e : string * sv => String.eqb (fst e) key) o) = lookup m key).
  { induction m as [|[k s] m IH]; intros K.
    - exists []. split; [reflexivity|]. split; [intros e []|reflexivity].
    - destruct (K k s (or_introl eq_refl)) as (n & -> & I).
      destruct IH as (o & E & O & L); [intros k' s' I'; exact (K k' s' (or_intror I'))|].
      exists ((n, s) :: o). cbn [named]. rewrite E. split; [reflexivity|].
      split; [intros e [<-|I']; [exact I|exact (O e I')]|].
      intros key. unfold lookup. cbn [flat_map filter fst snd]. destruct (String.eqb n key).
      + cbn [map snd app]. f_equal. apply L.
      + apply L. }
  intros K. destruct (A K) as (o & E & O & L). exists o. split; [exact E|]. split.
  - unfold only. replace (forallb _ o) with true; [reflexivity|]. symmetry. apply forallb_forall.
    intros e I. apply existsb_exists. exists (fst e). split; [exact (O e I)|apply String.eqb_refl].
  - intros key. unfold field_at. rewrite <- L.
    destruct (filter _ o) as [|e [|e' l]]; reflexivity.
Qed.

Lemma struct_lookup m names deny : Keys names m -> exists o, de_struct deny names (SMap m) = Ok o /\
  forall key, field_at o key = at_most_one (lookup m key).
Proof.
  intros K. destruct (named_lookup m names K) as (o & E & O & L). exists o. split; [|exact L].
  cbn [de_struct]. rewrite E. cbn [bind]. destruct deny; [exact O|reflexivity].
Qed.

(** A map with a key that is not known is refused. *)
Lemma struct_unknown (m : list (sv * sv)) names key s : In (SStr key, s) m -> ~ In key names -> de_struct true names (SMap m) = Err tt.
Proof.
  intros I N. cbn [de_struct]. destruct (named m) as [o|[]|p|] eqn:E; cbn [bind].
  - unfold only. replace (forallb _ o) with false; [reflexivity|]. symmetry. apply not_true_is_false. intros H.
    rewrite forallb_forall in H.
    assert (J : In (key, s) o).
    { clear H N. revert o E. induction m as [|[k' s'] m IH]; intros o E; [destruct I|]. cbn [named] in E.
      destruct k' as [| | | | |k'| | |]; try discriminate. apply bind_Ok in E as (o' & E & [= <-]).
      destruct I as [[= <- <-]|I]; [now left|right; exact (IH I o' E)]. }
    apply H in J. apply existsb_exists in J as (x & J & X). cbn [fst] in X. apply String.eqb_eq in X. now subst.
  - reflexivity.
  - exfalso. clear I. revert p E. induction m as [|[k' s'] m IH]; intros p E; [discriminate|]. cbn [named] in E.
    destruct k'; try discriminate. destruct (named m) as [|[]|p'|]; cbn in E; try discriminate. now apply (IH p').
  - exfalso. clear I. induction m as [|[k' s'] m IH]; [discriminate|]. cbn [named] in E.
    destruct k'; try discriminate. destruct (named m) as [|[]|p'|]; cbn in E; try discriminate. now apply IH.
Qed.

Lemma Keys_app names m m' : Keys names m -> Keys names m' -> Keys names (m ++ m').
Proof. intros A B k s I. apply in_app_or in I as [I|I]; [exact (A k s I)|exact (B k s I)]. Qed.
Lemma Keys_nil names : Keys names [].
Proof. intros k s []. Qed.
Lemma Keys_entry names k s : In k names -> Keys names (entry k s).
Proof. intros I k' s' [[= <- <-]|[]]. eauto. Qed.
Lemma Keys_unless names b k s : In k names -> Keys names (entry_unless b k s).
Proof. intros I. unfold entry_unless. destruct b; [apply Keys_nil|now apply Keys_entry]. Qed.
Lemma Keys_some {T} names k (ser : T -> sv) t : In k names -> Keys names (entry_some k ser t).
Proof. intros I. unfold entry_some. destruct t; [now apply Keys_entry|apply Keys_nil]. Qed.
Lemma Keys_incl names names' m : incl names names' -> Keys names m -> Keys names' m.
Proof. intros H K k s I. destruct (K k s I) as (n & -> & J). eauto. Qed.

(** The fields, when the values of their keys are known. *)
Section Fields.
Context (o : @fields F) (m : list (sv * sv)).
Hypothesis L : forall key, field_at o key = at_most_one (lookup m key).

Lemma require_one {T} key (de : sv -> outcome unit T) s : lookup m key = [s] -> f_require o key de = de s.
Proof. intros E. unfold f_require. rewrite L, E. reflexivity. Qed.
Lemma default_one {T} key (de : sv -> outcome unit T) d s : lookup m key = [s] -> f_default o key de d = de s.
Proof. intros E. unfold f_default. rewrite L, E. reflexivity. Qed.
Lemma default_none {T} key (de : sv -> outcome unit T) d : lookup m key = [] -> f_default o key de d = Ok d.
Proof. intros E. unfold f_default. rewrite L, E. reflexivity. Qed.

(** An entry left out for its default value. *)
Lemma default_unless {T} key (de : sv -> outcome unit T) d (b : bool) s x :
  lookup m key = (if b then [] else [s]) -> (b = true -> x = d) -> (b = false -> de s = Ok x) ->
  f_default o key de d = Ok x.
Proof.
  intros E A B. destruct b.
  - rewrite (default_none _ _ _ E). now rewrite A.
  - rewrite (default_one _ _ _ _ E). now apply B.
Qed.
Lemma option_some {T} key (ser : T -> sv) (de : sv -> outcome unit T) (t : option T) :
  lookup m key = match t with Some t => [ser t] | None => [] end ->
  (forall x, t = Some x -> ser x <> SUnit /\ de (ser x) = Ok x) -> f_option o key de = Ok t.
Proof.
  intros E A. unfold f_option. destruct t as [t|].
  - rewrite (default_one _ _ _ _ E). destruct (A t eq_refl) as [N D]. unfold de_option. rewrite D.
    destruct (ser t); try reflexivity. now destruct N.
  - exact (default_none _ _ _ E).
Qed.
End Fields.

(** ** Sizes *)

Lemma size_pos (s : sv) : 1 <= sv_size s.
Proof. destruct s; cbn [sv_size]; lia. Qed.
Lemma seq_size l (s : sv) : In s l -> sv_size s < sv_size (SSeq l).
Proof.
  cbn [sv_size]. induction l as [|s' l IH]; [intros []|]; intros [->|I]; [lia|]. apply IH in I. lia.
Qed.
Lemma map_size m (k s : sv) : In (k, s) m -> sv_size s < sv_size (SMap m).
Proof.
  cbn [sv_size]. induction m as [|[k' s'] m IH]; [intros []|]; intros [[= -> ->]|I]; [lia|]. apply IH in I. lia.
Qed.
End Structures.

(** ** Sequences and maps *)

Lemma traverse_map {E A B C} (f : A -> C) (g : C -> outcome E B) (h : A -> B) l :
  (forall a, In a l -> g (f a) = Ok (h a)) -> traverse g (map f l) = Ok (map h l).
Proof.
  intros H. induction l as [|a l IH]; [reflexivity|]. cbn [map traverse]. rewrite (H a (or_introl eq_refl)). cbn [bind].
  rewrite IH; [reflexivity|]. intros; apply H; now right.
Qed.
Lemma traverse_back {E E' A B} (f : A -> outcome E B) (g : B -> outcome E' A) l l' :
  traverse f l = Ok l' -> (forall a b, In a l -> In b l' -> f a = Ok b -> g b = Ok a) -> traverse g l' = Ok l.
Proof.
  intros H. apply JsonProperties.traverse_Ok in H. intros G. apply JsonProperties.traverse_Ok.
  induction H as [|a b l l' H1 H IH]; constructor.
  - apply G; [now left|now left|assumption].
  - apply IH. intros; apply G; [now right|now right|assumption].
Qed.
Lemma btreemap_back {F K V} `{CmpLaws K} (f : K * V -> outcome Empty_set (serde_value F * serde_value F))
    de_key (de : serde_value F -> outcome unit V) l m :
  traverse f l = Ok m -> bt_wf l ->
  (forall k v k' s, In (k, v) l -> In (k', s) m -> f (k, v) = Ok (k', s) -> de_key k' = Ok k /\ de s = Ok v) ->
  de_btreemap de_key de (SMap m) = Ok l.
Proof.
  intros T W G. unfold de_btreemap.
  rewrite (traverse_back f (fun e => let* k := de_key (fst e) in let* v := de (snd e) in Ok (k, v)) l m T).
  - cbn [bind]. now rewrite JsonProperties.bt_collect_sorted.
  - intros [k v] [k' s] I I' E. destruct (G k v k' s I I' E) as [A B]. cbn [fst snd]. rewrite A. cbn [bind].
    rewrite B. reflexivity.
Qed.
Lemma traverse_pure {E A B} (f : A -> B) l : @traverse E A B (fun a => Ok (f a)) l = Ok (map f l).
Proof. induction l as [|a l IH]; [reflexivity|]. cbn [traverse map]. cbn [bind]. now rewrite IH. Qed.
