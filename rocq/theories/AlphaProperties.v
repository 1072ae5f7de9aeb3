(** * C108: names of variables and spellings of IRIs play no role *)

From Coq Require Import String Ascii List Bool Arith NArith ZArith Lia.
Import ListNotations.
From Verif Require Import Base BaseProofs PatternModel ValueModel LayoutModel LayoutSpec MatchingSpec HydrateModel TermModel DehydrateModel
  AbsModel AbsSpec AbsProofs AbsProperties AbsMeaning AbsAcceptSpec AbsAccept AlphaSpec AlphaProofs.
Open Scope list_scope.
Open Scope nat_scope.

Section Documents.
Context {IS : IriSyntax} {AE : AbsExternal} {St R : Type} {CR : Cmp R} {CL : CmpLaws R} (ctx : context St R).

(** C108.  Two documents that only differ by the names of their variables and the spelling of their IRIs (prefixes, bases) compile in
    the same way: same reference, same definitions, same resources created; or the same error up to the texts it contains. *)
Theorem C108_same l l' s o s1 o' s1' : same_layout no_env no_env l l' ->
  build_with_context ctx l s = (o, s1) -> build_with_context ctx l' s = (o', s1') -> same_outcome o o' /\ s1' = s1.
Proof.
  intros H E E'. destruct (document_alike ctx l l' H s) as [A B]. rewrite E, E' in *. cbn [fst snd] in *. split; [|now symmetry].
  destruct o, o'; cbn in *; try contradiction; congruence || exact B.
Qed.

Theorem C108_compiles l l' s r s1 : same_layout no_env no_env l l' ->
  build_with_context ctx l s = (Ok r, s1) -> build_with_context ctx l' s = (Ok r, s1).
Proof.
  intros H E. destruct (build_with_context ctx l' s) as [o' s1'] eqn:E'. destruct (C108_same _ _ _ _ _ _ _ H E E') as [A ->].
  destruct o'; cbn in A; try discriminate; congruence.
Qed.
End Documents.

(** ** Renaming *)
Section Renaming.
Context {IS : IriSyntax} {AE : AbsExternal} (f : string -> string) (INJ : forall x y, f x = f y -> x = y)
  (FV : f "value"%string = "value"%string) (FS : f "self"%string = "self"%string).

Lemma rename_name ns x : same_name ns (map f ns) x (f x).
Proof.
  intros k. unfold innermost. rewrite nth_error_map. split; intros [H N].
  - split; [now rewrite H|]. intros y L E. rewrite nth_error_map in E. destruct (nth_error ns y) as [z|] eqn:Y; [|discriminate].
    injection E as E. apply INJ in E as ->. now apply (N y L).
  - destruct (nth_error ns k) as [z|]; [|discriminate]. cbn in H. injection H as H. apply INJ in H as ->. split; [reflexivity|].
    intros y L E. apply (N y L). now rewrite nth_error_map, E.
Qed.

Definition env_eq (e e' : ienv) : Prop := e_base e = e_base e' /\ forall n, e_prefix e n = e_prefix e' n.

Lemma denotes_eq e e' i j : env_eq e e' -> iri_denotes e i j -> iri_denotes e' i j.
Proof. intros [B P]. unfold iri_denotes. rewrite <- B. intros [(t & u & A & H)|H]; [left; exists t, u; now rewrite <- P|now right]. Qed.
Lemma env_sym e e' : env_eq e e' -> env_eq e' e.
Proof. intros [B P]. split; [now symmetry|]. intros n. symmetry. apply P. Qed.
Lemma eq_iri e e' i : env_eq e e' -> same_iri e e' i i.
Proof. intros E j. split; apply denotes_eq; auto using env_sym. Qed.

Lemma denotes_unique e i j j' : iri_denotes e i j -> iri_denotes e i j' -> j = j'.
Proof.
  intros [(t & u & A & H)|(N & b & E & ->)] [(t' & u' & A' & H')|(N' & b' & E' & ->)].
  - destruct (C54_unique _ _ _ _ _ A A') as [<- <-]. destruct (e_prefix e t) as [p|]; [|congruence]. destruct H as [-> _], H' as [-> _]. reflexivity.
  - now apply N' in A.
  - now apply N in A'.
  - congruence.
Qed.

Lemma opens_eq env env' h e e' : env_eq env env' -> opens env h e -> opens env' (rename_header f h) e' -> env_eq e e'.
Proof.
  intros E [[P B] _] [[P' B'] _]. cbn [rename_header ah_base] in B'. split.
  - destruct (ah_base h) as [b|]; [|rewrite B, B'; apply E]. destruct B as (b1 & D1 & ->), B' as (b2 & D2 & ->).
    apply (denotes_eq _ _ _ _ E) in D1. f_equal. eapply denotes_unique; eauto.
  - intros n. destruct (P n) as [P1 P2], (P' n) as [P1' P2']. cbn [rename_header ah_prefixes] in P2'.
    destruct (last_declared (ah_prefixes h) n) as [N|(before & p & after & X & N)].
    + rewrite (P2 N), (P2' N). apply E.
    + destruct (P1 p) as (p1 & D1 & ->); [now exists before, after|]. destruct (P1' p) as (p2 & D2 & ->); [now exists before, after|].
      apply (denotes_eq _ _ _ _ E) in D1. f_equal. eapply denotes_unique; eauto.
Qed.
Lemma opens_rename env env' h e : env_eq env env' -> opens env h e -> opens env' (rename_header f h) e.
Proof.
  intros E [[P B] O]. split; [split|].
  - intros n. destruct (P n) as [P1 P2]. split.
    + intros p D. destruct (P1 p D) as (p' & D' & X). exists p'. split; [now apply (denotes_eq env)|exact X].
    + intros N. rewrite (P2 N). apply E.
  - cbn [rename_header ah_base]. destruct (ah_base h) as [b|]; [|rewrite B; apply E]. destruct B as (b' & D & X). exists b'. split; [now apply (denotes_eq env)|exact X].
  - intros n p I. destruct (O n p I) as [j D]. exists j. now apply (denotes_eq env).
Qed.
Lemma opens_back env env' h e : env_eq env env' -> opens env' (rename_header f h) e -> opens env h e.
Proof.
  intros E [[P B] O]. split; [split|].
  - intros n. destruct (P n) as [P1 P2]. split.
    + intros p D. destruct (P1 p D) as (p' & D' & X). exists p'. split; [now apply (denotes_eq env'); [apply env_sym|]|exact X].
    + intros N. rewrite (P2 N). symmetry. apply E.
  - cbn [rename_header ah_base] in B. destruct (ah_base h) as [b|]; [|rewrite B; symmetry; apply E]. destruct B as (b' & D & X). exists b'.
    split; [now apply (denotes_eq env'); [apply env_sym|]|exact X].
  - intros n p I. destruct (O n p I) as [j D]. exists j. now apply (denotes_eq env'); [apply env_sym|].
Qed.

Lemma Forall2_map_r {A B} (Q : A -> B -> Prop) (g : A -> B) l : (forall a, In a l -> Q a (g a)) -> Forall2 Q l (map g l).
Proof. induction l as [|a l IH]; intros H; constructor; [apply H; now left|apply IH; intros b I; apply H; now right]. Qed.
Lemma all2_map_r {A B} (Q : A -> B -> Prop) (g : A -> B) l : (forall a, In a l -> Q a (g a)) -> all2 Q l (map g l).
Proof. intros H. now apply all2_Forall2, Forall2_map_r. Qed.
Lemma option_map_r {A B} (Q : A -> B -> Prop) (g : A -> B) o : (forall a, Q a (g a)) -> same_option Q o (option_map g o).
Proof. intros H. destruct o; [apply H|exact Logic.I]. Qed.

Lemma rename_pattern_same e e' ns p : env_eq e e' -> same_pattern e e' ns (map f ns) p (rename_pattern f p).
Proof.
  intros E. destruct p as [x|i|v [i|t]]; cbn [rename_pattern same_pattern]; [apply rename_name|now apply eq_iri| |]; split; auto. now apply eq_iri.
Qed.
Lemma rename_dataset_same e e' ns ds : env_eq e e' -> Forall2 (same_quad e e' ns (map f ns)) ds (map (rename_quad f) ds).
Proof.
  intros E. apply Forall2_map_r. intros q _. repeat split; try now apply rename_pattern_same.
  cbn [rename_quad q_g]. apply option_map_r. intros p. now apply rename_pattern_same.
Qed.

Lemma rename_header_same env env' h (Q : ienv -> ienv -> Prop) : env_eq env env' -> (forall e e', env_eq e e' -> Q e e') -> same_header env env' h (rename_header f h) Q.
Proof.
  intros E H. split; [|split; [|split; [|split]]].
  - cbn [rename_header ah_id]. destruct (ah_id h); [now apply eq_iri|exact Logic.I].
  - cbn [rename_header ah_input]. now rewrite map_length.
  - cbn [rename_header ah_intro]. now rewrite map_length.
  - split; intros [e O]; exists e; [now apply (opens_rename env)|now apply (opens_back env env')].
  - intros e e' O O'. pose proof (opens_eq _ _ _ _ _ E O O') as E1. split; [|split; [|now apply H]].
    + replace (header_names (rename_header f h)) with (map f (header_names h)); [now apply rename_dataset_same|].
      unfold header_names. apply map_app.
    + cbn [rename_header ah_extra]. rewrite <- (map_id (ah_extra h)) at 2. apply Forall2_map_r. intros [i r] _. split; [now apply eq_iri|].
      cbn [snd]. destruct r; try reflexivity. split; [reflexivity|now apply eq_iri].
Qed.

Section Nested.
Context (rec : ienv -> ienv -> alayout -> alayout -> Prop) (e e' : ienv) (E : env_eq e e').
Definition nested_same (l : alayout) : Prop := rec e e' l (rename f l).

Lemma rename_ref_same r : (forall l, nested_ref r l -> nested_same l) -> same_ref (rec e e') e e' r (rename_ref (rename f) r).
Proof. intros N. destruct r as [i|l]; [now apply eq_iri|now apply N]. Qed.
Lemma rename_format_same ns d x : f d = d -> (forall l, nested_format x l -> nested_same l) ->
  same_format (rec e e') e e' ns (map f ns) d x (rename_format f (rename f) x).
Proof.
  intros FD N. destruct x as [r inp g|r]; cbn [rename_format same_format].
  - split; [now apply rename_ref_same|]. split; [apply Forall2_map_r; intros p _; now apply rename_pattern_same|].
    apply option_map_r. intros o. apply option_map_r. intros p. now apply rename_pattern_same.
  - split; [now apply rename_ref_same|]. rewrite <- FD at 2. apply rename_name.
Qed.
Lemma rename_item_same ns i : (forall l, nested_format (ai_value i) l -> nested_same l) ->
  same_item (rec e e') e e' ns (map f ns) i (rename_item f (rename f) i).
Proof.
  destruct i as [intro v ds p]. intros N. unfold same_item. cbn [rename_item ai_intro ai_value ai_dataset ai_property]. rewrite <- map_app.
  split; [now rewrite map_length|]. split; [now apply rename_dataset_same|]. split; [apply option_map_r; intros q; now apply rename_pattern_same|].
  now apply rename_format_same.
Qed.
End Nested.

Lemma rename_same l : forall e e', env_eq e e' -> same_layout e e' l (rename f l).
Proof.
  assert (forall h, header_names (rename_header f h) = map f (header_names h)) as HN by (intros h; unfold header_names; symmetry; apply map_app).
  induction l as [l IH] using layout_ind. intros e e' E. rewrite same_layout_eq.
  destruct l as [h c|k h r|h fs|h vs|h n p q|h it|h its|b|h|h]; cbn [rename same_body].
  - split; [reflexivity|]. apply rename_header_same; auto.
  - apply rename_header_same; [exact E|]. intros e1 e1' E1. rewrite HN. split.
    + destruct k as [[d|]|d|d|pat [d|]|pat]; cbn [same_kind same_option]; try match goal with |- _ /\ _ => split end; first [reflexivity|exact Logic.I|now apply eq_iri].
    + apply option_map_r. intros p. now apply rename_pattern_same.
  - apply rename_header_same; [exact E|]. intros e1 e1' E1. rewrite HN. apply all2_map_r. intros [k [it req]] I. split; [reflexivity|split; [reflexivity|]].
    cbn [snd af_item]. apply rename_item_same; [exact E1|]. intros l NF. apply IH; [|exact E1]. now apply (N_field h fs k (AField it req)).
  - apply rename_header_same; [exact E|]. intros e1 e1' E1. rewrite HN. apply all2_map_r. intros [n [intro v ds]] I. unfold same_variant.
    cbn [fst snd av_intro av_value av_dataset]. rewrite <- map_app.
    split; [reflexivity|]. split; [now rewrite map_length|]. split; [now apply rename_dataset_same|].
    apply rename_format_same; [exact E1|exact FS|]. intros l NF. apply IH; [|exact E1]. now apply (N_variant h vs n (AVariant intro v ds)).
  - apply rename_header_same; [exact E|]. intros e1 e1' E1. rewrite HN. split; [|split; now apply rename_pattern_same].
    destruct n as [hd rs intro v ds|r]; cbn [rename_node same_node].
    + change ([f hd; f rs] ++ map f intro) with (map f ([hd; rs] ++ intro)). rewrite <- map_app.
      split; [now rewrite map_length|]. split; [apply option_map_r; intros d; now apply rename_dataset_same|].
      apply rename_format_same; [exact E1|exact FV|]. intros l NF. apply IH; [|exact E1]. now apply N_node.
    + apply rename_ref_same; [exact E1|]. intros l NF. apply IH; [|exact E1]. now apply N_node_layout.
  - apply rename_header_same; [exact E|]. intros e1 e1' E1. rewrite HN. apply rename_item_same; [exact E1|].
    intros l NF. apply IH; [|exact E1]. now apply N_item.
  - apply rename_header_same; [exact E|]. intros e1 e1' E1. rewrite HN. apply all2_map_r. intros it I. apply rename_item_same; [exact E1|].
    intros l NF. apply IH; [|exact E1]. now apply (N_tuple h its it).
  - reflexivity.
  - cbn [rename_header ah_id]. destruct (ah_id h); [now apply eq_iri|exact Logic.I].
  - cbn [rename_header ah_id]. destruct (ah_id h); [now apply eq_iri|exact Logic.I].
Qed.

(** C108.  Renaming all the variables of a document (but the names "value" and "self", which have a default role) changes nothing. *)
Theorem C108_renamed {St R} {CR : Cmp R} {CL : CmpLaws R} (ctx : context St R) l s o s1 o' s1' :
  build_with_context ctx l s = (o, s1) -> build_with_context ctx (rename f l) s = (o', s1') -> same_outcome o o' /\ s1' = s1.
Proof. apply C108_same, rename_same. split; reflexivity. Qed.
End Renaming.
