(** * Lemmas on the compilation of the abstract syntax *)

From Coq Require Import String Ascii List Bool Arith NArith Lia.
Import ListNotations.
From Verif Require Import Base BaseProofs PatternModel ValueModel LayoutModel LayoutSpec
  MatchingSpec HydrateModel TermModel DehydrateModel AbsModel AbsSpec.
Open Scope list_scope.
Open Scope nat_scope.

(** ** Induction on the abstract syntax *)

Lemma layout_ind (P : alayout -> Prop) :
  (forall l, (forall l', nested l l' -> P l') -> P l) -> forall l, P l.
Proof.
  intros H. fix IH 1. intros l. apply H.
  assert (RF : forall r : alayout_ref alayout,
             match r with RefIri _ => True | RefLayout l' => P l' end ->
             forall l', nested_ref r l' -> P l').
  { intros r Hr l' ->. exact Hr. }
  destruct l as [h c|k h res|h fs|h vs|h n hd tl|h it|h its|b|h|h]; intros l' N;
    try (exfalso; inversion N; fail).
  - assert (A : forall k f, In (k, f) fs -> forall l', nested_format (ai_value (af_item f)) l' -> P l').
    { clear N. induction fs as [|[k [[i v d p] r]] fs IHfs]; intros k' f' I; [destruct I|].
      destruct I as [E|I]; [|exact (IHfs k' f' I)]. injection E as _ <-. cbn [ai_value af_item].
      destruct v as [[i'|l0] x g|[i'|l0]]; cbn [nested_format]; apply RF; try exact Logic.I; apply IH. }
    inversion N as [? ? k f ? I F| | | | |]; subst. exact (A k f I l' F).
  - assert (A : forall n v, In (n, v) vs -> forall l', nested_format (av_value v) l' -> P l').
    { clear N. induction vs as [|[k [i v d]] vs IHvs]; intros k' f' I; [destruct I|].
      destruct I as [E|I]; [|exact (IHvs k' f' I)]. injection E as _ <-. cbn [av_value].
      destruct v as [[i'|l0] x g|[i'|l0]]; cbn [nested_format]; apply RF; try exact Logic.I; apply IH. }
    inversion N as [|? ? n v ? I F| | | |]; subst. exact (A n v I l' F).
  - assert (A : match n with
                | ANode _ _ _ f _ => forall l', nested_format f l' -> P l'
                | ANodeLayout r => forall l', nested_ref r l' -> P l'
                end).
    { clear N. destruct n as [? ? ? v ?|[i'|l0]].
      - destruct v as [[i'|l0] x g|[i'|l0]]; cbn [nested_format]; apply RF; try exact Logic.I; apply IH.
      - now apply RF.
      - apply RF. apply IH. }
    inversion N as [| |? ? ? ? ? ? ? ? ? F|? ? ? ? ? F| |]; subst; exact (A l' F).
  - assert (A : forall l', nested_format (ai_value it) l' -> P l').
    { clear N. destruct it as [i v d p]. cbn [ai_value].
      destruct v as [[i'|l0] x g|[i'|l0]]; cbn [nested_format]; apply RF; try exact Logic.I; apply IH. }
    inversion N as [| | | |? ? ? F|]; subst; exact (A l' F).
  - assert (A : forall it, In it its -> forall l', nested_format (ai_value it) l' -> P l').
    { clear N. induction its as [|[i v d p] its IHits]; intros it' I; [destruct I|].
      destruct I as [E|I]; [|exact (IHits it' I)]. subst it'. cbn [ai_value].
      destruct v as [[i'|l0] x g|[i'|l0]]; cbn [nested_format]; apply RF; try exact Logic.I; apply IH. }
    inversion N as [| | | | |? ? it ? I F]; subst; exact (A it I l' F).
Qed.

(** ** Scopes *)

Lemma innermost_nil name x : ~ innermost [] name x.
Proof. intros [H _]. now destruct x. Qed.

Lemma innermost_snoc ns n name x :
  innermost (ns ++ [n]) name x <->
  (name = n /\ x = length ns) \/ (name <> n /\ innermost ns name x).
Proof.
  split.
  - intros [H L]. destruct (string_dec name n) as [->|D].
    + left. split; [reflexivity|]. destruct (Nat.lt_trichotomy x (length ns)) as [K|[K|K]]; [|assumption|].
      * exfalso. apply (L (length ns)); [assumption|]. now rewrite nth_error_app2, Nat.sub_diag by lia.
      * assert (N : nth_error (ns ++ [n]) x = None).
        { apply nth_error_None. rewrite app_length. cbn. lia. }
        congruence.
    + right. split; [assumption|]. assert (K : x < length ns).
      { assert (K : x < length (ns ++ [n])) by (apply nth_error_Some; congruence).
        rewrite app_length in K. cbn in K. destruct (Nat.eq_dec x (length ns)) as [->|]; [|lia].
        rewrite nth_error_app2, Nat.sub_diag in H by lia. cbn in H. congruence. }
      rewrite nth_error_app1 in H by assumption. split; [assumption|]. intros y Hy E.
      apply (L y Hy). rewrite nth_error_app1; [assumption|]. apply nth_error_Some. congruence.
  - intros [[-> ->]|[D [H L]]].
    + split; [now rewrite nth_error_app2, Nat.sub_diag by lia|]. intros y Hy E.
      assert (K : y < length (ns ++ [n])) by (apply nth_error_Some; congruence).
      rewrite app_length in K. cbn in K. lia.
    + assert (K : x < length ns) by (apply nth_error_Some; congruence).
      split; [now rewrite nth_error_app1|]. intros y Hy E.
      assert (Ky : y < length (ns ++ [n])) by (apply nth_error_Some; congruence).
      rewrite app_length in Ky. cbn in Ky. destruct (Nat.eq_dec y (length ns)) as [->|].
      * rewrite nth_error_app2, Nat.sub_diag in E by lia. cbn in E. congruence.
      * rewrite nth_error_app1 in E by lia. now apply (L y Hy).
Qed.

Lemma innermost_lt ns name x : innermost ns name x -> x < length ns.
Proof. intros [H _]. apply nth_error_Some. congruence. Qed.

Lemma innermost_In ns name x : innermost ns name x -> In name ns.
Proof. intros [H _]. now apply nth_error_In in H. Qed.

Lemma In_innermost ns name : In name ns -> exists x, innermost ns name x.
Proof.
  induction ns as [|n ns IH] using rev_ind; [easy|]. intros I.
  destruct (string_dec name n) as [->|D].
  - exists (length ns). apply innermost_snoc. now left.
  - apply in_app_or in I as [I|[I|[]]]; [|congruence]. destruct (IH I) as [x Hx].
    exists x. apply innermost_snoc. now right.
Qed.

Lemma innermost_unique ns name x y : innermost ns name x -> innermost ns name y -> x = y.
Proof.
  intros [A B] [C D]. destruct (Nat.lt_trichotomy x y) as [K|[K|K]]; [|assumption|].
  - now apply B in K.
  - now apply D in K.
Qed.

Lemma scope_variable_inv sc name :
  (exists x, scope_variable sc name = Ok x) \/ scope_variable sc name = Err (UndeclaredVariable name).
Proof. unfold scope_variable. destruct (hm_get name (sc_variables sc)); eauto. Qed.

Lemma sees_default : sees scope_default [].
Proof.
  split; [reflexivity|]. intros name x. cbn. split; [discriminate|]. intros H. now apply innermost_nil in H.
Qed.

Lemma sees_without sc : sees (without_variables sc) [].
Proof.
  split; [reflexivity|]. intros name x. cbn. split; [discriminate|]. intros H. now apply innermost_nil in H.
Qed.

Lemma sees_bind sc ns name : sees sc ns -> sees (scope_bind name sc) (ns ++ [name]).
Proof.
  intros [C V]. split; [cbn; rewrite app_length; cbn; lia|]. intros name' x.
  rewrite innermost_snoc, <- V. unfold scope_variable. cbn [scope_bind sc_variables hm_insert hm_get].
  destruct (String.eqb_spec name' name) as [->|D]; cbn.
  - rewrite C. split.
    + intros E. injection E as <-. now left.
    + intros [[_ ->]|[N _]]; congruence.
  - split; [now right|]. intros [[N _]|[_ H]]; congruence.
Qed.

Lemma sees_intro intro : forall sc ns, sees sc ns -> sees (with_intro intro sc) (ns ++ intro).
Proof.
  induction intro as [|n intro IH]; intros sc ns H; cbn.
  - now rewrite app_nil_r.
  - change (with_intro (n :: intro) sc) with (with_intro intro (scope_bind n sc)).
    replace (ns ++ n :: intro) with ((ns ++ [n]) ++ intro) by (now rewrite <- app_assoc).
    apply IH. now apply sees_bind.
Qed.

Lemma sees_In sc ns name x : sees sc ns -> scope_variable sc name = Ok x -> In name ns /\ x < length ns.
Proof.
  intros [_ V] H. apply V in H. split; [exact (innermost_In _ _ _ H)|exact (innermost_lt _ _ _ H)].
Qed.

Lemma sees_not_In sc ns name e : sees sc ns -> scope_variable sc name = Err e ->
  e = UndeclaredVariable name /\ ~ In name ns.
Proof.
  intros [_ V] H. destruct (scope_variable_inv sc name) as [[x E]|E]; [congruence|]. split; [congruence|].
  intros I. apply In_innermost in I as [x Hx]. apply V in Hx. congruence.
Qed.

Section Header.
Context {IS : IriSyntax} {AE : AbsExternal}.

Lemma sees_base_prefixes sc ns b p : sees sc ns -> sees (Scope b p (sc_variables sc) (sc_count sc)) ns.
Proof. intros H. exact H. Qed.

Lemma sees_header h sc sc' ns : sees sc ns -> with_header h sc = Ok sc' -> sees sc' (ns ++ header_names h).
Proof.
  intros H E. unfold with_header in E. apply bind_Ok in E as (b & _ & E).
  apply bind_Ok in E as (p & _ & E). injection E as <-. apply sees_intro. now apply sees_base_prefixes.
Qed.

Lemma resolve_no_panic iri sc : (forall w, resolve iri sc <> Panic w) /\ resolve iri sc <> OutOfFuel.
Proof.
  unfold resolve. assert (A : forall t, iri_scheme iri = Some t -> exists u, after_colon iri = Some u).
  { induction iri as [|c iri IH]; cbn [iri_scheme after_colon]; [discriminate|]. intros t.
    destruct (Ascii.eqb c ":"); [eauto|]. destruct (_ || _)%bool; [discriminate|].
    destruct (iri_scheme iri); [|discriminate]. eauto. }
  destruct (iri_scheme iri) as [t|].
  - destruct (hm_get t (sc_prefixes sc)); [|split; discriminate].
    destruct (A t eq_refl) as [u ->]. cbn [unwrap bind]. destruct (is_iri _); split; discriminate.
  - destruct (sc_base sc); split; discriminate.
Qed.

Lemma with_prefixes_no_panic old ps : forall m,
  (forall w, with_prefixes old ps m <> Panic w) /\ with_prefixes old ps m <> OutOfFuel.
Proof.
  induction ps as [|[n p] ps IH]; intros m; cbn [with_prefixes]; [split; discriminate|].
  destruct (resolve_no_panic p old) as [A B]. destruct (resolve p old) as [?|?|w|]; cbn [bind].
  - apply IH.
  - split; discriminate.
  - now destruct (A w).
  - now destruct B.
Qed.

Lemma with_header_no_panic h sc : (forall w, with_header h sc <> Panic w) /\ with_header h sc <> OutOfFuel.
Proof.
  unfold with_header. destruct (with_prefixes_no_panic sc (ah_prefixes h) (sc_prefixes sc)) as [A B].
  destruct (ah_base h) as [b|].
  - destruct (resolve_no_panic b sc) as [C D]. destruct (resolve b sc) as [?|?|w|]; cbn [bind].
    + destruct (with_prefixes sc (ah_prefixes h) (sc_prefixes sc)) as [?|?|w|]; cbn [bind]; split; try discriminate.
      * intros w' _. now destruct (A w).
      * now destruct B.
    + split; discriminate.
    + now destruct (C w).
    + now destruct D.
  - cbn [bind]. destruct (with_prefixes sc (ah_prefixes h) (sc_prefixes sc)) as [?|?|w|]; cbn [bind]; split; try discriminate.
    + intros w' _. now destruct (A w).
    + now destruct B.
Qed.

Lemma resolve_error iri sc e : resolve iri sc = Err e -> forall name, e <> UndeclaredVariable name.
Proof.
  unfold resolve. intros H name ->. destruct (iri_scheme iri).
  - destruct (hm_get s (sc_prefixes sc)); [|discriminate]. destruct (after_colon iri); [|discriminate].
    cbn [unwrap bind] in H. destruct (is_iri _); discriminate.
  - destruct (sc_base sc); discriminate.
Qed.

Lemma with_prefixes_error old ps : forall m e, with_prefixes old ps m = Err e ->
  forall name, e <> UndeclaredVariable name.
Proof.
  induction ps as [|[n p] ps IH]; intros m e H name; cbn [with_prefixes] in H; [discriminate|].
  destruct (resolve p old) as [p'|e'|w|] eqn:E; cbn [bind] in H; try discriminate.
  - exact (IH _ _ H name).
  - injection H as ->. exact (resolve_error _ _ _ E name).
Qed.

Lemma with_header_error h sc e : with_header h sc = Err e -> forall name, e <> UndeclaredVariable name.
Proof.
  unfold with_header. intros H name. destruct (ah_base h) as [b|].
  - destruct (resolve b sc) as [b'|e'|w|] eqn:E; cbn [bind] in H; try discriminate.
    + destruct (with_prefixes _ _ _) eqn:E'; cbn [bind] in H; try discriminate.
      injection H as ->. exact (with_prefixes_error _ _ _ _ E' name).
    + injection H as ->. exact (resolve_error _ _ _ E name).
  - cbn [bind] in H. destruct (with_prefixes _ _ _) eqn:E'; cbn [bind] in H; try discriminate.
    injection H as ->. exact (with_prefixes_error _ _ _ _ E' name).
Qed.
End Header.

(** ** A logic for the compilation

    [triple m Q]: whatever the state, the builder evolves according to [T], a result satisfies
    [Q], an error [E], and a panic only occurs if [P]. *)
Section Triple.
Context {IS : IriSyntax} {AE : AbsExternal} {St R : Type} {CR : Cmp R} (ctx : context St R).
Context (T : @builder R -> @builder R -> Prop) (E : build_error -> Prop) (P : Prop).
Context (T_refl : forall b, T b b) (T_trans : forall a b c, T a b -> T b c -> T a c).
Context (E_other : forall e, (forall name, e <> UndeclaredVariable name) -> E e).

Definition triple {A} (m : @M St R A) (Q : A -> Prop) : Prop :=
  forall s, T (snd s) (snd (snd (m s))) /\
    match fst (m s) with Ok a => Q a | Err e => E e | Panic _ => P | OutOfFuel => False end.

Lemma t_ret {A} (a : A) (Q : A -> Prop) : Q a -> triple (ret a) Q.
Proof. intros H s. split; [apply T_refl|exact H]. Qed.

Lemma t_lift {A} (o : outcome build_error A) (Q : A -> Prop) :
  match o with Ok a => Q a | Err e => E e | Panic _ => P | OutOfFuel => False end -> triple (lift o) Q.
Proof. intros H s. split; [apply T_refl|exact H]. Qed.

Lemma t_bind {A B} (m : @M St R A) (k : A -> @M St R B) (Q : A -> Prop) (Q' : B -> Prop) :
  triple m Q -> (forall a, Q a -> triple (k a) Q') -> triple (bindM m k) Q'.
Proof.
  intros H K s. unfold bindM. destruct (H s) as [HT HQ]. destruct (m s) as [o s']. cbn [fst snd] in *.
  destruct o as [a|e|w|]; cbn [fst snd]; [|now split|now split|easy].
  destruct (K a HQ s') as [KT KQ]. split; [now apply (T_trans _ (snd s'))|exact KQ].
Qed.

Lemma t_weaken {A} (m : @M St R A) (Q Q' : A -> Prop) : triple m Q -> (forall a, Q a -> Q' a) -> triple m Q'.
Proof.
  intros H K s. destruct (H s) as [HT HQ]. split; [exact HT|]. destruct (fst (m s)); auto.
Qed.

Lemma t_iri i : triple (iri_resource ctx i) (fun _ => True).
Proof. intros s. unfold iri_resource. destruct (c_iri ctx i (fst s)). now split; [apply T_refl|]. Qed.
Lemma t_literal i : triple (literal_resource ctx i) (fun _ => True).
Proof. intros s. unfold literal_resource. destruct (c_literal ctx i (fst s)). now split; [apply T_refl|]. Qed.
Lemma t_anonymous : triple (anonymous_resource ctx) (fun _ => True).
Proof. intros s. unfold anonymous_resource. destruct (c_anonymous ctx (fst s)). now split; [apply T_refl|]. Qed.

Lemma t_mapS {A B} (f : A -> @M St R B) (Q : A -> B -> Prop) l :
  (forall a, In a l -> triple (f a) (Q a)) -> triple (mapS f l) (fun bs => Forall2 Q l bs).
Proof.
  induction l as [|a l IH]; intros H; cbn [mapS]; [now apply t_ret|].
  apply (t_bind _ _ (Q a)); [apply H; now left|]. intros b Hb.
  apply (t_bind _ _ (fun bs => Forall2 Q l bs)); [apply IH; intros a' I; apply H; now right|].
  intros bs Hbs. apply t_ret. now constructor.
Qed.

Lemma t_option {A B} (f : A -> @M St R B) (Q : A -> B -> Prop) o :
  (forall a, o = Some a -> triple (f a) (Q a)) ->
  triple (build_option f o)
    (fun r => match o, r with Some a, Some b => Q a b | None, None => True | _, _ => False end).
Proof.
  intros H. destruct o as [a|]; cbn [build_option]; [|now apply t_ret].
  apply (t_bind _ _ (Q a)); [now apply H|]. intros b Hb. now apply t_ret.
Qed.

Lemma t_resolve iri sc : triple (lift (resolve iri sc)) (fun _ => True).
Proof.
  apply t_lift. destruct (resolve_no_panic iri sc) as [A B]. destruct (resolve iri sc) as [a|e|w|] eqn:F; auto.
  - apply E_other. now apply (resolve_error iri sc).
  - now destruct (A w).
Qed.

Lemma t_build_iri iri sc : triple (build_iri ctx iri sc) (fun _ => True).
Proof. apply (t_bind _ _ (fun _ => True)); [apply t_resolve|]. intros i _. apply t_iri. Qed.

(** The names of [ns] are those of the scope. *)
Definition unless (ns : list string) (uses : string -> Prop) : Prop :=
  forall name, uses name -> ~ In name ns -> E (UndeclaredVariable name).

Lemma unless_sub ns (u u' : string -> Prop) : unless ns u -> (forall n, u' n -> u n) -> unless ns u'.
Proof. intros H K n Hn. apply H. now apply K. Qed.

Definition good_names (ns : list string) (uses : string -> Prop) : Prop :=
  forall name, uses name -> In name ns.
Definition good_vars (ns : list string) (vars : nat -> Prop) : Prop :=
  forall x, vars x -> x < length ns.

Lemma t_variable name sc ns : sees sc ns -> unless ns (fun n => n = name) ->
  triple (lift (scope_variable sc name)) (fun x => In name ns /\ x < length ns).
Proof.
  intros S U. apply t_lift. destruct (scope_variable_inv sc name) as [[x F]|F]; rewrite F.
  - now apply (sees_In sc).
  - apply (sees_not_In _ _ _ _ S) in F as [_ F]. now apply U.
Qed.

Lemma t_pattern p sc ns : sees sc ns -> unless ns (fun n => p = AVar n) ->
  triple (build_pattern ctx p sc)
    (fun p' => good_names ns (fun n => p = AVar n) /\ good_vars ns (fun x => p' = PVar x)).
Proof.
  intros S U. destruct p as [name|i|v ty]; cbn [build_pattern].
  - apply (t_bind _ _ (fun x => In name ns /\ x < length ns)).
    + apply t_variable; [assumption|]. apply (unless_sub _ _ _ U). now intros n ->.
    + intros x [I L]. apply t_ret. split.
      * intros n [= <-]. exact I.
      * intros y [= <-]. exact L.
  - apply (t_bind _ _ (fun _ => True)); [apply t_resolve|]. intros i' _.
    apply (t_bind _ _ (fun _ => True)); [apply t_iri|]. intros r _. apply t_ret. split; intros ? [=].
  - apply (t_bind _ _ (fun _ => True)).
    + destruct ty as [i|tag]; cbn [resolve_type].
      * apply t_lift. destruct (resolve_no_panic i sc) as [A B]. destruct (resolve i sc) as [a|e|w|] eqn:F; cbn [bind]; auto.
        -- apply E_other. now apply (resolve_error i sc).
        -- now destruct (A w).
      * now apply t_lift.
    + intros ty' _. apply (t_bind _ _ (fun _ => True)); [apply t_literal|]. intros r _. apply t_ret. split; intros ? [=].
Qed.

Lemma t_quad q sc ns : sees sc ns -> unless ns (quad_names q) ->
  triple (build_quad ctx sc q) (fun q' => good_names ns (quad_names q) /\ good_vars ns (qvar_of q')).
Proof.
  intros S U. unfold build_quad.
  eapply t_bind; [apply (t_pattern _ sc ns S); apply (unless_sub _ _ _ U); intros n H; now left|].
  intros s [Sn Sv].
  eapply t_bind; [apply (t_pattern _ sc ns S); apply (unless_sub _ _ _ U); intros n H; right; now left|].
  intros p [Pn Pv].
  eapply t_bind; [apply (t_pattern _ sc ns S); apply (unless_sub _ _ _ U); intros n H; right; right; now left|].
  intros o [On Ov].
  eapply t_bind.
  { apply (t_option (fun g => build_pattern ctx g sc)
             (fun g g' => good_names ns (fun n => g = AVar n) /\ good_vars ns (fun x => g' = PVar x))).
    intros g Hg. apply (t_pattern _ sc ns S). apply (unless_sub _ _ _ U). intros n H. right. right. right. congruence. }
  intros g Hg. apply t_ret. split.
  - intros n [H|[H|[H|H]]]; [now apply Sn|now apply Pn|now apply On|]. rewrite H in Hg.
    destruct g; [|easy]. now apply Hg.
  - intros x [H|[H|[H|H]]]; [now apply Sv|now apply Pv|now apply Ov|]. cbn [q_g] in H.
    subst g. destruct (q_g q); [|easy]. destruct Hg as [_ Hg]. now apply Hg.
Qed.

Lemma ds_insert_In (q q' : qpat R) ds : In q' (ds_insert q ds) -> q' = q \/ In q' ds.
Proof.
  unfold ds_insert. destruct (existsb _ _); [now right|]. intros I. apply in_app_or in I as [I|[I|[]]]; auto.
Qed.

Lemma fold_ds_insert (qs : list (qpat R)) : forall ds q,
  In q (fold_left (fun ds q => ds_insert q ds) qs ds) -> In q qs \/ In q ds.
Proof.
  induction qs as [|q' qs IH]; intros ds q I; cbn in I; [now right|].
  apply IH in I as [I|I]; [left; now right|]. apply ds_insert_In in I as [->|I]; [left; now left|now right].
Qed.

Lemma t_dataset ds sc ns : sees sc ns -> unless ns (dataset_names ds) ->
  triple (build_dataset ctx sc ds) (fun ds' => good_names ns (dataset_names ds) /\ good_vars ns (var_of ds')).
Proof.
  intros S U. unfold build_dataset. eapply t_bind.
  { apply t_mapS. intros q I. apply (t_quad q sc ns S). apply (unless_sub _ _ _ U). intros n H. now exists q. }
  intros qs F. apply t_ret. split.
  - intros n (q & I & H). clear U. induction F as [|q0 q' ds qs [Hn _] F IH]; [easy|]. destruct I as [->|I]; [now apply Hn|now apply IH].
  - intros x (q' & I & V). apply fold_ds_insert in I as [I|[]]. clear U.
    induction F as [|q0 q1 ds qs [_ Hv] F IH]; [easy|]. destruct I as [->|I]; [now apply Hv|now apply IH].
Qed.

Lemma t_resource r sc : triple (build_resource ctx r sc) (fun _ => True).
Proof.
  destruct r; cbn [build_resource]; try apply t_literal.
  apply (t_bind _ _ (fun _ => True)); [apply t_resolve|]. intros i _. apply t_literal.
Qed.

Lemma t_extra ex sc : triple (build_extra ctx ex sc) (fun _ => True).
Proof.
  unfold build_extra. eapply t_bind; [|intros x _; now apply t_ret].
  apply (t_mapS _ (fun _ _ => True)). intros pv _.
  apply (t_bind _ _ (fun _ => True)); [apply t_build_iri|]. intros p _.
  apply (t_bind _ _ (fun _ => True)); [apply t_resource|]. intros v _. now apply t_ret.
Qed.

Lemma t_header h sc ns : sees sc ns -> unless (ns ++ header_names h) (dataset_names (ah_dataset h)) ->
  triple (build_header ctx h sc)
    (fun hs => sees (snd hs) (ns ++ header_names h) /\
       good_names (ns ++ header_names h) (dataset_names (ah_dataset h)) /\
       good_vars (ns ++ header_names h) (var_of (h_dataset (fst hs))) /\
       h_input (fst hs) = length (ah_input h) /\ h_intro (fst hs) = length (ah_intro h)).
Proof.
  intros S U. unfold build_header. apply (t_bind _ _ (fun sc' => sees sc' (ns ++ header_names h))).
  { apply t_lift. destruct (with_header_no_panic h sc) as [A B].
    destruct (with_header h sc) as [sc'|e|w|] eqn:F.
    - now apply (sees_header h sc sc').
    - apply E_other. now apply (with_header_error h sc).
    - now destruct (A w).
    - now apply B. }
  intros sc' S'. eapply t_bind; [apply (t_dataset _ sc' _ S' U)|]. intros ds [Dn Dv].
  eapply t_bind; [apply t_extra|]. intros _ _. apply t_ret. cbn [fst snd h_dataset h_input h_intro].
  auto.
Qed.

Lemma t_literal_resource input res sc ns : sees sc ns -> unless ns (fun n => res = Some (AVar n)) ->
  (input <> [] -> ns <> []) ->
  triple (build_literal_resource ctx input res sc)
    (fun p' => good_names ns (fun n => res = Some (AVar n)) /\ good_vars ns (fun x => p' = PVar x)).
Proof.
  intros S U N. destruct res as [p|]; cbn [build_literal_resource].
  - eapply t_weaken; [apply (t_pattern p sc ns S); apply (unless_sub _ _ _ U); now intros n ->|].
    intros p' [A B]. split; [|exact B]. intros n [= ->]. now apply A.
  - destruct input as [|i input].
    + apply t_lift. apply E_other. discriminate.
    + apply t_ret. split; intros x [=]. subst x. destruct ns; [now destruct N|cbn; lia].
Qed.

(** *** Parts of layouts, given the compilation of the nested layouts *)
Context (build : alayout -> scope -> @M St R R) (Qn : alayout -> Prop).

Definition t_nested (l : alayout) : Prop :=
  forall sc, sees sc [] -> triple (build l sc) (fun _ => Qn l).

Lemma t_ref r sc : (forall l, nested_ref r l -> t_nested l) ->
  triple (build_ref ctx build r sc) (fun _ => forall l, nested_ref r l -> Qn l).
Proof.
  intros H. destruct r as [i|l]; cbn [build_ref].
  - eapply t_weaken; [apply t_build_iri|]. intros r _ l [=].
  - eapply t_weaken; [apply (H l); [reflexivity|]; apply sees_without|]. intros r Hr l' [= <-]. exact Hr.
Qed.

Definition format_vars (f : vformat R) (x : nat) : Prop :=
  In (PVar x) (vf_input f) \/ vf_graph f = Some (Some (PVar x)).

Lemma t_format default f sc ns : sees sc ns -> unless ns (format_names default f) ->
  (forall l, nested_format f l -> t_nested l) ->
  triple (build_format ctx build default f sc)
    (fun f' => (good_names ns (format_names default f) /\ forall l, nested_format f l -> Qn l) /\
               good_vars ns (format_vars f')).
Proof.
  intros S U H. destruct f as [r input graph|r]; cbn [build_format].
  - eapply t_bind.
    { apply t_mapS. intros p I. apply (t_pattern p sc ns S). apply (unless_sub _ _ _ U).
      intros n ->. now left. }
    intros input' FI. eapply t_bind; [apply (t_ref r sc H)|]. intros r' HN.
    eapply t_bind.
    { apply (t_option (build_option (fun g => build_pattern ctx g sc))
               (fun g r => match g, r with
                           | Some a, Some b => good_names ns (fun n => a = AVar n) /\ good_vars ns (fun x => b = PVar x)
                           | None, None => True | _, _ => False end)).
      intros g Hg. apply (t_option (fun g => build_pattern ctx g sc)
               (fun a b => good_names ns (fun n => a = AVar n) /\ good_vars ns (fun x => b = PVar x))).
      intros p ->. apply (t_pattern p sc ns S). apply (unless_sub _ _ _ U). intros n ->. now right. }
    intros graph' FG. apply t_ret. split; [split; [|exact HN]|].
    + intros n [I| ->].
      * clear U. induction FI as [|p p' l l' [Hn _] FI IH]; [easy|]. destruct I as [->|I]; [now apply Hn|now apply IH].
      * destruct graph' as [[g'|]|]; try easy. now apply FG.
    + intros x [I|I]; cbn [vf_input vf_graph] in I.
      * clear U. induction FI as [|p p' l l' [_ Hv] FI IH]; [easy|]. destruct I as [->|I]; [now apply Hv|now apply IH].
      * subst graph'. destruct graph as [[g|]|]; try easy. now apply FG.
  - eapply t_bind; [apply (t_ref r sc H)|]. intros r' HN.
    apply (t_bind _ _ (fun p => In default ns /\ good_vars ns (fun x => p = PVar x))).
    + eapply t_weaken; [apply (t_pattern (AVar default) sc ns S); apply (unless_sub _ _ _ U)|].
      * intros n [= ->]. reflexivity.
      * intros p [Hn Hv]. split; [now apply Hn|exact Hv].
    + intros p [Hn Hv]. apply t_ret. split; [split; [|exact HN]|].
      * intros n ->. exact Hn.
      * intros x [[I|[]]|I]; [|discriminate]. now apply Hv.
Qed.

(** The names of the item hold in the scope [ns], which includes the intros of the item. *)
Definition item_vars (it : item_layout R) (x : nat) : Prop :=
  var_of (it_dataset it) x \/ format_vars (it_value it) x.

Lemma t_property inputs count intro p sc ns ds : sees sc ns -> unless ns (fun n => p = Some (AVar n)) ->
  (inputs <> 0 -> 0 < count) -> count + length intro = length ns -> good_vars ns (var_of ds) ->
  triple (build_property ctx inputs count intro p sc ds)
    (fun ds' => good_names ns (fun n => p = Some (AVar n)) /\ good_vars ns (var_of ds')).
Proof.
  intros S U CN CL V. destruct p as [p|]; cbn [build_property].
  - destruct (Nat.eqb_spec inputs 0) as [Z|NZ]; [apply t_lift; apply E_other; discriminate|].
    destruct intro as [|i intro]; [apply t_lift; apply E_other; discriminate|].
    eapply t_bind; [apply (t_pattern p sc ns S); apply (unless_sub _ _ _ U); now intros n ->|].
    intros p' [Hn Hv]. apply t_ret. split; [intros n [= ->]; now apply Hn|].
    intros x (q & I & Q). apply ds_insert_In in I as [->|I]; [|apply V; now exists q].
    cbn [length] in CL. apply CN in NZ.
    destruct Q as [Q|[Q|[Q|Q]]]; cbn in Q; unfold pvar_of in Q.
    + injection Q as <-. lia.
    + now apply Hv.
    + injection Q as <-. lia.
    + easy.
  - apply t_ret. split; [intros n [=]|exact V].
Qed.

Lemma t_item inputs count it sc ns : sees sc ns -> unless (ns ++ ai_intro it) (item_names it) ->
  (forall l, nested_format (ai_value it) l -> t_nested l) ->
  (inputs <> 0 -> 0 < count) -> count = length ns ->
  triple (build_item ctx build inputs count it sc)
    (fun it' => (good_names (ns ++ ai_intro it) (item_names it) /\
         forall l, nested_format (ai_value it) l -> Qn l) /\
       it_intro it' = length (ai_intro it) /\ good_vars (ns ++ ai_intro it) (item_vars it')).
Proof.
  intros S U H CN CL. unfold build_item. apply (sees_intro (ai_intro it)) in S.
  eapply t_bind; [apply (t_dataset _ _ _ S); apply (unless_sub _ _ _ U); intros n K; now left|].
  intros ds [Dn Dv].
  eapply t_bind.
  { apply (t_property _ _ _ _ _ _ _ S); [| |rewrite app_length; lia|exact Dv].
    - apply (unless_sub _ _ _ U). intros n K. right. now left.
    - exact CN. }
  intros ds' [Pn Pv].
  eapply t_bind.
  { apply (t_format _ _ _ _ S); [|exact H]. apply (unless_sub _ _ _ U). intros n K. right. now right. }
  intros f [[Fn HN] Fv]. apply t_ret. split; [split; [|exact HN]|split; [reflexivity|]].
  - intros n [K|[K|K]]; [now apply Dn|now apply Pn|now apply Fn].
  - intros x [K|K]; [now apply Pv|now apply Fv].
Qed.

Lemma t_variant n v sc ns : sees sc ns ->
  unless (ns ++ av_intro v) (fun n => dataset_names (av_dataset v) n \/ format_names "self" (av_value v) n) ->
  (forall l, nested_format (av_value v) l -> t_nested l) ->
  triple (build_variant ctx build sc (n, v))
    (fun v' => (good_names (ns ++ av_intro v)
                  (fun n => dataset_names (av_dataset v) n \/ format_names "self" (av_value v) n) /\
         forall l, nested_format (av_value v) l -> Qn l) /\
       it_intro (va_item v') = length (av_intro v) /\ good_vars (ns ++ av_intro v) (item_vars (va_item v'))).
Proof.
  intros S U H. destruct v as [intro v ds]. cbn [build_variant av_intro av_value av_dataset] in *.
  apply (sees_intro intro) in S.
  eapply t_bind.
  { apply (t_format _ _ _ _ S); [|exact H]. apply (unless_sub _ _ _ U). intros m K. now right. }
  intros f [[Fn HN] Fv].
  eapply t_bind; [apply (t_dataset _ _ _ S); apply (unless_sub _ _ _ U); intros m K; now left|].
  intros ds' [Dn Dv]. apply t_ret. cbn [va_item it_intro].
  split; [split; [|exact HN]|split; [reflexivity|]].
  - intros m [K|K]; [now apply Dn|now apply Fn].
  - intros x [K|K]; [now apply Dv|now apply Fv].
Qed.

Lemma t_default_dataset head rest first ns :
  head < length ns -> rest < length ns -> good_vars ns (fun x => first = PVar x) ->
  triple (default_list_dataset ctx head rest first) (fun ds => good_vars ns (var_of ds)).
Proof.
  intros HL RL FV. unfold default_list_dataset.
  eapply t_bind; [apply t_iri|]. intros f _. eapply t_bind; [apply t_iri|]. intros r _. apply t_ret.
  intros x (q & I & Q). apply ds_insert_In in I as [->|I]; [|apply ds_insert_In in I as [->|[]]].
  - destruct Q as [Q|[Q|[Q|Q]]]; cbn in Q; unfold pvar_of in Q; try (injection Q as <-; assumption); easy.
  - destruct Q as [Q|[Q|[Q|Q]]]; cbn in Q; unfold pvar_of in Q; try (injection Q as <-; assumption); try easy.
    now apply FV.
Qed.

Definition node_intro (n : anode alayout) : list string :=
  match n with ANode hd rs intro _ _ => [hd; rs] ++ intro | ANodeLayout _ => ["head"; "rest"; "value"]%string end.
Definition node_names (n : anode alayout) (name : string) : Prop :=
  match n with
  | ANode _ _ _ f ds => (exists d, ds = Some d /\ dataset_names d name) \/ format_names "value" f name
  | ANodeLayout _ => False
  end.
Definition nested_node (n : anode alayout) (l : alayout) : Prop :=
  match n with ANode _ _ _ f _ => nested_format f l | ANodeLayout r => nested_ref r l end.

Lemma t_node n sc ns : sees sc ns -> unless (ns ++ node_intro n) (node_names n) ->
  (forall l, nested_node n l -> t_nested l) ->
  triple (build_node ctx build n sc)
    (fun it' => (good_names (ns ++ node_intro n) (node_names n) /\ forall l, nested_node n l -> Qn l) /\
       2 + it_intro it' = length (node_intro n) /\ good_vars (ns ++ node_intro n) (item_vars it')).
Proof.
  intros S U H. assert (C : sc_count sc = length ns) by apply S. unfold build_node. rewrite C.
  destruct n as [hd rs intro f ds|r]; cbn [node_intro node_names nested_node] in *.
  - apply (sees_intro ([hd; rs] ++ intro)) in S. set (ns' := ns ++ [hd; rs] ++ intro) in *.
    assert (HL : length ns < length ns').
    { unfold ns'. rewrite !app_length. cbn [length]. lia. }
    assert (RL : length ns + 1 < length ns').
    { unfold ns'. rewrite !app_length. cbn [length]. lia. }
    eapply t_bind.
    { apply (t_format _ _ _ _ S); [|exact H]. apply (unless_sub _ _ _ U). intros m K. now right. }
    intros f' [[Fn HN] Fv].
    apply (t_bind _ _ (fun ds' => good_names ns' (fun m => exists d, ds = Some d /\ dataset_names d m) /\
                                  good_vars ns' (var_of ds'))).
    + destruct ds as [d|].
      * eapply t_weaken; [apply (t_dataset _ _ _ S); apply (unless_sub _ _ _ U); intros m K; left; now exists d|].
        intros ds' [A B]. split; [|exact B]. intros m (d' & [= <-] & K). now apply A.
      * assert (G : good_names ns' (fun m => exists d, @None (list (quad apattern)) = Some d /\ dataset_names d m)).
        { intros m (d & [=] & _). }
        destruct f as [r' [|p [|p0 ps]] g|r'].
        -- apply t_ret. split; [exact G|]. now intros x (q & [] & _).
        -- eapply t_bind.
           { apply (t_pattern p _ _ S). apply (unless_sub _ _ _ U). intros m ->. right. left. now left. }
           intros p' [_ Pv]. eapply t_weaken; [apply (t_default_dataset _ _ _ ns'); assumption|]. now split.
        -- apply t_ret. split; [exact G|]. now intros x (q & [] & _).
        -- eapply t_bind.
           { apply (t_variable "value" _ _ S). apply (unless_sub _ _ _ U). intros m ->. now right. }
           intros x [_ Hx]. eapply t_weaken; [apply (t_default_dataset _ _ _ ns'); try assumption|now split].
           intros y [= <-]. exact Hx.
    + intros ds' [Dn Dv]. apply t_ret. split; [split; [|exact HN]|split].
      * intros m [K|K]; [now apply Dn|now apply Fn].
      * cbn [it_intro]. rewrite app_length. reflexivity.
      * intros x [K|K]; [now apply Dv|now apply Fv].
  - set (ns' := ns ++ ["head"; "rest"; "value"]%string).
    assert (L : length ns' = length ns + 3).
    { unfold ns'. rewrite !app_length. cbn [length]. lia. }
    eapply t_bind; [apply (t_ref r sc H)|]. intros r' HN.
    eapply t_bind; [apply (t_default_dataset _ _ _ ns'); [lia|lia|]|].
    + intros x [= <-]. lia.
    + intros ds' Dv. apply t_ret. split; [split; [intros m []|exact HN]|]. split; [reflexivity|].
      intros x [K|[[K|[]]|K]]; [now apply Dv| |discriminate]. injection K as <-. lia.
Qed.
(** *** Layouts *)
Lemma t_identifier l sc :
  triple (match layout_id l with
          | Some i => bindM (lift (resolve i sc)) (fun i => iri_resource ctx i)
          | None => anonymous_resource ctx
          end) (fun _ => True).
Proof.
  destruct (layout_id l) as [i|]; [|apply t_anonymous].
  apply (t_bind _ _ (fun _ => True)); [apply t_resolve|]. intros i' _. apply t_iri.
Qed.

(** The layout [l] may become the definition [p]. *)
Definition scoped_pre (p : prelayout R) : Prop :=
  forall lay x, prelayout_of p lay -> ~ undeclared_in lay x.

Definition unimplemented (l : alayout) : Prop :=
  match l with AUnion _ | AIntersection _ => True | _ => False end.

Lemma t_insert id pre :
  (forall b, T b (bt_insert id pre b)) ->
  triple (bindM (insert_layout id pre)
            (fun old => match snd old with Some _ => lift (Err LayoutRedefinition) | None => ret (fst old) end))
         (fun r => r = id).
Proof.
  intros HT s. unfold bindM, insert_layout. cbn [fst snd]. destruct (bt_get id (snd s)); cbn [lift ret fst snd].
  - split; [apply HT|]. apply E_other. discriminate.
  - now split; [apply HT|].
Qed.

Lemma Forall2_In_l {A B} (Q : A -> B -> Prop) l l' a : Forall2 Q l l' -> In a l -> exists b, In b l' /\ Q a b.
Proof.
  induction 1 as [|x y l l' H F IH]; [easy|]. intros [->|I]; [exists y; split; [now left|assumption]|].
  destruct (IH I) as (b & Ib & Hb). exists b. split; [now right|assumption].
Qed.
Lemma Forall2_In_r {A B} (Q : A -> B -> Prop) l l' b : Forall2 Q l l' -> In b l' -> exists a, In a l /\ Q a b.
Proof.
  induction 1 as [|x y l l' H F IH]; [easy|]. intros [->|I]; [exists x; split; [now left|assumption]|].
  destruct (IH I) as (a & Ia & Ha). exists a. split; [now right|assumption].
Qed.

Lemma bt_insert_In {K V} {CK : Cmp K} (k : K) (v : V) m k' v' :
  In (k', v') (bt_insert k v m) -> v' = v \/ In (k', v') m.
Proof.
  induction m as [|[k0 v0] m IH]; cbn [bt_insert].
  - intros [[= _ <-]|[]]. now left.
  - destruct (cmp k k0).
    + intros [[= _ <-]|I]; [now left|right; now right].
    + intros [[= _ <-]|I]; [now left|now right].
    + intros [I|I]; [right; now left|]. apply IH in I as [I|I]; [now left|right; now right].
Qed.

Lemma bt_collect_In {K V} {CK : Cmp K} (l : list (K * V)) k v :
  In (k, v) (bt_collect l) -> exists k', In (k', v) l.
Proof.
  unfold bt_collect. assert (A : forall l m, In (k, v) (fold_left (fun m kv => bt_insert (fst kv) (snd kv) m) l m) ->
    (exists k', In (k', v) l) \/ In (k, v) m).
  { clear l. induction l as [|[k0 v0] l IH]; intros m I; cbn [fold_left fst snd] in I; [now right|].
    apply IH in I as [[k' I]|I]; [left; exists k'; now right|].
    apply bt_insert_In in I as [->|I]; [left; exists k0; now left|now right]. }
  intros I. apply A in I as [I|[]]. exact I.
Qed.

Lemma item_scoped h intro (hd' : header R) it' x :
  good_vars (header_names h ++ intro) (item_vars it') -> it_intro it' = length intro ->
  h_input hd' = length (ah_input h) -> h_intro hd' = length (ah_intro h) ->
  ~ item_undeclared (h_input hd' + h_intro hd') it' x.
Proof.
  intros G I Hi Hj [V L]. assert (X : x < length (header_names h ++ intro)).
  { apply G. destruct V as [V|[V|V]]; [now left|right; now left|right; now right]. }
  unfold header_names in X. rewrite !app_length in X. lia.
Qed.

Lemma header_scoped h (hd' : header R) x :
  good_vars (header_names h) (var_of (h_dataset hd')) ->
  h_input hd' = length (ah_input h) -> h_intro hd' = length (ah_intro h) ->
  ~ header_undeclared (h_input hd') hd' x.
Proof.
  intros G Hi Hj [V L]. apply G in V. unfold header_names in V. rewrite !app_length in V. lia.
Qed.

(** What is required of the layout itself, in terms of the specification. *)
Lemma t_layout l sc :
  sees sc [] ->
  (forall l', nested l l' -> t_nested l') ->
  (forall name, uses_undeclared l name -> E (UndeclaredVariable name)) ->
  (unimplemented l -> P) ->
  (forall id pre b,
     ((match l with AUnit h _ | ALiteralL _ h _ => length (ah_input h) <= 1 | _ => True end) -> scoped_pre pre) ->
     T b (bt_insert id pre b)) ->
  triple (layout_body ctx build l sc)
    (fun _ => (forall name, ~ uses_undeclared l name) /\ ~ unimplemented l /\ forall l', nested l l' -> Qn l').
Proof.
  intros S HN UU HP HT.
  apply (t_bind _ _ (fun _ => True)); [apply t_identifier|]. intros id _.
  apply (t_bind _ _ (fun pre =>
    ((match l with AUnit h _ | ALiteralL _ h _ => length (ah_input h) <= 1 | _ => True end) -> scoped_pre pre) /\
    (forall name, ~ uses_undeclared l name) /\ ~ unimplemented l /\ forall l', nested l l' -> Qn l')).
  2:{ intros pre [SP K]. eapply t_weaken; [apply t_insert; intros b; now apply HT|]. intros r _. exact K. }
  assert (UH : forall h, header_of l = Some h -> unless ([] ++ header_names h) (dataset_names (ah_dataset h))).
  { intros h Hh name D N. apply UU. now apply (UU_dataset l h). }
  destruct l as [h c|k h res|h fs|h vs|h n hd tl|h it|h its|b|h|h];
    try (specialize (UH h eq_refl); eapply t_bind; [exact (t_header h sc [] S UH)|];
         intros [hd' sc'] (S' & Hn & Hv & Hi & Hj); cbn [fst snd app] in *).
  - (* unit *)
    apply t_ret. split; [|split; [|split]].
    + intros L lay x -> [V G]. apply Hv in V. unfold header_names in V. rewrite app_length in V. lia.
    + intros name U. inversion U as [? h' ? Hh D N| | | | | | |]; subst. injection Hh as <-. now apply N, Hn.
    + intros [].
    + intros l' N. inversion N.
  - (* literals *)
    assert (NE : ah_input h <> [] -> header_names h <> []).
    { unfold header_names. destruct (ah_input h); [now intros []|discriminate]. }
    eapply t_bind.
    { apply (t_literal_resource (ah_input h) res sc' (header_names h) S'); [|exact NE].
      intros name -> N. apply UU. now apply UU_resource. }
    intros res' [Rn Rv].
    assert (POST : forall pre,
      (forall lay x, prelayout_of pre lay -> undeclared_in lay x ->
         header_undeclared 1 hd' x \/ (res' = PVar x /\ 1 + h_intro hd' <= x)) ->
      (length (ah_input h) <= 1 -> scoped_pre pre) /\
      (forall name, ~ uses_undeclared (ALiteralL k h res) name) /\
      ~ unimplemented (ALiteralL k h res) /\ (forall l', nested (ALiteralL k h res) l' -> Qn l')).
    { intros pre HU. split; [|split; [|split]].
      - intros L lay x Hl U. apply (HU lay x Hl) in U as [[V G]|[-> G]].
        + apply Hv in V. unfold header_names in V. rewrite app_length in V. lia.
        + assert (X : x < length (header_names h)) by now apply Rv.
          unfold header_names in X. rewrite app_length in X. lia.
      - intros name U. inversion U as [? h' ? Hh D N|? ? ? N| | | | | |]; subst.
        + injection Hh as <-. now apply N, Hn.
        + now apply N, Rn.
      - intros [].
      - intros l' N. inversion N. }
    assert (DT : forall dt name,
      triple (match dt with Some i => build_iri ctx i sc' | None => iri_resource ctx (xsd name) end) (fun _ => True)).
    { intros [i|] name; [apply t_build_iri|apply t_iri]. }
    destruct k as [dt|dt|dt|pat dt|pat].
    + eapply t_bind; [apply DT|]. intros dt' _. apply t_ret, POST. intros lay x -> U. exact U.
    + eapply t_bind; [apply t_build_iri|]. intros dt' _. apply t_ret, POST. intros lay x -> U. exact U.
    + eapply t_bind; [apply t_build_iri|]. intros dt' _. apply t_ret, POST. intros lay x -> U. exact U.
    + eapply t_bind; [apply DT|]. intros dt' _. apply t_ret, POST. intros lay x [d ->] U. exact U.
    + apply t_ret, POST. intros lay x [d ->] U. exact U.
  - (* products *)
    eapply t_bind.
    { apply (t_mapS _ (fun kf kf' =>
         (good_names (header_names h ++ ai_intro (af_item (snd kf))) (item_names (af_item (snd kf))) /\
          forall l, nested_format (ai_value (af_item (snd kf))) l -> Qn l) /\
         it_intro (f_item (snd kf')) = length (ai_intro (af_item (snd kf))) /\
         good_vars (header_names h ++ ai_intro (af_item (snd kf))) (item_vars (f_item (snd kf'))))).
      intros [k [it req]] I. cbn [build_field snd af_item].
      eapply t_bind.
      { apply (t_item _ _ it sc' (header_names h) S').
        - intros name U N. apply UU. now apply (UU_field h fs k (AField it req)).
        - intros l' N. apply HN. now apply (N_field h fs k (AField it req)).
        - lia.
        - unfold header_names. now rewrite app_length. }
      intros it' K. now apply t_ret. }
    intros fs' F. apply t_ret. split; [|split; [|split]].
    + intros _ lay x -> [U|(k & f & I & U)].
      * revert U. now apply (header_scoped h).
      * apply bt_collect_In in I as [k' I]. destruct (Forall2_In_r _ _ _ _ F I) as (kf & _ & _ & K1 & K2).
        revert U. now apply (item_scoped h (ai_intro (af_item (snd kf)))).
    + intros name U. inversion U as [? h' ? Hh D N| |? ? k f ? I D N| | | | |]; subst.
      * injection Hh as <-. now apply N, Hn.
      * destruct (Forall2_In_l _ _ _ _ F I) as (b & _ & [[G _] _]). now apply N, G.
    + intros [].
    + intros l' N. inversion N as [? ? k f ? I D| | | | |]; subst.
      destruct (Forall2_In_l _ _ _ _ F I) as (b & _ & [[_ G] _]). now apply G.
  - (* sums *)
    eapply t_bind.
    { apply (t_mapS _ (fun nv v' =>
         (good_names (header_names h ++ av_intro (snd nv))
            (fun n => dataset_names (av_dataset (snd nv)) n \/ format_names "self" (av_value (snd nv)) n) /\
          forall l, nested_format (av_value (snd nv)) l -> Qn l) /\
         it_intro (va_item v') = length (av_intro (snd nv)) /\
         good_vars (header_names h ++ av_intro (snd nv)) (item_vars (va_item v')))).
      intros [n v] I. apply (t_variant n v sc' (header_names h) S').
      - intros name U N. apply UU. now apply (UU_variant h vs n v).
      - intros l' N. apply HN. now apply (N_variant h vs n v). }
    intros vs' F. apply t_ret. split; [|split; [|split]].
    + intros _ lay x -> [U|(v & I & U)].
      * revert U. now apply (header_scoped h).
      * destruct (Forall2_In_r _ _ _ _ F I) as (nv & _ & _ & K1 & K2).
        revert U. now apply (item_scoped h (av_intro (snd nv))).
    + intros name U. inversion U as [? h' ? Hh D N| | |? ? n v ? I D N| | | |]; subst.
      * injection Hh as <-. now apply N, Hn.
      * destruct (Forall2_In_l _ _ _ _ F I) as (b & _ & [[G _] _]). now apply N, G.
    + intros [].
    + intros l' N. inversion N as [|? ? n v ? I D| | | |]; subst.
      destruct (Forall2_In_l _ _ _ _ F I) as (b & _ & [[_ G] _]). now apply G.
  - (* ordered lists *)
    eapply t_bind.
    { apply (t_node n sc' (header_names h) S').
      - intros name U N. apply UU. destruct n; [|destruct U]. now apply UU_node.
      - intros l' N. apply HN. destruct n; [now apply N_node|now apply N_node_layout]. }
    intros node (NG & NI & NV).
    eapply t_bind.
    { apply (t_pattern hd sc' (header_names h) S'). intros name U N. apply UU. apply UU_bounds; [now left|assumption]. }
    intros p' [Pn Pv].
    eapply t_bind.
    { apply (t_pattern tl sc' (header_names h) S'). intros name U N. apply UU. apply UU_bounds; [now right|assumption]. }
    intros q' [Qn' Qv]. apply t_ret. split; [|split; [|split]].
    + intros _ lay x -> [U|[[U G]|[U G]]].
      * revert U. now apply (header_scoped h).
      * assert (X : x < length (header_names h)) by (destruct U; [now apply Pv|now apply Qv]).
        unfold header_names in X. rewrite app_length in X. lia.
      * assert (X : x < length (header_names h ++ node_intro n)).
        { apply NV. destruct U as [U|[U|U]]; [now left|right; now left|right; now right]. }
        unfold header_names in X. rewrite !app_length in X. lia.
    + intros name U. destruct NG as [NG _].
      inversion U as [? h' ? Hh D N| | | |? ? ? ? ? ? ? ? ? D N|? ? ? ? ? D N| |]; subst.
      * injection Hh as <-. now apply N, Hn.
      * now apply N, NG.
      * apply N. destruct D as [D|D]; [now apply Pn|now apply Qn'].
    + intros [].
    + destruct NG as [_ NG]. intros l' N. apply NG.
      inversion N as [| |? ? ? ? ? ? ? ? ? D|? ? ? ? ? D| |]; subst; exact D.
  - (* unordered lists *)
    assert (C : sc_count sc' = length (header_names h)) by apply S'.
    eapply t_bind.
    { apply (t_item _ _ it sc' (header_names h) S').
      - intros name U N. apply UU. now apply UU_item.
      - intros l' N. apply HN. now apply N_item.
      - rewrite C. unfold header_names. rewrite app_length. lia.
      - exact C. }
    intros it' (NG & NI & NV). apply t_ret. split; [|split; [|split]].
    + intros _ lay x -> [U|U]; revert U; [now apply (header_scoped h)|now apply (item_scoped h (ai_intro it))].
    + intros name U. inversion U as [? h' ? Hh D N| | | | | |? ? ? D N|]; subst.
      * injection Hh as <-. now apply N, Hn.
      * now apply N, NG.
    + intros [].
    + intros l' N. inversion N as [| | | |? ? ? D|]; subst. now apply NG.
  - (* tuples *)
    assert (C : sc_count sc' = length (header_names h)) by apply S'.
    eapply t_bind.
    { apply (t_mapS _ (fun it it' =>
         (good_names (header_names h ++ ai_intro it) (item_names it) /\
          forall l, nested_format (ai_value it) l -> Qn l) /\
         it_intro it' = length (ai_intro it) /\
         good_vars (header_names h ++ ai_intro it) (item_vars it'))).
      intros it I. apply (t_item _ _ it sc' (header_names h) S').
      - intros name U N. apply UU. now apply (UU_tuple h its it).
      - intros l' N. apply HN. now apply (N_tuple h its it).
      - rewrite C. unfold header_names. rewrite app_length. lia.
      - exact C. }
    intros its' F. apply t_ret. split; [|split; [|split]].
    + intros _ lay x -> [U|(it' & I & U)].
      * revert U. now apply (header_scoped h).
      * destruct (Forall2_In_r _ _ _ _ F I) as (it & _ & _ & K1 & K2).
        revert U. now apply (item_scoped h (ai_intro it)).
    + intros name U. inversion U as [? h' ? Hh D N| | | | | | |? ? it ? I D N]; subst.
      * injection Hh as <-. now apply N, Hn.
      * destruct (Forall2_In_l _ _ _ _ F I) as (b & _ & [[G _] _]). now apply N, G.
    + intros [].
    + intros l' N. inversion N as [| | | | |? ? it ? I D]; subst.
      destruct (Forall2_In_l _ _ _ _ F I) as (b & _ & [[_ G] _]). now apply G.
  - (* booleans *)
    assert (POST : forall lay, lay = Never \/ lay = Always ->
      (True -> scoped_pre (PreOf lay)) /\ (forall name, ~ uses_undeclared (ABool b) name) /\
      ~ unimplemented (ABool b) /\ (forall l', nested (ABool b) l' -> Qn l')).
    { intros lay K. split; [|split; [|split]].
      - intros _ lay' x -> U. now destruct K as [->| ->].
      - intros name U. inversion U as [? h' ? Hh D N| | | | | | |]; subst. discriminate.
      - intros [].
      - intros l' N. inversion N. }
    destruct b; apply t_ret, POST; [now right|now left].
  - apply t_lift. now apply HP.
  - apply t_lift. now apply HP.
Qed.
End Triple.
