(** * The values taken by dehydration (C119) *)

From Coq Require Import String List Bool Arith NArith Lia Sorted Qcanon.
Import ListNotations.
From Verif Require Import Base BaseProofs Orders PatternModel MatchingModel MatchingSpec ValueModel ValueProofs
  LayoutModel HydrateModel HydrateSpec TermModel LayoutSpec DehydrateModel DehydrateSpec DehydrateProofs DehydrateProperties AcceptSpec.
Open Scope list_scope.
Open Scope nat_scope.

Section Outcomes.
Context {Q S I : Type} {CS : Cmp S} {CSL : CmpLaws S} {X : Xsd} {IS : IriSyntax}.
Variable ops : interpretation Q S I.
Variable reg : registry Q.
Hypothesis RS : registry_sorted reg.

Notation M := (M (Q := Q) (S := S) (I := I)).
Notation err := (derr (Q := Q)).
Notation Takes := (Takes reg).
Notation Refuses := (Refuses reg).

Definition post {A} (P : A -> Prop) (E : err -> Prop) (o : outcome err A) : Prop :=
  match o with Ok a => P a | Err e => E e | Panic _ | OutOfFuel => True end.
Definition yields {A} (P : A -> Prop) (E : err -> Prop) (m : M A) : Prop := forall st, post P E (fst (m st)).

Lemma y_ret {A} (P : A -> Prop) E a : P a -> yields P E (ret a).
Proof. intros H st. exact H. Qed.
Lemma y_raise {A} (P : A -> Prop) (E : err -> Prop) e : E e -> yields P E (raise e).
Proof. intros H st. exact H. Qed.
Lemma y_lift {A} (P : A -> Prop) E o : post P E o -> yields P E (lift o).
Proof. intros H st. exact H. Qed.

Lemma y_bind {A B} (P : A -> Prop) (P' : B -> Prop) (E E' : err -> Prop) m k :
  yields P E m -> (forall e, E e -> E' e) -> (forall a, P a -> yields P' E' (k a)) -> yields P' E' (bindM m k).
Proof.
  intros Hm HE Hk st. specialize (Hm st). unfold bindM.
  destruct (m st) as [[a|e|w|] st1]; cbn in *; auto. now apply Hk.
Qed.

Lemma y_weak {A} (P P' : A -> Prop) (E E' : err -> Prop) m :
  yields P E m -> (forall a, P a -> P' a) -> (forall e, E e -> E' e) -> yields P' E' m.
Proof. intros Hm HP HE st. specialize (Hm st). destruct (fst (m st)); cbn in *; auto. Qed.

Lemma y_is_ok {A} (P : A -> Prop) (E : err -> Prop) m : yields P E m ->
  yields (fun b : bool => if b then exists a, P a else exists e, E e) (fun _ => False) (is_ok m).
Proof.
  intros Hm st. specialize (Hm st). unfold is_ok. destruct (m st) as [[a|e|w|] st1]; cbn in *; eauto.
Qed.

(** ** Environments and patterns *)

Definition has (n : nat) (e : env S) : Prop := length (env_list e) = n.
Definition undeclared (n : nat) (V : nat -> Prop) (er : err) : Prop := exists x, V x /\ n <= x /\ er = DUndeclaredVariable x.
Definition declared (n : nat) (V : nat -> Prop) : Prop := forall x, V x -> x < n.

Lemma y_new : yields (fun _ => True) (fun _ => False) (new_resourceM ops).
Proof. intros st. unfold new_resourceM. destruct (new_resource ops (ds_interp st)). exact Logic.I. Qed.

Lemma y_news n : yields (fun rs => length rs = n) (fun _ => False) (new_resources ops n).
Proof.
  induction n as [|n IH]; cbn [new_resources]; [now apply y_ret|].
  eapply y_bind; [apply y_new|now (intros ? U; try exact U; destruct U)|]. intros r _. eapply y_bind; [apply IH|tauto|]. intros rs Hrs.
  apply y_ret. cbn. congruence.
Qed.

Lemma y_env_intro e n m : has n e -> yields (has (n + m)) (fun _ => False) (env_intro ops e m).
Proof.
  intro He. eapply y_bind; [apply y_news|now (intros ? U; try exact U; destruct U)|]. intros rs Hrs. apply y_ret.
  unfold has in *. cbn. rewrite app_length. lia.
Qed.

Lemma y_pattern e n p : has n e ->
  post (fun _ => declared n (fun x => p = PVar x)) (undeclared n (fun x => p = PVar x)) (instantiate_pattern ops e p).
Proof.
  intros He. unfold has in He. unfold instantiate_pattern. destruct p as [q|x]; [intros x; discriminate|].
  rewrite env_get_spec. destruct (nth_error (env_list e) x) as [r'|] eqn:E; cbn.
  - intros y [= <-]. rewrite <- He. apply nth_error_Some. congruence.
  - apply nth_error_None in E. exists x. split; [reflexivity|]. split; [lia|reflexivity].
Qed.

Lemma y_patterns e n ps : has n e ->
  post (fun rs => length rs = length ps /\ declared n (fun x => In (PVar x) ps)) (undeclared n (fun x => In (PVar x) ps)) (instantiate_patterns ops e ps).
Proof.
  intros He. unfold instantiate_patterns. induction ps as [|p ps IH]; cbn [mapM]; [split; [reflexivity|intros x []]|].
  pose proof (y_pattern e n p He) as H.
  destruct (instantiate_pattern ops e p) as [r|er| |]; cbn in *; auto.
  - destruct (mapM (instantiate_pattern ops e) ps) as [rs|er| |]; cbn in *; auto.
    + destruct IH as [-> D]. split; [reflexivity|]. intros x [Hx|Hx]; auto.
    + destruct IH as (x & Hx & L). exists x. auto.
  - destruct H as (x & -> & L). exists x. auto.
Qed.

Lemma y_quad e n p : has n e ->
  post (fun _ => declared n (qvar_of p)) (undeclared n (qvar_of p)) (instantiate_quad ops e p).
Proof.
  intros He. unfold instantiate_quad, qvar_of, pvar_of, undeclared, declared.
  pose proof (y_pattern e n (q_s p) He) as H1. destruct (instantiate_pattern ops e (q_s p)); cbn in *; auto.
  2:{ destruct H1 as (x & ? & L). exists x. auto. }
  pose proof (y_pattern e n (q_p p) He) as H2. destruct (instantiate_pattern ops e (q_p p)); cbn in *; auto.
  2:{ destruct H2 as (x & ? & L). exists x. auto. }
  pose proof (y_pattern e n (q_o p) He) as H3. destruct (instantiate_pattern ops e (q_o p)); cbn in *; auto.
  2:{ destruct H3 as (x & ? & L). exists x. auto 6. }
  destruct (q_g p) as [g|] eqn:Eg; cbn.
  - pose proof (y_pattern e n g He) as H4. destruct (instantiate_pattern ops e g); cbn in *; auto.
    + intros x [K|[K|[K|K]]]; auto. injection K as ->. now apply H4.
    + destruct H4 as (x & -> & L). exists x. auto 6.
  - intros x [K|[K|[K|K]]]; auto. discriminate.
Qed.

Lemma y_dataset e n ps : has n e ->
  yields (fun _ => declared n (var_of ps)) (undeclared n (var_of ps)) (instantiate_dataset ops e ps).
Proof.
  intros He. induction ps as [|p ps IH]; cbn [instantiate_dataset]; [apply y_ret; intros x (p & [] & _)|].
  eapply y_bind; [apply y_lift, (y_quad e n), He|..].
  { intros er (x & V & L). exists x. split; [|exact L]. exists p. split; [now left|exact V]. }
  intros q D1. eapply (y_bind (fun _ => True) _ (fun _ => False)); [intro st; exact Logic.I|now (intros ? U; try exact U; destruct U)|]. intros _ _.
  eapply y_weak; [exact IH|..].
  - intros ? D x (p' & [<-|Hp] & V); [now apply D1|]. apply D. exists p'. auto.
  - intros er (x & (p' & Hp & V) & L). exists x. split; [|exact L]. exists p'. split; [now right|exact V].
Qed.

Lemma y_vdataset e n ps : has n e ->
  post (fun _ => declared n (var_of ps)) (undeclared n (var_of ps)) (instantiate_variant_dataset ops e ps).
Proof.
  intros He. unfold instantiate_variant_dataset.
  assert (post (fun _ => declared n (var_of ps)) (undeclared n (var_of ps)) (mapM (instantiate_quad ops e) ps)) as H.
  { induction ps as [|p ps IH]; cbn [mapM]; [intros x (p & [] & _)|].
    pose proof (y_quad e n p He) as H. destruct (instantiate_quad ops e p) as [q|er| |]; cbn in *; auto.
    - destruct (mapM (instantiate_quad ops e) ps) as [qs|er| |]; cbn in *; auto.
      + intros x (p' & [<-|Hp] & V); [now apply H|]. apply IH. exists p'. auto.
      + destruct IH as (x & (p' & Hp & V) & L). exists x. split; [|exact L]. exists p'. split; [now right|exact V].
    - destruct H as (x & V & L). exists x. split; [|exact L]. exists p. split; [now left|exact V]. }
  destruct (mapM (instantiate_quad ops e) ps); cbn in *; auto.
Qed.

Lemma y_open e n m ps : has n e ->
  yields (fun e' => has (n + m) e' /\ declared (n + m) (var_of ps)) (undeclared (n + m) (var_of ps)) (open ops e m ps).
Proof.
  intros He. eapply y_bind; [apply y_env_intro, He|intros ? []|]. intros e' He'.
  eapply y_bind; [eapply y_dataset; eassumption|now (intros ? U; try exact U; destruct U)|]. intros ? D. now apply y_ret.
Qed.

(** ** Items *)
Section Body.
Variable rec : value -> option S -> Q -> list S -> M unit.
Hypothesis H_rec : forall v g ref inputs, yields (fun _ => Takes ref (length inputs) v) (Refuses ref (length inputs) v) (rec v g ref inputs).

Definition sub_takes (vf : vformat Q) (v : value) : Prop := Takes (vf_layout vf) (length (vf_input vf)) v.
Definition sub_refuses (vf : vformat Q) (v : value) (er : err) : Prop := Refuses (vf_layout vf) (length (vf_input vf)) v er.

Lemma y_sub v g vf e n : has n e ->
  yields (fun _ => declared n (format_var vf) /\ sub_takes vf v)
    (fun er => undeclared n (format_var vf) er \/ sub_refuses vf v er) (dehydrate_sub_value ops rec v g vf e).
Proof.
  intros He. unfold dehydrate_sub_value.
  eapply y_bind; [apply y_lift, (y_patterns e n), He|..].
  { intros er (x & V & L). left. exists x. split; [now left|exact L]. }
  intros rs [L D1].
  eapply (y_bind (fun _ => declared n (fun x => vf_graph vf = Some (Some (PVar x)))) _ (undeclared n (fun x => vf_graph vf = Some (Some (PVar x))))).
  - destruct (vf_graph vf) as [[p|]|]; try (apply y_ret; intros x; discriminate).
    eapply y_bind; [apply y_lift, (y_pattern e n), He|..].
    + intros er (x & -> & Hx). exists x. auto.
    + intros r D. apply y_ret. intros x [= ->]. now apply D.
  - intros er (x & V & Hx). left. exists x. split; [now right|exact Hx].
  - intros g' D2. eapply y_weak; [apply H_rec|..].
    + intros ? T. rewrite L in T. split; [|exact T]. intros x [V|V]; auto.
    + intros er R. rewrite L in R. right. exact R.
Qed.

Definition item_var (it : item_layout Q) (x : nat) : Prop := var_of (it_dataset it) x \/ format_var (it_value it) x.
Definition good (n : nat) (it : item_layout Q) (w : value) : Prop :=
  declared (n + it_intro it) (item_var it) /\ sub_takes (it_value it) w.
Definition bad (n : nat) (it : item_layout Q) (w : value) (er : err) : Prop :=
  undeclared (n + it_intro it) (item_var it) er \/ sub_refuses (it_value it) w er.

Lemma y_item {B} (P : B -> Prop) (E : err -> Prop) w g it e n k : has n e ->
  (forall er, bad n it w er -> E er) -> (good n it w -> yields P E (k tt)) ->
  yields P E (bindM (open ops e (it_intro it) (it_dataset it)) (fun e' =>
    bindM (dehydrate_sub_value ops rec w g (it_value it) e') (fun u => k u))).
Proof.
  intros He HE Hk. eapply y_bind; [apply (y_open e n), He|..].
  { intros er (x & V & L). apply HE. left. exists x. split; [now left|exact L]. }
  intros e' [He' D]. eapply y_bind; [apply (y_sub w g (it_value it) e' _ He')|..].
  { intros er [(x & V & L)|R]; apply HE; [left|now right]. exists x. split; [now right|exact L]. }
  intros [] [D' T]. apply Hk. split; [|exact T]. intros x [V|V]; auto.
Qed.

Lemma y_entries g e n fs : has n e -> forall m,
  yields (fun _ => forall k w, In (k, w) m -> exists f, bt_get k fs = Some f /\ good n (f_item f) w)
    (fun er => (er = DIncompatibleLayout /\ exists k, In k (map fst m) /\ ~ In k (map fst fs)) \/
       exists k f w, In (k, f) fs /\ In (k, w) m /\ bad n (f_item f) w er)
    (dehydrate_entries ops rec g e fs m).
Proof.
  intros He. induction m as [|[k v] m IH]; cbn [dehydrate_entries]; [apply y_ret; intros k w []|].
  destruct (bt_get k fs) as [f|] eqn:E.
  - apply y_item with (n := n) (w := v); [exact He|..].
    + intros er B. right. exists k, f, v. split; [now apply bt_get_In|]. split; [now left|exact B].
    + intros G. eapply y_weak; [exact IH|..].
      * intros ? A k' w' [[= <- <-]|Hk]; eauto.
      * intros er [(-> & k' & K1 & K2)|(k' & f' & w' & K1 & K2 & B)].
        -- left. split; [reflexivity|]. exists k'. split; [now right|exact K2].
        -- right. exists k', f', w'. split; [exact K1|]. split; [now right|exact B].
  - apply y_raise. left. split; [reflexivity|]. exists k. split; [now left|]. now apply bt_get_None in E.
Qed.

Lemma y_items g e n it : has n e -> forall vs,
  yields (fun _ => forall w, In w vs -> good n it w) (fun er => exists w, In w vs /\ bad n it w er) (dehydrate_items ops rec g e it vs).
Proof.
  intros He. induction vs as [|v vs IH]; cbn [dehydrate_items]; [apply y_ret; intros w []|].
  apply y_item with (n := n) (w := v); [exact He|..].
  - intros er B. exists v. split; [now left|exact B].
  - intros G. eapply y_weak; [exact IH|..].
    + intros ? A w [<-|Hw]; auto.
    + intros er (w & Hw & B). exists w. split; [now right|exact B].
Qed.

Lemma y_nodes g e n node tl : has n e -> forall vs head,
  yields (fun _ => (forall w, In w vs -> good (n + 2) node w) /\ (vs <> [] -> declared n (fun x => tl = PVar x)))
    (fun er => (exists w, In w vs /\ bad (n + 2) node w er) \/ (vs <> [] /\ undeclared n (fun x => tl = PVar x) er))
    (dehydrate_nodes ops rec g e node tl head vs).
Proof.
  intros He. induction vs as [|v vs IH]; intros head; cbn [dehydrate_nodes]; [apply y_ret; split; [intros w []|congruence]|].
  eapply (y_bind (fun _ => vs = [] -> declared n (fun x => tl = PVar x)) _ (undeclared n (fun x => tl = PVar x))).
  - destruct vs.
    + apply y_lift. pose proof (y_pattern e n tl He) as H. destruct (instantiate_pattern ops e tl); cbn in *; auto.
    + eapply y_weak; [apply y_new|discriminate|intros ? []].
  - intros er U. right. split; [discriminate|exact U].
  - intros rest D. apply y_item with (n := n + 2) (w := v).
    + unfold has in *. cbn. rewrite app_length. cbn. lia.
    + intros er B. left. exists v. split; [now left|exact B].
    + intros G. eapply y_weak; [apply IH|..].
      * intros ? [A T]. split; [intros w [<-|Hw]; auto|]. intros _. destruct vs; [now apply D|apply T; discriminate].
      * intros er [(w & Hw & B)|[_ U]]; [left|right; split; [discriminate|exact U]]. exists w. split; [now right|exact B].
Qed.

Lemma y_tuple g e n : has n e -> forall vs its,
  yields (fun _ => Forall2 (good n) its vs)
    (fun er => (er = DIncompatibleLayout /\ length vs <> length its) \/
       exists i it w, nth_error its i = Some it /\ nth_error vs i = Some w /\ bad n it w er)
    (dehydrate_tuple ops rec g e its vs).
Proof.
  intros He. induction vs as [|v vs IH]; intros [|it its]; cbn [dehydrate_tuple]; try (apply y_raise; left; split; [reflexivity|discriminate]); [now apply y_ret|].
  apply y_item with (n := n) (w := v); [exact He|..].
  - intros er B. right. exists 0, it, v. auto.
  - intros G. eapply y_weak; [apply IH|..].
    + intros ? A. now constructor.
    + intros er [[-> L]|(i & it' & w & A & B & C)]; [left; cbn; auto|]. right. exists (Datatypes.S i), it', w. auto.
Qed.

Lemma y_variants v g e n : has n e -> forall vs sel,
  yields (fun r => (forall vb, In vb vs -> declared (n + it_intro (va_item vb)) (var_of (it_dataset (va_item vb)))) /\
      ((r = sel /\ forall vb, In vb vs -> Variant_refuses reg n (va_item vb) v) \/
       (sel = None /\ r <> None /\ exists i va, nth_error vs i = Some va /\ Variant_takes reg n (va_item va) v /\
          forall j vb, nth_error vs j = Some vb -> j <> i -> Variant_refuses reg n (va_item vb) v)))
    (fun er => (exists vb, In vb vs /\ undeclared (n + it_intro (va_item vb)) (var_of (it_dataset (va_item vb))) er) \/
       (er = DDataAmbiguity /\
         ((sel <> None /\ exists i va, nth_error vs i = Some va /\ Variant_takes reg n (va_item va) v) \/
          exists i j va vb, i <> j /\ nth_error vs i = Some va /\ nth_error vs j = Some vb /\
            Variant_takes reg n (va_item va) v /\ Variant_takes reg n (va_item vb) v)))
    (dehydrate_variants ops rec v g e vs sel).
Proof.
  intros He. induction vs as [|va vs IH]; intros sel; cbn [dehydrate_variants].
  { apply y_ret. split; [intros vb []|]. left. split; [reflexivity|intros vb []]. }
  eapply y_bind; [apply (y_env_intro e n (it_intro (va_item va)) He)|now (intros ? U; try exact U; destruct U)|]. intros e' He'.
  eapply y_bind; [apply y_lift, (y_vdataset e' _ (it_dataset (va_item va)) He')|..].
  { intros er U. left. exists va. split; [now left|exact U]. }
  intros d D. eapply y_bind; [eapply y_is_ok, (y_sub v g (it_value (va_item va)) e' _ He')|now (intros ? U; try exact U; destruct U)|].
  intros [|] Hb.
  - destruct Hb as (_ & DF & T). assert (VT1 : Variant_takes reg n (va_item va) v) by (constructor; [exact DF|exact T]).
    destruct sel as [d0|].
    + apply y_raise. right. split; [reflexivity|]. left. split; [discriminate|]. exists 0, va. auto.
    + eapply y_weak; [apply IH|..].
      * intros r [DA [[-> A]|[? _]]]; [|discriminate]. split; [intros vb [<-|Hv]; auto|]. right. split; [reflexivity|]. split; [discriminate|].
        exists 0, va. split; [reflexivity|]. split; [exact VT1|]. intros [|j] vb Hj NE; [congruence|]. apply A. eapply nth_error_In; exact Hj.
      * intros er [(vb & Hv & U)|[-> [(_ & i & vb & Hi & T2)|(i & j & vb & vc & NE & Hi & Hj & T1 & T2)]]].
        -- left. exists vb. split; [now right|exact U].
        -- right. split; [reflexivity|]. right. exists 0, (Datatypes.S i), va, vb. auto.
        -- right. split; [reflexivity|]. right. exists (Datatypes.S i), (Datatypes.S j), vb, vc. auto.
  - assert (VR1 : Variant_refuses reg n (va_item va) v).
    { destruct Hb as (er & [(x & V & L & _)|R]); [eapply VR_var; eauto|eapply VR_value; exact R]. }
    eapply y_weak; [apply IH|..].
    + intros r [DA [[-> A]|(-> & NR & i & vb & Hi & T & A)]].
      * split; [intros vb [<-|Hv]; auto|]. left. split; [reflexivity|]. intros vb [<-|Hv]; auto.
      * split; [intros vc [<-|Hv]; auto|]. right. split; [reflexivity|]. split; [exact NR|]. exists (Datatypes.S i), vb. split; [exact Hi|]. split; [exact T|].
        intros [|j] vc Hj NE; [injection Hj as <-; exact VR1|]. apply (A j); [exact Hj|congruence].
    + intros er [(vb & Hv & U)|[-> [(NS & i & vb & Hi & T2)|(i & j & vb & vc & NE & Hi & Hj & T1 & T2)]]].
      * left. exists vb. split; [now right|exact U].
      * right. split; [reflexivity|]. left. split; [exact NS|]. exists (Datatypes.S i), vb. auto.
      * right. split; [reflexivity|]. right. exists (Datatypes.S i), (Datatypes.S j), vb, vc. auto.
Qed.

(** ** Layouts *)

Lemma takes_layout ref n v l : reg ref = Some l -> simple l -> expects l = Some n ->
  (forall x, own_var l v x -> x < own_count l) -> right_kind l v ->
  (forall h fs m k f, l = ProductL h fs -> v = VMap m -> In (k, f) fs -> f_required f = true -> In k (map fst m)) ->
  (forall d it w, part l v d it w -> good d it w) -> Takes ref n v.
Proof.
  intros H SL N OV RK RQ PT. eapply T_layout; eauto.
  - intros d it w x P. exact (proj1 (PT _ _ _ P) x).
  - intros d it w P. exact (proj2 (PT _ _ _ P)).
Qed.

Lemma part_bad ref n v l d it w er : reg ref = Some l -> part l v d it w -> bad d it w er -> Refuses ref n v er.
Proof.
  intros H P [(x & V & L & ->)|R]; [|eapply R_part; eauto]. eapply R_part_var; eauto.
Qed.

Lemma header_bad ref n v l h er : reg ref = Some l -> header_of l = Some h -> undeclared (own_count l) (var_of (h_dataset h)) er -> Refuses ref n v er.
Proof. intros H Hh (x & V & L & ->). eapply R_own; eauto. left. eauto. Qed.

Lemma y_layout v g ref l inputs : reg ref = Some l -> (forall n, expects l = Some n -> length inputs = n) ->
  yields (fun _ => Takes ref (length inputs) v) (Refuses ref (length inputs) v) (dehydrate_layout ops rec v g ref l inputs).
Proof.
  intros H HN. set (n := length inputs) in *.
  assert (HR : has n (Root inputs)) by reflexivity.
  destruct l as [| |h c|k h r dt|h r p|h fs|h vs|h it|h node hd tl|h its]; cbn [dehydrate_layout].
  - apply y_raise. eapply R_kind; eauto.
  - apply y_ret. now apply T_anything.
  - pose proof (HN 1 eq_refl) as EN. destruct (eqb_spec v c) as [->|NE]; [|apply y_raise; eapply R_kind; eauto].
    eapply y_bind; [apply (y_open (Root inputs) n), HR|..].
    { intros er U. eapply header_bad; [exact H|reflexivity|]. rewrite EN in U. exact U. }
    intros e [_ D]. apply y_ret. rewrite EN in *. eapply takes_layout; eauto; try exact Logic.I; try reflexivity.
    + intros x [(h' & [= <-] & V)|[]]. now apply D.
    + discriminate.
    + intros d it w P. inversion P.
  - pose proof (HN 1 eq_refl) as EN. destruct v as [v|m|vs]; try (apply y_raise; eapply R_kind; [exact H|]; intros (? & [=] & _)).
    destruct (dehydrate_literal ops k v (into ops dt)) as [m|] eqn:EL.
    2:{ apply y_raise. eapply R_kind; [exact H|]. intros (x & [= <-] & K). destruct k, v; cbn in EL, K; try discriminate EL; contradiction. }
    assert (K : of_kind k v) by (destruct k, v; cbn in EL; try discriminate EL; exact Logic.I).
    eapply y_bind; [apply (y_open (Root inputs) n), HR|..].
    { intros er U. eapply header_bad; [exact H|reflexivity|]. rewrite EN in U. exact U. }
    intros e [He D]. eapply y_bind; [apply y_lift, (y_pattern e _ _ He)|..].
    { intros er (x & V & L & ->). eapply R_own; [exact H| |rewrite EN in L; exact L]. right. exact V. }
    intros res DR. apply (y_bind (fun _ => True) _ (fun _ => False)); [|now (intros ? U; try exact U; destruct U)|].
    { intros st. clear -EL. destruct k, v; cbn in EL; try discriminate EL; injection EL as <-.
      - unfold dehydrate_boolean. destruct (existsb _ _); exact Logic.I.
      - unfold dehydrate_number. destruct (number_literal _ _); exact Logic.I.
      - exact Logic.I.
      - unfold dehydrate_text_string. destruct (iris_in _ _ _); exact Logic.I. }
    intros lit _ st. cbn [assign_literalM fst post]. rewrite EN in *. eapply takes_layout; eauto; try exact Logic.I; try reflexivity.
    + intros x [(h' & [= <-] & V)|V]; [now apply D|now apply DR].
    + cbn. eauto.
    + discriminate.
    + intros d it w P. inversion P.
  - pose proof (HN 1 eq_refl) as EN. destruct v as [[| | | |s]|m|vs]; try (apply y_raise; eapply R_kind; [exact H|]; intros (? & [=] & _)).
    eapply y_bind; [apply (y_open (Root inputs) n), HR|..].
    { intros er U. eapply header_bad; [exact H|reflexivity|]. rewrite EN in U. exact U. }
    intros e [He D]. eapply y_bind; [apply y_lift, (y_pattern e _ _ He)|..].
    { intros er (x & V & L & ->). eapply R_own; [exact H| |rewrite EN in L; exact L]. right. exact V. }
    intros res DR. destruct (is_iri s) eqn:IR; [|apply y_raise; eapply R_kind; [exact H|]; intros (s' & [= <-] & K); congruence].
    intros st. cbn [assign_iriM fst post]. rewrite EN in *. eapply takes_layout; eauto; try exact Logic.I; try reflexivity.
    + intros x [(h' & [= <-] & V)|V]; [now apply D|now apply DR].
    + cbn. eauto.
    + discriminate.
    + intros d it w P. inversion P.
  - pose proof (HN _ eq_refl) as EN. destruct v as [v|m|vs]; try (apply y_raise; eapply R_kind; [exact H|]; intros (? & [=] & _)).
    eapply y_bind; [apply (y_open (Root inputs) n), HR|..].
    { intros er U. eapply header_bad; [exact H|reflexivity|]. rewrite EN in U. exact U. }
    intros e [He D]. eapply y_bind; [apply (y_entries g e _ fs He)|..].
    { intros er [(-> & k & K1 & K2)|(k & f & w & K1 & K2 & B)].
      - eapply R_kind; [exact H|]. intros (m' & [= <-] & A). auto.
      - rewrite EN in B. eapply part_bad; [exact H| |exact B]. econstructor; eauto. }
    intros ? A st. destruct (check_required_cases ref m fs st) as [[E R]|(k & f & E & K1 & K2 & K3)]; rewrite E; cbn [fst post].
    2:{ eapply R_required; eauto. }
    rewrite EN in *. eapply takes_layout; eauto; try exact Logic.I; try reflexivity.
    + intros x [(h' & [= <-] & V)|[]]. now apply D.
    + exists m. split; [reflexivity|]. intros k Hk. apply in_map_iff in Hk as ([k' w] & <- & Hk). destruct (A _ _ Hk) as (f & G & _).
      apply bt_get_In in G. now apply (in_map fst) in G.
    + intros h' fs' m' k f [= <- <-] [= <-]. apply R.
    + intros d it w P. inversion P as [? ? ? k f ? Hf Hw| | |]; subst. destruct (A _ _ Hw) as (f' & G & Good).
      assert (f' = f) as ->; [|exact Good]. apply bt_get_wf in Hf; [congruence|]. exact (RS _ _ H).
  - pose proof (HN _ eq_refl) as EN.
    eapply y_bind; [apply (y_open (Root inputs) n), HR|..].
    { intros er U. eapply header_bad; [exact H|reflexivity|]. rewrite EN in U. exact U. }
    intros e [He D]. rewrite EN in *. eapply y_bind; [apply (y_variants v g e _ He)|..].
    { intros er [(vb & Hv & (x & V & L & ->))|[-> [[? _]|(i & j & va & vb & NE & Hi & Hj & T1 & T2)]]].
      - eapply R_variant_var; eauto.
      - congruence.
      - eapply R_several; [exact H|exact NE|eauto..]. }
    intros r [DA [[-> A]|(_ & NR & i & va & Hi & T & A)]].
    + apply y_raise. eapply R_no_variant; eauto.
    + destruct r as [d|]; [|congruence]. intros st. cbn [emit fst post]. eapply T_choice; eauto. intros vb x Hv V. exact (DA _ Hv _ V).
  - pose proof (HN _ eq_refl) as EN. destruct v as [v|m|vs]; try (apply y_raise; eapply R_kind; [exact H|]; intros (? & [=])).
    eapply y_bind; [apply (y_open (Root inputs) n), HR|..].
    { intros er U. eapply header_bad; [exact H|reflexivity|]. rewrite EN in U. exact U. }
    intros e [He D]. rewrite EN in *. eapply y_weak; [apply (y_items g e _ it He)|..].
    + intros ? A. eapply takes_layout; eauto; try exact Logic.I; try reflexivity.
      * intros x [(h' & [= <-] & V)|[]]. now apply D.
      * cbn. eauto.
      * discriminate.
      * intros d it' w P. inversion P; subst. apply A. assumption.
    + intros er (w & Hw & B). eapply part_bad; [exact H| |exact B]. now constructor.
  - pose proof (HN _ eq_refl) as EN. destruct v as [v|m|vs]; try (apply y_raise; eapply R_kind; [exact H|]; intros (? & [=])).
    eapply y_bind; [apply (y_open (Root inputs) n), HR|..].
    { intros er U. eapply header_bad; [exact H|reflexivity|]. rewrite EN in U. exact U. }
    intros e [He D]. rewrite EN in *. eapply y_bind; [apply y_lift, (y_pattern e _ hd He)|..].
    { intros er (x & V & L & ->). eapply R_own; [exact H| |exact L]. right. now left. }
    intros head DH. eapply y_weak; [apply (y_nodes g e _ node tl He)|..].
    + intros ? [A T]. eapply takes_layout; eauto; try exact Logic.I; try reflexivity.
      * intros x [(h' & [= <-] & V)|[V|[V NE]]]; [now apply D|now apply DH|]. apply T; [congruence|exact V].
      * cbn. eauto.
      * discriminate.
      * intros d it' w P. inversion P; subst. apply A. assumption.
    + intros er [(w & Hw & B)|[NE (x & V & L & ->)]].
      * eapply part_bad; [exact H| |exact B]. now constructor.
      * eapply R_own; [exact H| |exact L]. right. right. split; [exact V|congruence].
  - pose proof (HN _ eq_refl) as EN. destruct v as [v|m|vs]; try (apply y_raise; eapply R_kind; [exact H|]; intros (? & [=] & _)).
    eapply y_bind; [apply (y_open (Root inputs) n), HR|..].
    { intros er U. eapply header_bad; [exact H|reflexivity|]. rewrite EN in U. exact U. }
    intros e [He D]. rewrite EN in *. eapply y_weak; [apply (y_tuple g e _ He)|..].
    + intros ? A. eapply takes_layout; eauto; try exact Logic.I; try reflexivity.
      * intros x [(h' & [= <-] & V)|[]]. now apply D.
      * exists vs. split; [reflexivity|]. clear -A. induction A; cbn; congruence.
      * discriminate.
      * intros d it' w P. inversion P as [| | |? ? ? i ? ? Hi Hw]; subst. clear -A Hi Hw. revert i Hi Hw.
        induction A as [|it0 w0 its0 vs0 G A IH]; intros [|i] Hi Hw; try discriminate; [injection Hi as <-; injection Hw as <-; exact G|eauto].
    + intros er [[-> L]|(i & it & w & Hi & Hw & B)].
      * eapply R_kind; [exact H|]. intros (vs' & [= <-] & E). auto.
      * eapply part_bad; [exact H| |exact B]. econstructor; eauto.
Qed.

Lemma y_body v g ref inputs :
  yields (fun _ => Takes ref (length inputs) v) (Refuses ref (length inputs) v) (dehydrate_body ops reg rec v g ref inputs).
Proof.
  unfold dehydrate_body. destruct (reg ref) as [l|] eqn:E; [|apply y_raise; now apply R_undefined].
  change (input_count l) with (expects l). destruct (expects l) as [n|] eqn:N.
  - destruct (Nat.eqb_spec n (length inputs)) as [L|L].
    + apply y_layout; [exact E|]. intros n'. congruence.
    + apply y_raise. eapply R_count; eauto.
  - apply y_layout; [exact E|]. intros n'. congruence.
Qed.
End Body.

Theorem dehydrate_yields fuel : forall v g ref inputs,
  yields (fun _ => Takes ref (length inputs) v) (Refuses ref (length inputs) v) (dehydrate_with ops reg fuel v g ref inputs).
Proof.
  induction fuel as [|fuel IH]; intros v g ref inputs; [intros st; exact Logic.I|]. cbn [dehydrate_with]. apply y_body, IH.
Qed.
End Outcomes.

(** ** The two judgements exclude each other *)
Section Exclusive.
Context {Q : Type} {IS : IriSyntax}.
Variable reg : registry Q.

Lemma exclusive :
  (forall ref n v, Takes reg ref n v -> forall e, ~ Refuses reg ref n v e) /\
  (forall d it v, Variant_takes reg d it v -> ~ Variant_refuses reg d it v) /\
  (forall d it v, Variant_refuses reg d it v -> ~ Variant_takes reg d it v) /\
  (forall ref n v e, Refuses reg ref n v e -> ~ Takes reg ref n v).
Proof.
  apply accept_ind.
  - intros ref n v H e R. inversion R; subst; try congruence.
    + rewrite H in *. injection H0 as <-. discriminate.
    + rewrite H in *. injection H0 as <-. now apply H1.
    + rewrite H in *. injection H0 as <-. destruct H1 as [(h & [=] & _)|[]].
    + rewrite H in *. injection H0 as <-. inversion H1.
    + rewrite H in *. injection H0 as <-. inversion H1.
  - intros ref n v l H SL N OV RK RQ PD _ PT e R.
    inversion R as [? ? ? H'|? ? ? ? ? H' N' NE|? ? ? ? H' NK|? ? ? ? ? H' V L|? ? ? ? ? ? ? H' Hf Rf NI|? ? ? ? ? ? ? ? H' P V L|? ? ? ? ? ? ? ? H' P R'|
      ? ? ? ? ? ? ? H'|? ? ? ? ? H'|? ? ? ? ? ? ? ? ? H']; subst; rewrite H in H'; try discriminate H'; first [injection H' as <-|injection H' as ->].
    + congruence.
    + auto.
    + specialize (OV _ V). lia.
    + apply NI. eapply RQ; eauto.
    + specialize (PD _ _ _ _ P V). lia.
    + exact (PT _ _ _ P _ R').
    + destruct SL.
    + destruct SL.
    + destruct SL.
  - intros ref n v h vs i va H -> DH DV Hi VT1 T A NR e R.
    inversion R as [? ? ? H'|? ? ? ? ? H' N' NE|? ? ? ? H' NK|? ? ? ? ? H' V L|? ? ? ? ? ? ? H' Hf Rf NI|? ? ? ? ? ? ? ? H' P V L|? ? ? ? ? ? ? ? H' P R'|
      ? ? ? ? ? ? ? H' Hv V L|? ? ? ? ? H' AR|? ? ? ? ? i' j' ? ? H' NE Hi' Hj' T1 T2]; subst; rewrite H in H'; try discriminate H'; injection H' as ?; subst.
    + cbn in N'. congruence.
    + apply NK. exact Logic.I.
    + destruct V as [(h' & [= <-] & V)|[]]. specialize (DH _ V). cbn in L. lia.
    + inversion P.
    + inversion P.
    + specialize (DV _ _ Hv V). lia.
    + apply T. apply AR. eapply nth_error_In; exact Hi.
    + destruct (Nat.eq_dec i' i) as [->|NE']; [|exact (NR _ _ Hi' NE' T1)]. exact (NR _ _ Hj' (not_eq_sym NE) T2).
  - intros d it v DF T IH R. inversion R as [? ? ? x V L|? ? ? e R']; subst; [specialize (DF _ V); lia|exact (IH _ R')].
  - intros d it v x V L T. inversion T as [? ? ? D _]; subst. specialize (D _ V). lia.
  - intros d it v e R IH T. inversion T; subst. auto.
  - intros ref n v H T. inversion T; congruence.
  - intros ref n v l k H N NE T. inversion T as [? ? ? H'|? ? ? l' H' SL N'|? ? ? h vs i va H' ->]; subst; rewrite H in H'; injection H' as ->; cbn in N; congruence.
  - intros ref n v l H NK T. inversion T as [? ? ? H'|? ? ? l' H' SL N' OV RK|? ? ? h vs i va H' ->]; subst; rewrite H in H'; injection H' as ->; apply NK; [exact Logic.I|exact RK|exact Logic.I].
  - intros ref n v l x H V L T. inversion T as [? ? ? H'|? ? ? l' H' SL N' OV RK|? ? ? h vs i va H' -> DH]; subst; rewrite H in H'; injection H' as ->.
    + destruct V as [(h & [=] & _)|[]].
    + specialize (OV _ V). lia.
    + destruct V as [(h' & [= <-] & V)|[]]. specialize (DH _ V). cbn in L. lia.
  - intros ref n h fs m k f H Hf Rf NI T. inversion T as [? ? ? H'|? ? ? l' H' SL N' OV RK RQ|? ? ? ? vs i va H' -> DH]; subst; rewrite H in H'; try discriminate H'. injection H' as <-.
    apply NI. eapply RQ; eauto.
  - intros ref n v l d it w x H P V L T. inversion T as [? ? ? H'|? ? ? l' H' SL N' OV RK RQ PD PT|? ? ? h vs i va H' -> DH]; subst; rewrite H in H'; injection H' as ->.
    + inversion P.
    + specialize (PD _ _ _ _ P V). lia.
    + inversion P.
  - intros ref n v l d it w e H P R IH T. inversion T as [? ? ? H'|? ? ? l' H' SL N' OV RK RQ PD PT|? ? ? h vs i va H' -> DH]; subst; rewrite H in H'; injection H' as ->.
    + inversion P.
    + exact (IH (PT _ _ _ P)).
    + inversion P.
  - intros ref n v h vs va x H Hv V L T. inversion T as [? ? ? H'|? ? ? l' H' SL|? ? ? h' vs' i va' H' EN DH DV]; subst; rewrite H in H'; try discriminate H'.
    + injection H' as <-. destruct SL.
    + injection H' as <- <-. specialize (DV _ _ Hv V). lia.
  - intros ref n v h vs H A NT T. inversion T as [? ? ? H'|? ? ? l' H' SL|? ? ? h' vs' i va' H' EN DH DV Hi T']; subst; rewrite H in H'; try discriminate H'.
    + injection H' as <-. destruct SL.
    + injection H' as <- <-. apply (NT va'); [eapply nth_error_In; exact Hi|exact T'].
  - intros ref n v h vs i j va vb H NE Hi Hj T1 N1 T2 N2 T. inversion T as [? ? ? H'|? ? ? l' H' SL|? ? ? h' vs' k va' H' EN DH DV Hk T' A]; subst; rewrite H in H'; try discriminate H'.
    + injection H' as <-. destruct SL.
    + injection H' as <- <-. destruct (Nat.eq_dec i k) as [->|NE']; [|exact (N1 (A _ _ Hi NE'))]. exact (N2 (A _ _ Hj (not_eq_sym NE))).
Qed.
End Exclusive.
