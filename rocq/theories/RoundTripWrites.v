(** * What the dehydration of a tree writes, exactly *)

From Coq Require Import String List Bool Arith NArith Lia Qcanon Permutation Sorted.
Import ListNotations.
From Verif Require Import Base BaseProofs Orders PatternModel ValueModel ValueProofs LayoutModel HydrateModel TermModel
  LayoutSpec DehydrateModel DehydrateSpec DehydrateProofs DehydrateEmits DehydrateFinish RoundTripSpec.
Open Scope list_scope.
Open Scope nat_scope.

Definition in_range (lo hi : nat) (r : res) : Prop := exists i, r = RAnon i /\ lo <= i < hi.
Definition outside (lo : nat) (r : res) : Prop := forall hi, ~ in_range lo hi r.

Definition triple (s : res) (p : term) (o : res) : quad res := Quad s (RTerm p) o None.
Definition said (s : res) (ps : list (term * term)) : list (quad res) :=
  map (fun po => triple s (fst po) (RTerm (snd po))) ps.

Section Wrote.
Context {X : Xsd} {IS : IriSyntax}.
Variable reg : registry term.
Variable A : res -> term -> Prop.

(** [leaf_term ref v t]: the leaf layout [ref] writes [v] as the term [t]. *)
Inductive leaf_term : term -> value -> term -> Prop :=
| lt_data ref k ty v l :
    reg ref = Some (data_layout k ty) -> literal_form (type_iri RTerm A (TmIri ty)) k v l ->
    leaf_term ref (VLit v) (TmLit l)
| lt_id ref pat s :
    reg ref = Some (IdL (about []) (PVar 0) pat) -> leaf_term ref (VLit (LText s)) (TmIri s)
| lt_choice ref vs n r v t :
    reg ref = Some (choice_layout vs) -> In (n, r) vs -> leaf_term r v t -> leaf_term ref v t.

(** [Wrote lo hi ref s v Q ids nodes]: the layout [ref] wrote the value [v] on the node [s] as the quads [Q], using the
    anonymous resources from [lo] to [hi]; [ids] are the identifiers given to nodes, [nodes] the nodes that
    may have properties. *)
Inductive Wrote : nat -> nat -> term -> res -> value ->
  list (quad res) -> list (res * string) -> list res -> Prop :=
| W_leaf n ref s v t : leaf_term ref v t -> A s t -> Wrote n n ref s v [] [] []
| W_unit n ref s ps c : reg ref = Some (UnitL (about ps) c) -> Wrote n n ref s c (said s ps) [] [s]
| W_record n n' ref s ps fs m Q ids nodes kids :
    reg ref = Some (record_layout ps fs) -> WE n n' s fs m Q ids nodes kids ->
    (forall k r, In (k, Own r) fs -> In k (map fst m)) ->
    (forall k p r, In (k, Link p true r) fs -> In k (map fst m)) ->
    Wrote n n' ref s (VMap m) (said s ps ++ Q) ids (s :: nodes)
| W_tuple n n' ref s ps its l Q ids nodes cs :
    reg ref = Some (tuple_layout ps its) -> WT n n' s its l Q ids nodes cs ->
    Wrote n n' ref s (VList l) (said s ps ++ Q) ids (s :: nodes)
| W_set n n' ref s ps p r l Q ids nodes cs :
    reg ref = Some (set_layout ps p r) -> WT n n' s (repeat (p, r) (length l)) l Q ids nodes cs ->
    Wrote n n' ref s (VList l) (said s ps ++ Q) ids (s :: nodes)
| W_list n n' ref s ps first rest nil r l Q ids nodes :
    reg ref = Some (list_layout ps first rest nil r) -> WN n n' first rest nil r s l Q ids nodes ->
    Wrote n n' ref s (VList l) (said s ps ++ Q) ids nodes
| W_tagged n n' ref s ps p vs name tag r v Q ids nodes :
    reg ref = Some (tagged_layout ps p vs) -> In (name, (tag, r)) vs -> ~ leaf reg r -> Proper reg r v ->
    Wrote n n' r s v Q ids nodes ->
    Wrote n n' ref s v (said s ((p, tag) :: ps) ++ Q) ids nodes
with WE : nat -> nat -> res -> list (value * component) -> list (value * value) ->
  list (quad res) -> list (res * string) -> list res -> list (value * res) -> Prop :=
| WE_nil n s fs : WE n n s fs [] [] [] [] []
| WE_id n n' s fs k r pat i m Q ids nodes kids :
    In (k, Own r) fs -> reg r = Some (IdL (about []) (PVar 0) pat) -> A s (TmIri i) ->
    WE n n' s fs m Q ids nodes kids ->
    WE n n' s fs ((k, VLit (LText i)) :: m) Q ((s, i) :: ids) nodes kids
| WE_own n n1 n' s fs k r v m Q1 ids1 nodes1 Q2 ids2 nodes2 kids :
    In (k, Own r) fs -> ~ leaf reg r -> Wrote n n1 r s v Q1 ids1 nodes1 ->
    WE n1 n' s fs m Q2 ids2 nodes2 kids ->
    WE n n' s fs ((k, v) :: m) (Q1 ++ Q2) (ids1 ++ ids2) (nodes1 ++ nodes2) kids
| WE_link n n1 n' s fs k p b r v m Q1 ids1 nodes1 Q2 ids2 nodes2 kids :
    In (k, Link p b r) fs -> Wrote (S n) n1 r (RAnon n) v Q1 ids1 nodes1 ->
    WE n1 n' s fs m Q2 ids2 nodes2 kids ->
    WE n n' s fs ((k, v) :: m) (triple s p (RAnon n) :: Q1 ++ Q2) (ids1 ++ ids2) (nodes1 ++ nodes2)
      ((k, RAnon n) :: kids)
with WT : nat -> nat -> res -> list (term * term) -> list value ->
  list (quad res) -> list (res * string) -> list res -> list res -> Prop :=
| WT_nil n s : WT n n s [] [] [] [] [] []
| WT_cons n n1 n' s p r its v l Q1 ids1 nodes1 Q2 ids2 nodes2 cs :
    Wrote (S n) n1 r (RAnon n) v Q1 ids1 nodes1 ->
    WT n1 n' s its l Q2 ids2 nodes2 cs ->
    WT n n' s ((p, r) :: its) (v :: l) (triple s p (RAnon n) :: Q1 ++ Q2) (ids1 ++ ids2)
      (nodes1 ++ nodes2) (RAnon n :: cs)
with WN : nat -> nat -> term -> term -> term -> term -> res -> list value ->
  list (quad res) -> list (res * string) -> list res -> Prop :=
| WN_last n n' first rest nil r head v Q ids nodes :
    Wrote (S n) n' r (RAnon n) v Q ids nodes ->
    WN n n' first rest nil r head [v] (triple head first (RAnon n) :: triple head rest (RTerm nil) :: Q)
      ids (head :: nodes)
| WN_cons n n1 n' first rest nil r head v l Q1 ids1 nodes1 Q2 ids2 nodes2 :
    l <> [] ->
    Wrote (S (S n)) n1 r (RAnon (S n)) v Q1 ids1 nodes1 ->
    WN n1 n' first rest nil r (RAnon n) l Q2 ids2 nodes2 ->
    WN n n' first rest nil r head (v :: l)
      (triple head first (RAnon (S n)) :: triple head rest (RAnon n) :: Q1 ++ Q2)
      (ids1 ++ ids2) (head :: nodes1 ++ nodes2).
End Wrote.

Scheme Wrote_min := Minimality for Wrote Sort Prop
  with WE_min := Minimality for WE Sort Prop
  with WT_min := Minimality for WT Sort Prop
  with WN_min := Minimality for WN Sort Prop.
Combined Scheme Wrote_mutind from Wrote_min, WE_min, WT_min, WN_min.

Section WroteFacts.
Context {X : Xsd} {IS : IriSyntax}.
Variable reg : registry term.

(** More assignments. *)
Lemma leaf_term_mono (A A' : res -> term -> Prop) ref v t :
  (forall r t, A r t -> A' r t) -> leaf_term reg A ref v t -> leaf_term reg A' ref v t.
Proof.
  intros HA H. induction H.
  - eapply lt_data; [eassumption|]. eapply literal_form_mono; [|eassumption]. intros ty' [E|E]; [now left|right; auto].
  - eapply lt_id; eassumption.
  - eapply lt_choice; eassumption.
Qed.

Lemma Wrote_mono (A A' : res -> term -> Prop) : (forall r t, A r t -> A' r t) ->
  (forall n n' ref s v Q ids nodes, Wrote reg A n n' ref s v Q ids nodes -> Wrote reg A' n n' ref s v Q ids nodes) /\
  (forall n n' s fs m Q ids nodes kids, WE reg A n n' s fs m Q ids nodes kids -> WE reg A' n n' s fs m Q ids nodes kids) /\
  (forall n n' s its l Q ids nodes cs, WT reg A n n' s its l Q ids nodes cs -> WT reg A' n n' s its l Q ids nodes cs) /\
  (forall n n' first rest nil r head l Q ids nodes,
     WN reg A n n' first rest nil r head l Q ids nodes -> WN reg A' n n' first rest nil r head l Q ids nodes).
Proof.
  intro HA. apply Wrote_mutind; intros; try (econstructor; eauto; fail).
  econstructor; [|eauto]. eapply leaf_term_mono; eassumption.
Qed.

Lemma in_range_weak lo hi lo' hi' r : in_range lo hi r -> lo' <= lo -> hi <= hi' -> in_range lo' hi' r.
Proof. intros (i & -> & H) H1 H2. exists i. split; [reflexivity|lia]. Qed.
Lemma in_range_here lo hi n : lo <= n < hi -> in_range lo hi (RAnon n).
Proof. intro H. exists n. auto. Qed.
Lemma in_range_disjoint lo hi lo' hi' r : in_range lo hi r -> in_range lo' hi' r -> hi <= lo' -> False.
Proof. intros (i & -> & H) (i' & [= <-] & H') L. lia. Qed.
Lemma outside_weak lo lo' r : outside lo r -> lo <= lo' -> outside lo' r.
Proof. intros H L hi Hr. apply (H hi). eapply in_range_weak; [exact Hr|exact L|lia]. Qed.
Lemma outside_anon lo n : n < lo -> outside lo (RAnon n).
Proof. intros H hi (i & [= <-] & H'). lia. Qed.
Lemma outside_input lo i : outside lo (RInput i).
Proof. intros hi (j & [=] & _). Qed.

Lemma said_In s ps q : In q (said s ps) -> q_s q = s /\ exists p o, In (p, o) ps /\ q = triple s p (RTerm o).
Proof.
  intro H. apply in_map_iff in H as ([p o] & <- & H). split; [reflexivity|]. eauto.
Qed.

Variable A : res -> term -> Prop.
Notation Wrote := (Wrote reg A).
Notation WE := (WE reg A).
Notation WT := (WT reg A).
Notation WN := (WN reg A).

Definition bounds lo hi (s : res) (Q : list (quad res)) (nodes : list res) : Prop :=
  lo <= hi /\
  (forall q, In q Q -> q_s q = s \/ in_range lo hi (q_s q)) /\
  (forall r, In r nodes -> r = s \/ in_range lo hi r).

Ltac via H :=
  let E := fresh in
  destruct H as [E|E];
  [first [now left|right; rewrite E; apply in_range_here; lia|right; subst; apply in_range_here; lia]
  |right; eapply in_range_weak; [exact E|lia|lia]].

Lemma Wrote_bounds :
  (forall n n' ref s v Q ids nodes, Wrote n n' ref s v Q ids nodes -> bounds n n' s Q nodes) /\
  (forall n n' s fs m Q ids nodes kids, WE n n' s fs m Q ids nodes kids ->
     bounds n n' s Q nodes /\ forall k c, In (k, c) kids -> in_range n n' c) /\
  (forall n n' s its l Q ids nodes cs, WT n n' s its l Q ids nodes cs ->
     bounds n n' s Q nodes /\ forall c, In c cs -> in_range n n' c) /\
  (forall n n' first rest nil r head l Q ids nodes,
     WN n n' first rest nil r head l Q ids nodes -> bounds n n' head Q nodes).
Proof.
  apply Wrote_mutind; unfold bounds.
  - intros. split; [lia|]. split; intros ? [].
  - intros. split; [lia|]. split; [intros q Hq; left; now apply said_In in Hq|]. intros r [<-|[]]. now left.
  - intros n n' ref s ps fs m Q ids nodes kids _ _ ((L & HQ & HN) & _) _ _. split; [exact L|]. split.
    + intros q Hq. apply in_app_iff in Hq as [Hq|Hq]; [left; now apply said_In in Hq|auto].
    + intros r [<-|Hr]; auto.
  - intros n n' ref s ps its l Q ids nodes cs _ _ ((L & HQ & HN) & _). split; [exact L|]. split.
    + intros q Hq. apply in_app_iff in Hq as [Hq|Hq]; [left; now apply said_In in Hq|auto].
    + intros r [<-|Hr]; auto.
  - intros n n' ref s ps p r l Q ids nodes cs _ _ ((L & HQ & HN) & _). split; [exact L|]. split.
    + intros q Hq. apply in_app_iff in Hq as [Hq|Hq]; [left; now apply said_In in Hq|auto].
    + intros r0 [<-|Hr]; auto.
  - intros n n' ref s ps first rest nil r l Q ids nodes _ _ (L & HQ & HN). split; [exact L|]. split.
    + intros q Hq. apply in_app_iff in Hq as [Hq|Hq]; [left; now apply said_In in Hq|auto].
    + auto.
  - intros n n' ref s ps p vs name tag r v Q ids nodes _ _ _ _ _ (L & HQ & HN). split; [exact L|]. split.
    + intros q Hq. apply in_app_iff in Hq as [Hq|Hq]; [left; now apply said_In in Hq|auto].
    + auto.
  - intros. split; [split; [lia|]; split; intros ? []|intros ? ? []].
  - intros n n' s fs k r pat i m Q ids nodes kids _ _ _ _ H. exact H.
  - intros n n1 n' s fs k r v m Q1 ids1 nodes1 Q2 ids2 nodes2 kids _ _ _ (L1 & HQ1 & HN1) _ ((L2 & HQ2 & HN2) & HK).
    split; [split; [lia|]; split|].
    + intros q Hq. apply in_app_iff in Hq as [Hq|Hq]; [apply HQ1 in Hq|apply HQ2 in Hq]; via Hq.
    + intros r0 Hr. apply in_app_iff in Hr as [Hr|Hr]; [apply HN1 in Hr|apply HN2 in Hr]; via Hr.
    + intros k0 c Hc. apply HK in Hc. eapply in_range_weak; [exact Hc|lia|lia].
  - intros n n1 n' s fs k p b r v m Q1 ids1 nodes1 Q2 ids2 nodes2 kids _ _ (L1 & HQ1 & HN1) _ ((L2 & HQ2 & HN2) & HK).
    split; [split; [lia|]; split|].
    + intros q [<-|Hq]; [now left|]. apply in_app_iff in Hq as [Hq|Hq]; [apply HQ1 in Hq|apply HQ2 in Hq]; via Hq.
    + intros r0 Hr. apply in_app_iff in Hr as [Hr|Hr]; [apply HN1 in Hr|apply HN2 in Hr]; via Hr.
    + intros k0 c [[= <- <-]|Hc]; [apply in_range_here; lia|]. apply HK in Hc. eapply in_range_weak; [exact Hc|lia|lia].
  - intros. split; [split; [lia|]; split; intros ? []|intros ? []].
  - intros n n1 n' s p r its v l Q1 ids1 nodes1 Q2 ids2 nodes2 cs _ (L1 & HQ1 & HN1) _ ((L2 & HQ2 & HN2) & HK).
    split; [split; [lia|]; split|].
    + intros q [<-|Hq]; [now left|]. apply in_app_iff in Hq as [Hq|Hq]; [apply HQ1 in Hq|apply HQ2 in Hq]; via Hq.
    + intros r0 Hr. apply in_app_iff in Hr as [Hr|Hr]; [apply HN1 in Hr|apply HN2 in Hr]; via Hr.
    + intros c [<-|Hc]; [apply in_range_here; lia|]. apply HK in Hc. eapply in_range_weak; [exact Hc|lia|lia].
  - intros n n' first rest nil r head v Q ids nodes _ (L & HQ & HN). split; [lia|]. split.
    + intros q [<-|[<-|Hq]]; [now left|now left|]. apply HQ in Hq. via Hq.
    + intros r0 [<-|Hr]; [now left|]. apply HN in Hr. via Hr.
  - intros n n1 n' first rest nil r head v l Q1 ids1 nodes1 Q2 ids2 nodes2 _ _ (L1 & HQ1 & HN1) _ (L2 & HQ2 & HN2).
    split; [lia|]. split.
    + intros q [<-|[<-|Hq]]; [now left|now left|]. apply in_app_iff in Hq as [Hq|Hq]; [apply HQ1 in Hq|apply HQ2 in Hq]; via Hq.
    + intros r0 [<-|Hr]; [now left|]. apply in_app_iff in Hr as [Hr|Hr]; [apply HN1 in Hr|apply HN2 in Hr]; via Hr.
Qed.

(** A layout that is not a leaf makes its node one that may have properties. *)
Lemma leaf_term_leaf ref v t : leaf_term reg A ref v t -> leaf reg ref.
Proof.
  intro H. unfold leaf. destruct H as [? ? ? ? ? E|? ? ? E|? ? ? ? ? ? E]; rewrite E; [exact I|exact I|].
  unfold untagged. apply forallb_forall. intros x Hx. apply in_map_iff in Hx as (y & <- & _). reflexivity.
Qed.

Lemma WN_head n n' first rest nil r head l Q ids nodes :
  WN n n' first rest nil r head l Q ids nodes -> In head nodes.
Proof. intros []; now left. Qed.

Lemma Wrote_node n n' ref s v Q ids nodes : Wrote n n' ref s v Q ids nodes -> ~ leaf reg ref -> In s nodes.
Proof.
  intros W. induction W; intro NL; try now left.
  - exfalso. eapply NL, leaf_term_leaf; eassumption.
  - eapply WN_head; eassumption.
  - auto.
Qed.

(** The nodes created are objects of quads. *)
Lemma Wrote_objects :
  (forall n n' ref s v Q ids nodes, Wrote n n' ref s v Q ids nodes ->
     forall r, In r nodes -> r = s \/ exists q, In q Q /\ q_o q = r) /\
  (forall n n' s fs m Q ids nodes kids, WE n n' s fs m Q ids nodes kids ->
     forall r, In r nodes -> r = s \/ exists q, In q Q /\ q_o q = r) /\
  (forall n n' s its l Q ids nodes cs, WT n n' s its l Q ids nodes cs ->
     forall r, In r nodes -> r = s \/ exists q, In q Q /\ q_o q = r) /\
  (forall n n' first rest nil r head l Q ids nodes, WN n n' first rest nil r head l Q ids nodes ->
     forall r, In r nodes -> r = head \/ exists q, In q Q /\ q_o q = r).
Proof.
  apply Wrote_mutind.
  - intros ? ? ? ? ? _ _ r [].
  - intros ? ? ? ? ? _ r [<-|[]]. now left.
  - intros * _ _ IH _ _ r [<-|H]; [now left|]. destruct (IH r H) as [E|(q & Hq & E)]; [auto|]. right. exists q. split; [apply in_app_iff; auto|exact E].
  - intros * _ _ IH r0 [<-|H]; [now left|]. destruct (IH r0 H) as [E|(q & Hq & E)]; [auto|]. right. exists q. split; [apply in_app_iff; auto|exact E].
  - intros * _ _ IH r0 [<-|H]; [now left|]. destruct (IH r0 H) as [E|(q & Hq & E)]; [auto|]. right. exists q. split; [apply in_app_iff; auto|exact E].
  - intros * _ _ IH r0 H. destruct (IH r0 H) as [E|(q & Hq & E)]; [auto|]. right. exists q. split; [apply in_app_iff; auto|exact E].
  - intros * _ _ _ _ _ IH r0 H. destruct (IH r0 H) as [E|(q & Hq & E)]; [auto|]. right. exists q. split; [apply in_app_iff; auto|exact E].
  - intros n s fs r0 [].
  - intros * _ _ _ _ IH. exact IH.
  - intros * _ _ _ IH1 _ IH2 r0 H. apply in_app_iff in H as [H|H].
    + destruct (IH1 r0 H) as [E|(q & Hq & E)]; [auto|]. right. exists q. split; [apply in_app_iff; auto|exact E].
    + destruct (IH2 r0 H) as [E|(q & Hq & E)]; [auto|]. right. exists q. split; [apply in_app_iff; auto|exact E].
  - intros * _ _ IH1 _ IH2 r0 H. apply in_app_iff in H as [H|H].
    + right. destruct (IH1 r0 H) as [-> |(q & Hq & E)]; [eexists; split; [now left|reflexivity]|]. exists q. split; [right; apply in_app_iff; auto|exact E].
    + destruct (IH2 r0 H) as [E|(q & Hq & E)]; [auto|]. right. exists q. split; [right; apply in_app_iff; auto|exact E].
  - intros n s r0 [].
  - intros * _ IH1 _ IH2 r0 H. apply in_app_iff in H as [H|H].
    + right. destruct (IH1 r0 H) as [-> |(q & Hq & E)]; [eexists; split; [now left|reflexivity]|]. exists q. split; [right; apply in_app_iff; auto|exact E].
    + destruct (IH2 r0 H) as [E|(q & Hq & E)]; [auto|]. right. exists q. split; [right; apply in_app_iff; auto|exact E].
  - intros * _ IH r0 [<-|H]; [now left|]. right.
    destruct (IH r0 H) as [-> |(q & Hq & E)]; [eexists; split; [now left|reflexivity]|]. exists q. split; [right; right; auto|exact E].
  - intros * _ _ IH1 _ IH2 r0 [<-|H]; [now left|]. right. apply in_app_iff in H as [H|H].
    + destruct (IH1 r0 H) as [-> |(q & Hq & E)]; [eexists; split; [now left|reflexivity]|]. exists q. split; [right; right; apply in_app_iff; auto|exact E].
    + destruct (IH2 r0 H) as [-> |(q & Hq & E)]; [eexists; split; [right; now left|reflexivity]|]. exists q. split; [right; right; apply in_app_iff; auto|exact E].
Qed.

(** The subjects are nodes. *)
Lemma Wrote_subjects :
  (forall n n' ref s v Q ids nodes, Wrote n n' ref s v Q ids nodes -> forall q, In q Q -> In (q_s q) nodes) /\
  (forall n n' s fs m Q ids nodes kids, WE n n' s fs m Q ids nodes kids -> forall q, In q Q -> q_s q = s \/ In (q_s q) nodes) /\
  (forall n n' s its l Q ids nodes cs, WT n n' s its l Q ids nodes cs -> forall q, In q Q -> q_s q = s \/ In (q_s q) nodes) /\
  (forall n n' first rest nil r head l Q ids nodes, WN n n' first rest nil r head l Q ids nodes ->
     forall q, In q Q -> In (q_s q) nodes).
Proof.
  apply Wrote_mutind.
  - intros ? ? ? ? ? _ _ q [].
  - intros n ref s ps c _ q Hq. apply said_In in Hq as [-> _]. now left.
  - intros * _ _ IH _ _ q Hq. apply in_app_iff in Hq as [Hq|Hq]; [apply said_In in Hq as [-> _]; now left|].
    destruct (IH q Hq); [left; congruence|now right].
  - intros * _ _ IH q Hq. apply in_app_iff in Hq as [Hq|Hq]; [apply said_In in Hq as [-> _]; now left|].
    destruct (IH q Hq); [left; congruence|now right].
  - intros * _ _ IH q Hq. apply in_app_iff in Hq as [Hq|Hq]; [apply said_In in Hq as [-> _]; now left|].
    destruct (IH q Hq); [left; congruence|now right].
  - intros * _ W IH q Hq. apply in_app_iff in Hq as [Hq|Hq]; [apply said_In in Hq as [-> _]; now apply WN_head in W|auto].
  - intros * _ _ NL _ W IH q Hq. apply in_app_iff in Hq as [Hq|Hq]; [apply said_In in Hq as [-> _]; eapply Wrote_node; eassumption|auto].
  - intros n s fs q [].
  - intros * _ _ _ _ IH. exact IH.
  - intros * _ _ _ IH1 _ IH2 q Hq. apply in_app_iff in Hq as [Hq|Hq].
    + right. apply in_app_iff. auto.
    + destruct (IH2 q Hq); [now left|right; apply in_app_iff; auto].
  - intros * _ _ IH1 _ IH2 q [<-|Hq]; [now left|]. apply in_app_iff in Hq as [Hq|Hq].
    + right. apply in_app_iff. auto.
    + destruct (IH2 q Hq); [now left|right; apply in_app_iff; auto].
  - intros n s q [].
  - intros * _ IH1 _ IH2 q [<-|Hq]; [now left|]. apply in_app_iff in Hq as [Hq|Hq].
    + right. apply in_app_iff. auto.
    + destruct (IH2 q Hq); [now left|right; apply in_app_iff; auto].
  - intros * _ IH q [<-|[<-|Hq]]; [now left|now left|]. right. auto.
  - intros * _ _ IH1 _ IH2 q [<-|[<-|Hq]]; [now left|now left|]. right. apply in_app_iff in Hq as [Hq|Hq]; apply in_app_iff; auto.
Qed.

(** ** Choices *)
Lemma node_not_leaf r : node_layout reg r -> ~ leaf reg r.
Proof.
  unfold node_layout, leaf. destruct (reg r) as [[]|]; auto. now intros ->.
Qed.

Lemma tagged_inj ps p vs ps' p' vs' : vs <> [] -> tagged_layout ps p vs = tagged_layout ps' p' vs' ->
  statements ps = statements ps' /\ p = p' /\ vs = vs'.
Proof.
  intros NE H. unfold tagged_layout, about in H. injection H as Hs H. split; [exact Hs|].
  destruct vs as [|[n [t r]] vs], vs' as [|[n' [t' r']] vs']; try discriminate; [congruence|]. clear NE.
  cbn [map fst snd] in H. unfold tagged at 1 3 in H. injection H as -> -> -> -> H. split; [reflexivity|]. f_equal.
  revert vs' H. induction vs as [|[n [t r]] vs IH]; intros [|[n2 [t2 r2]] vs'] H; try discriminate; [reflexivity|].
  cbn [map fst snd] in H. unfold tagged at 1 3 in H. injection H as -> -> -> H. f_equal. auto.
Qed.

(** The identifiers are those of the value. *)
Lemma field_In k c fs : In (k, c) fs -> In (k, field_of c) (fields_of fs).
Proof. intro H. apply in_map_iff. exists (k, c). auto. Qed.

Lemma Wrote_ids :
  (forall n n' ref s v Q ids nodes, Wrote n n' ref s v Q ids nodes -> Identifiers reg ref v (map snd ids)) /\
  (forall n n' s fs m Q ids nodes kids, WE n n' s fs m Q ids nodes kids ->
     IdentifiersE reg (fields_of fs) m (map snd ids)) /\
  (forall n n' s its l Q ids nodes cs, WT n n' s its l Q ids nodes cs ->
     IdentifiersL reg (map snd its) l (map snd ids)) /\
  (forall n n' first rest nil r head l Q ids nodes, WN n n' first rest nil r head l Q ids nodes ->
     IdentifiersL reg (repeat r (length l)) l (map snd ids)).
Proof.
  apply Wrote_mutind.
  - intros. apply is_leaf. eapply leaf_term_leaf; eassumption.
  - intros. eapply is_unit; eassumption.
  - intros. eapply is_record; eassumption.
  - intros * E _ IH. eapply is_tuple; [exact E|]. rewrite map_map. exact IH.
  - intros * E _ IH. eapply is_set; [exact E|]. cbn [it_value linked vf_layout].
    replace (repeat r (length l)) with (map snd (repeat (p, r) (length l))); [exact IH|].
    clear. induction (length l); simpl; congruence.
  - intros * E _ IH. eapply is_list; [exact E|]. exact IH.
  - intros * E Hn _ _ _ IH. eapply is_tagged; eassumption.
  - intros. constructor.
  - intros * H E _ _ IH. cbn [map snd]. eapply ise_id; [apply field_In; eassumption|exact E|exact IH].
  - intros * H NL _ IH1 _ IH2. rewrite map_app. eapply ise_own; [apply field_In; eassumption|exact NL|exact IH1|exact IH2].
  - intros * H _ IH1 _ IH2. rewrite map_app. eapply ise_link; [eapply field_In; eassumption|exact IH1|exact IH2].
  - constructor.
  - intros * _ IH1 _ IH2. rewrite map_app. cbn [map snd]. now constructor.
  - intros n n' first rest nil r head v Q ids nodes _ IH. rewrite <- (app_nil_r (map snd ids)). simpl. constructor; [exact IH|constructor].
  - intros n n1 n' first rest nil r head v l Q1 ids1 nodes1 Q2 ids2 nodes2 _ _ IH1 _ IH2. rewrite map_app. simpl. now constructor.
Qed.
End WroteFacts.
