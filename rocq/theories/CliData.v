(** * Lemmas on the data read and written by the command line *)

From Coq Require Import String Ascii List Bool Arith NArith ZArith QArith Qcanon Permutation Sorted Lia.
Import ListNotations.
From Verif Require AutomatonProofs.
From Verif Require Import Base BaseProofs Orders PatternModel MatchingModel MatchingSpec ValueModel ValueProofs LayoutModel HydrateModel
  TermModel NumberModel NumberSpec JsonModel JsonSpec JsonProperties LayoutSpec DehydrateModel DehydrateSpec DehydrateProofs DehydrateEmits DehydrateFinish
  DehydrateProperties RoundTripSpec RoundTripWrites RoundTripRun RoundTripProperties CliModel.
Open Scope list_scope.
Open Scope nat_scope.

(** ** Values that come from JSON *)
Lemma unsigned_finite s q : xsd_unsigned s = Some q -> Finite q.
Proof.
  unfold xsd_unsigned. destruct (span_digits s) as [ip r]. destruct r as [|c r].
  - destruct ip; [discriminate|]. intros [= <-]. exists 0, (number_of (z :: ip)). unfold scaled. reflexivity.
  - destruct c as [[] [] [] [] [] [] [] []]; try discriminate. destruct (span_digits r) as [fp r']. destruct r'; [|discriminate].
    destruct (ip ++ fp) eqn:E; [discriminate|]. intros [= <-]. exists (length fp). eexists. reflexivity.
Qed.
Lemma scaled_opp z k : (- scaled z k)%Qc = scaled (- z) k.
Proof.
  unfold scaled. apply Qc_is_canon. unfold Qcopp, Q2Qc. cbn [this]. rewrite !Qred_correct. reflexivity.
Qed.
Lemma decimal_finite s q : xsd_decimal_parse s = Some q -> Finite q.
Proof.
  unfold xsd_decimal_parse. destruct s as [|c s]; [apply unsigned_finite|]. destruct c as [[] [] [] [] [] [] [] []]; try (apply unsigned_finite).
  destruct (xsd_unsigned s) as [q'|] eqn:E; [|discriminate]. intros [= <-]. apply unsigned_finite in E as (k & z & ->).
  exists k, (- z)%Z. apply scaled_opp.
Qed.

Lemma collect_In {K V} `{CmpLaws K} (l : list (K * V)) k v : In (k, v) (bt_collect l) -> In (k, v) l.
Proof.
  unfold bt_collect. assert (A : forall l m, bt_wf m -> In (k, v) (fold_left (fun m kv => bt_insert (fst kv) (snd kv) m) l m) ->
    In (k, v) l \/ In (k, v) m).
  { clear l. induction l as [|[k0 v0] l IH]; intros m W Hin; [now right|]. cbn [fold_left fst snd] in Hin.
    apply IH in Hin as [Hin|Hin]; [left; now right| |now apply bt_insert_wf].
    apply (AutomatonProofs.bt_insert_In m k0 v0 k v W) in Hin as [[-> ->]|[_ Hin]]; [left; now left|now right]. }
  intro Hin. apply A in Hin as [Hin|[]]; [exact Hin|constructor].
Qed.

(** Every value read from JSON is well formed, and only its numbers can prevent it from being written
    back. *)
Lemma from_json_wf j v : value_from_json j = Ok v -> value_wf v.
Proof.
  revert v. induction j as [|b|s|s|l IH|o IH] using json_ind'; intros v H; cbn [value_from_json] in H.
  - injection H as <-. constructor.
  - injection H as <-. constructor.
  - apply bind_Ok in H as (q & _ & H). injection H as <-. constructor.
  - injection H as <-. constructor.
  - apply bind_Ok in H as (vs & H' & H). injection H as <-. apply traverse_Ok in H'. constructor.
    clear - IH H'. induction H' as [|j v l vs E _ IH']; intros w; [intros []|]. inversion IH; subst. intros [<-|Hw]; auto.
  - apply bind_Ok in H as (m & H' & H). injection H as <-. apply traverse_Ok in H'. constructor.
    + apply (bt_collect_wf m).
    + intros k v Hk. apply collect_In in Hk. clear - IH H' Hk.
      induction H' as [|e kv o m E _ IH']; [destruct Hk|]. inversion IH; subst. destruct Hk as [->|Hk]; [|auto].
      apply bind_Ok in E as (v' & Ev & E). injection E as <- <-. split; [constructor|auto].
Qed.

Lemma from_json_refused j v : value_from_json j = Ok v -> NotJson refused v -> NotJson (fun q => q <= - (1))%Qc v.
Proof.
  revert v. induction j as [|b|s|s|l IH|o IH] using json_ind'; intros v H N; cbn [value_from_json] in H.
  - injection H as <-. inversion N.
  - injection H as <-. inversion N.
  - apply bind_Ok in H as (q & E & H). injection H as <-. inversion N as [|? B| | |]; subst. apply nj_num. destruct B as [B|B]; [|exact B].
    elim B. unfold number_from_json in E. destruct (xsd_decimal_parse s) as [q'|] eqn:P; [|discriminate E]. injection E as <-.
    now apply decimal_finite in P.
  - injection H as <-. inversion N.
  - apply bind_Ok in H as (vs & H' & H). injection H as <-. apply traverse_Ok in H'. inversion N as [| | | |? w Hw Nw]; subst.
    apply nj_item with w; [exact Hw|]. clear N. induction H' as [|j v l vs E _ IH']; [destruct Hw|]. inversion IH; subst. destruct Hw as [<-|Hw]; auto.
  - apply bind_Ok in H as (m & H' & H). injection H as <-. apply traverse_Ok in H'. 
    assert (K : forall k v, In (k, v) (bt_collect m) -> exists s j, k = VLit (LText s) /\ In (s, j) o /\ value_from_json j = Ok v).
    { intros k v Hk. apply collect_In in Hk. clear - H' Hk.
      induction H' as [|[s j] kv o m E _ IH']; [destruct Hk|]. destruct Hk as [->|Hk].
      - apply bind_Ok in E as (v' & Ev & E). injection E as <- <-. exists s, j. split; [reflexivity|]. split; [now left|exact Ev].
      - destruct (IH' Hk) as (s' & j' & A & B & C). exists s', j'. split; [exact A|]. split; [now right|exact C]. }
    inversion N as [| |? k v Hk NK|? k v Hk Nv|]; subst.
    + destruct (K _ _ Hk) as (s & j & -> & _). now elim (NK s).
    + destruct (K _ _ Hk) as (s & j & -> & Ho & E). eapply nj_value; [exact Hk|]. rewrite Forall_forall in IH. exact (IH _ Ho _ E Nv).
Qed.

(** So is every value read by serde. *)
Section Serde.
Context {F : Type} (from_f64 : F -> option Qc).
Section Ind.
Variable P : serde_value F -> Prop.
Hypothesis HL : forall s, match s with SSeq _ | SMap _ => False | _ => True end -> P s.
Hypothesis HS : forall l, Forall P l -> P (SSeq l).
Hypothesis HM : forall l, Forall (fun e => P (fst e) /\ P (snd e)) l -> P (SMap l).
Fixpoint serde_ind' (s : serde_value F) : P s :=
  match s with
  | SSeq l => HS l ((fix go l : Forall P l := match l with [] => Forall_nil _ | s :: l' => Forall_cons s (serde_ind' s) (go l') end) l)
  | SMap l => HM l ((fix go l : Forall (fun e => P (fst e) /\ P (snd e)) l :=
                match l with [] => Forall_nil _ | e :: l' => Forall_cons e (conj (serde_ind' (fst e)) (serde_ind' (snd e))) (go l') end) l)
  | s => HL s I
  end.
End Ind.

Lemma deserialize_wf s v : value_deserialize from_f64 s = Ok v -> value_wf v.
Proof.
  revert v. induction s as [s HL|l IH|l IH] using serde_ind'; intros v H.
  - destruct s; try contradiction; cbn [value_deserialize] in H; try (injection H as <-; constructor).
    destruct (from_f64 f); [|discriminate H]. injection H as <-; constructor.
  - cbn [value_deserialize] in H. apply bind_Ok in H as (vs & H' & H). injection H as <-. apply traverse_Ok in H'. constructor.
    clear - IH H'. induction H' as [|j v l vs E _ IH']; intros w; [intros []|]. inversion IH; subst. intros [<-|Hw]; auto.
  - cbn [value_deserialize] in H. apply bind_Ok in H as (m & H' & H). injection H as <-. apply traverse_Ok in H'. constructor.
    + apply (bt_collect_wf m).
    + intros k v Hk. apply collect_In in Hk. clear - IH H' Hk.
      induction H' as [|e kv o m E _ IH']; [destruct Hk|]. inversion IH as [|? ? [I1 I2] I3]; subst. destruct Hk as [->|Hk]; [|auto].
      apply bind_Ok in E as (k' & Ek & E). apply bind_Ok in E as (v' & Ev & E). injection E as <- <-. split; auto.
Qed.
End Serde.

(** ** Values equal up to the order of the items of the sets *)
Section Same.
Variable reg : registry term.

Lemma SameL_items rs l l' : SameL reg rs l l' -> length l = length l'.
Proof. induction 1; cbn [length]; congruence. Qed.

Lemma Same_wf :
  (forall r v w, Same reg r v w -> value_wf v -> value_wf w) /\
  (forall fs m m', SameE reg fs m m' -> (forall k v, In (k, v) m -> value_wf k /\ value_wf v) ->
     map fst m = map fst m' /\ forall k v, In (k, v) m' -> value_wf k /\ value_wf v) /\
  (forall rs l l', SameL reg rs l l' -> (forall v, In v l -> value_wf v) -> forall v, In v l' -> value_wf v).
Proof.
  apply Same_mutind.
  - auto.
  - intros r h fs m m' _ _ IH W. inversion W as [|? S W'|]; subst. destruct (IH W') as [E W'']. constructor; [now rewrite <- E|exact W''].
  - intros r h its l l' _ _ IH W. inversion W; subst. constructor. auto.
  - intros r h it l l' l'' _ _ IH P W. inversion W; subst. constructor. intros v Hv. eapply IH; [eassumption|].
    eapply Permutation_in; [apply Permutation_sym, P|exact Hv].
  - intros r h node hd tl l l' _ _ IH W. inversion W; subst. constructor. auto.
  - auto.
  - intros fs W. split; [reflexivity|exact W].
  - intros fs k f v w m m' _ _ IH1 _ IH2 W. destruct IH2 as [E W2]; [intros; apply W; now right|]. split; [cbn [map fst]; now rewrite E|].
    intros k' v' [[= <- <-]|H]; [|auto]. destruct (W k v (or_introl eq_refl)). auto.
  - intros W v [].
  - intros r rs v w l l' _ IH1 _ IH2 W x [<-|H]; [apply IH1, W; now left|]. apply IH2; [intros; apply W; now right|exact H].
Qed.

Variable bad : Qc -> Prop.
Lemma Same_not_json :
  (forall r v w, Same reg r v w -> NotJson bad w -> NotJson bad v) /\
  (forall fs m m', SameE reg fs m m' -> map fst m = map fst m' /\
     forall k w, In (k, w) m' -> exists v, In (k, v) m /\ (NotJson bad w -> NotJson bad v)) /\
  (forall rs l l', SameL reg rs l l' -> forall w, In w l' -> exists v, In v l /\ (NotJson bad w -> NotJson bad v)).
Proof.
  apply Same_mutind.
  - auto.
  - intros r h fs m m' _ _ [_ IH] N. inversion N as [| |? k v Hk NK|? k v Hk Nv|]; subst.
    + destruct (IH _ _ Hk) as (v0 & H0 & _). eapply nj_key; eassumption.
    + destruct (IH _ _ Hk) as (v0 & H0 & H1). eapply nj_value; eauto.
  - intros r h its l l' _ _ IH N. inversion N as [| | | |? w Hw Nw]; subst. destruct (IH _ Hw) as (v & Hv & H1). eapply nj_item; eauto.
  - intros r h it l l' l'' _ _ IH P N. inversion N as [| | | |? w Hw Nw]; subst.
    destruct (IH w) as (v & Hv & H1); [eapply Permutation_in; [apply Permutation_sym, P|exact Hw]|]. eapply nj_item; eauto.
  - intros r h node hd tl l l' _ _ IH N. inversion N as [| | | |? w Hw Nw]; subst. destruct (IH _ Hw) as (v & Hv & H1). eapply nj_item; eauto.
  - auto.
  - intros fs. split; [reflexivity|]. intros k w [].
  - intros fs k f v w m m' _ _ IH1 _ [E IH2]. split; [cbn [map fst]; now rewrite E|].
    intros k' w' [[= <- <-]|H]; [exists v; split; [now left|exact IH1]|]. destruct (IH2 _ _ H) as (v' & Hv & N). exists v'. split; [now right|exact N].
  - intros w [].
  - intros r rs v w l l' _ IH1 _ IH2 x [<-|H]; [exists v; split; [now left|exact IH1]|].
    destruct (IH2 _ H) as (v' & Hv & N). exists v'. split; [now right|exact N].
Qed.
End Same.

(** ** The node of a dehydrated value *)
Section Root.
Context {Gn : Type} {X : Xsd} {IS : IriSyntax}.
Variable opts : options Gn.
Variable reg : registry term.
Variable order : list (quad res) -> list (quad res).
Hypothesis order_perm : forall l, Permutation (order l) l.

(** It is the input of the layout, unless the value gives it an identifier. *)
Lemma dehydrated_root fuel v ref ds vals : tree_registry reg -> Proper reg ref v -> ~ leaf reg ref ->
  dehydrate order reg fuel v ref opts = Ok (ds, vals) ->
  vals = [o_input_term opts 0] \/ exists i ids, Identifiers reg ref v ids /\ In i ids /\ vals = [TmIri i].
Proof.
  intros TR HP NL H.
  apply dehydrate_inv in H as (l & st & theta & E & R & MP & _ & HD & HV); [|exact order_perm].
  unfold root_count in *. rewrite (tree_input _ _ (TR _ _ E)) in *. cbn [seq map] in R, HV.
  apply (dehydrate_ran reg TR) in R; [|exact HP|apply outside_input].
  destruct R as (hi & Q & ids & nodes & HW & [_ PO PN]). simpl in HW, PO, PN.
  assert (ROOT := Wrote_node reg _ _ _ _ _ _ _ _ _ HW NL).
  assert (NEW : forall r t, assigned st r t -> In r nodes -> exists i, t = TmIri i /\ In (r, i) ids).
  { intros r t Hr Hn. destruct PN as [_ PN]. destruct (PN r t Hr) as [[]|[_ P]]. exact (P Hn). }
  pose proof (proj1 (Wrote_ids reg _) _ _ _ _ _ _ _ _ HW) as HI.
  destruct (assigned_dec st (RInput 0)) as [(t & Ht)|U].
  - right. destruct (NEW _ _ Ht ROOT) as (i & -> & Hi). exists i, (map snd ids). split; [exact HI|]. split; [now apply (in_map snd) in Hi|].
    subst vals. f_equal. eapply mp_assigned; eassumption.
  - left. subst vals. f_equal. apply (mp_input _ _ _ _ MP); [lia|exact U].
Qed.
End Root.
