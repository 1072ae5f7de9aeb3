(** * Induction principles and order laws for values *)

From Coq Require Import String List Bool Arith NArith QArith Qcanon Lia.
Import ListNotations.
From Verif Require Import Base BaseProofs Orders ValueModel.
Open Scope list_scope.

Section ValueInd.
Variable P : value -> Prop.
Hypothesis PL : forall l, P (VLit l).
Hypothesis PM : forall m, Forall (fun kv => P (fst kv) /\ P (snd kv)) m -> P (VMap m).
Hypothesis PV : forall l, Forall P l -> P (VList l).

Fixpoint value_ind' (v : value) : P v :=
  match v with
  | VLit l => PL l
  | VMap m => PM m
      ((fix go m : Forall (fun kv => P (fst kv) /\ P (snd kv)) m :=
          match m with
          | [] => Forall_nil _
          | (k, v) :: m' => Forall_cons (k, v) (conj (value_ind' k) (value_ind' v)) (go m')
          end) m)
  | VList l => PV l
      ((fix go l : Forall P l :=
          match l with
          | [] => Forall_nil _
          | v :: l' => Forall_cons v (value_ind' v) (go l')
          end) l)
  end.
End ValueInd.

Section TypedInd.
Context {R : Type}.
Variable P : typed_value R -> Prop.
Hypothesis PL : forall l, P (TLit l).
Hypothesis PT : forall v t i, P v -> P (TVariant v t i).
Hypothesis PM : forall m t, Forall (fun kv => P (snd kv)) m -> P (TMap m t).
Hypothesis PV : forall l t, Forall P l -> P (TList l t).
Hypothesis PA : forall v, P (TAlways v).

Fixpoint typed_value_ind' (v : typed_value R) : P v :=
  match v with
  | TLit l => PL l
  | TVariant v t i => PT v t i (typed_value_ind' v)
  | TMap m t => PM m t
      ((fix go m : Forall (fun kv => P (snd kv)) m :=
          match m with
          | [] => Forall_nil _
          | (k, v) :: m' => Forall_cons (k, v) (typed_value_ind' v) (go m')
          end) m)
  | TList l t => PV l t
      ((fix go l : Forall P l :=
          match l with
          | [] => Forall_nil _
          | v :: l' => Forall_cons v (typed_value_ind' v) (go l')
          end) l)
  | TAlways v => PA v
  end.
End TypedInd.

Ltac laws_tac :=
  split; [|split];
  [ intros b0; destruct b0; simpl; split; congruence
  | intros b0; destruct b0; reflexivity
  | intros b0 c0; destruct b0, c0; simpl; congruence ].

(** A constructor carrying data ordered by [f]. *)
Lemma laws_inj {A B} (f : A -> A -> comparison) (g : B -> B -> comparison) (c : A -> B) a :
  laws_at f a ->
  (forall a a', c a = c a' -> a = a') ->
  (forall a', g (c a) (c a') = f a a') ->
  (forall a', g (c a') (c a) = f a' a) ->
  (forall b, (exists a', b = c a') \/ (g (c a) b = Lt /\ g b (c a) = Gt /\
       (forall a', g (c a') b = Lt)
       /\ forall b', g b b' <> Gt -> g (c a) b' = Lt)
     \/ (g (c a) b = Gt /\ g b (c a) = Lt)) ->
  (forall a' b', g (c a') b' <> Gt -> (exists a'', b' = c a'' /\ f a' a'' <> Gt) \/
       g (c a) b' = Lt) ->
  laws_at g (c a).
Proof.
  intros (E & O & T) I G G' C K. split; [|split].
  - intros b. destruct (C b) as [(a' & ->)|[(L & _ & _ & _)|(L & _)]].
    + rewrite G, E. split; [congruence|auto].
    + rewrite L. split; [discriminate|]. intros <-.
      rewrite G in L. rewrite (proj2 (E a) eq_refl) in L. discriminate.
    + rewrite L. split; [discriminate|]. intros <-.
      rewrite G in L. rewrite (proj2 (E a) eq_refl) in L. discriminate.
  - intros b. destruct (C b) as [(a' & ->)|[(L & L' & _ & _)|(L & L')]].
    + rewrite G, G'. apply O.
    + rewrite L, L'. reflexivity.
    + rewrite L, L'. reflexivity.
  - intros b b' L N. destruct (C b) as [(a' & ->)|[(_ & _ & _ & H)|(L1 & _)]].
    + rewrite G in L. destruct (K a' b' N) as [(a'' & -> & N')|H]; auto.
      rewrite G. eapply T; eauto.
    + apply H; auto.
    + congruence.
Qed.

Ltac laws_inj_tac f c :=
  apply (laws_inj f _ c);
  [ | intros ? ?; congruence | reflexivity | reflexivity
  | let b := fresh in intros b; destruct b;
      (left; eexists; reflexivity) ||
      (right; left; split; [reflexivity|]; split; [reflexivity|]; split; [reflexivity|];
        let b' := fresh in intros b'; destruct b'; simpl; congruence) ||
      (right; right; split; reflexivity)
  | let a' := fresh in let b' := fresh in intros a' b'; destruct b'; simpl;
      first [ now left; eauto | right; congruence | congruence | intros; right; reflexivity
            | intros; left; eexists; split; [reflexivity|assumption] ] ].

Global Instance cmp_literal_laws : CmpLaws literal.
Proof.
  apply laws_of. unfold cmp_literal. intros [|b|n|s|s].
  - laws_tac.
  - laws_inj_tac (@cmp bool _) LBool. apply laws_at_cmp.
  - laws_inj_tac (@cmp Qc _) LNum. apply laws_at_cmp.
  - laws_inj_tac (@cmp string _) LBytes. apply laws_at_cmp.
  - laws_inj_tac (@cmp string _) LText. apply laws_at_cmp.
Qed.

Global Instance cmp_value_laws : CmpLaws value.
Proof.
  apply laws_of. unfold cmp_value.
  intros v; induction v as [l|m IH|l IH] using value_ind'.
  - laws_inj_tac (@cmp literal _) VLit. apply laws_at_cmp.
  - laws_inj_tac (list_cmp (pair_cmp value_cmp value_cmp)) VMap. apply list_laws.
    eapply Forall_impl; [|exact IH]. intros [k v] [Hk Hv]. now apply pair_laws.
  - laws_inj_tac (list_cmp value_cmp) VList. now apply list_laws.
Qed.

Section Typed.
Context {R : Type} {CR : Cmp R} {LR : CmpLaws R}.

Lemma lex_pair {A B} (f : A -> A -> comparison) (g : B -> B -> comparison) a b a' b' :
  lex (f a a') (g b b') = pair_cmp f g (a, b) (a', b').
Proof. reflexivity. Qed.

Ltac laws_pair_tac f c :=
  match goal with
  | |- laws_at ?g (_ ?a ?b) =>
      change (laws_at g ((fun p => c (fst p) (snd p)) (a, b)));
      apply (laws_inj (pair_cmp f (@cmp R _)) g (fun p => c (fst p) (snd p)));
      [ | intros [? ?] [? ?]; simpl; congruence
      | intros [? ?]; simpl; reflexivity | intros [? ?]; simpl; reflexivity
      | let b := fresh in intros b; destruct b;
          (left; eexists (_, _); reflexivity) ||
          (right; left; split; [reflexivity|]; split; [reflexivity|]; split; [reflexivity|];
            let b' := fresh in intros b'; destruct b'; simpl; congruence) ||
          (right; right; split; reflexivity)
      | let a' := fresh in let b' := fresh in intros [? ?] b'; destruct b'; simpl;
          first [ right; congruence | congruence | intros; right; reflexivity
                | intros; left; eexists (_, _); split; [reflexivity|assumption] ] ]
  end.

Global Instance cmp_typed_literal_laws : CmpLaws (typed_literal R).
Proof.
  apply laws_of. unfold cmp_typed_literal. intros [v t|v t|v t|v t|v t|v t].
  - laws_pair_tac (@cmp value _) (@TUnit R). apply pair_laws; apply laws_at_cmp.
  - laws_pair_tac (@cmp bool _) (@TBool R). apply pair_laws; apply laws_at_cmp.
  - laws_pair_tac (@cmp Qc _) (@TNum R). apply pair_laws; apply laws_at_cmp.
  - laws_pair_tac (@cmp string _) (@TBytes R). apply pair_laws; apply laws_at_cmp.
  - laws_pair_tac (@cmp string _) (@TText R). apply pair_laws; apply laws_at_cmp.
  - laws_pair_tac (@cmp string _) (@TId R). apply pair_laws; apply laws_at_cmp.
Qed.

Global Instance cmp_typed_value_laws : CmpLaws (typed_value R).
Proof.
  apply laws_of. unfold cmp_typed_value.
  intros v; induction v as [l|v t i IH|m t IH|l t IH|v] using typed_value_ind'.
  - laws_inj_tac (@cmp (typed_literal R) _) (@TLit R). apply laws_at_cmp.
  - change (laws_at typed_value_cmp
       ((fun p : typed_value R * (R * nat) => TVariant (fst p) (fst (snd p)) (snd (snd p))) (v, (t, i)))).
    apply (laws_inj (pair_cmp typed_value_cmp (pair_cmp cmp cmp))).
    + apply pair_laws; auto. apply pair_laws; apply laws_at_cmp.
    + intros [? [? ?]] [? [? ?]]; simpl; congruence.
    + intros [? [? ?]]; reflexivity.
    + intros [? [? ?]]; reflexivity.
    + intros [l|v' t' i'|m' t'|l' t'|v'].
      * right; right; split; reflexivity.
      * left. now exists (v', (t', i')).
      * right; left. repeat split. intros []; simpl; congruence.
      * right; left. repeat split. intros []; simpl; congruence.
      * right; left. repeat split. intros []; simpl; congruence.
    + intros [v0 [t0 i0]] [l|v' t' i'|m' t'|l' t'|v']; simpl; try congruence; auto.
      intros H. left. exists (v', (t', i')). split; auto.
  - laws_pair_tac (list_cmp (pair_cmp (@cmp value _) (@typed_value_cmp R CR))) (@TMap R). apply pair_laws; [|apply laws_at_cmp].
    apply list_laws. eapply Forall_impl; [|exact IH]. intros [k v] Hv.
    apply pair_laws; auto. apply laws_at_cmp.
  - laws_pair_tac (list_cmp (@typed_value_cmp R CR)) (@TList R). apply pair_laws; [|apply laws_at_cmp].
    now apply list_laws.
  - laws_inj_tac (@cmp value _) (@TAlways R). apply laws_at_cmp.
Qed.

End Typed.
