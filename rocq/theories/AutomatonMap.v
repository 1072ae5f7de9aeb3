(** * Renaming the states and labels of an automaton: lemmas *)

From Coq Require Import String List Bool Arith NArith Lia Sorted Relations.
Import ListNotations.
From Verif Require Import Base BaseProofs Orders CharModel AutomatonModel AutomatonSpec AutomatonProofs AutomatonDet
  AutomatonTerm AutomatonProduct.
Open Scope list_scope.

Lemma NoDup_fst_fun {A B} (l : list (A * B)) a b b' : NoDup (map fst l) -> In (a, b) l -> In (a, b') l -> b = b'.
Proof.
  induction l as [|[x y] l IH]; intros ND H1 H2; [destruct H1|]. inversion ND as [|? ? N1 N2]; subst. cbn [fst] in N1.
  destruct H1 as [H1|H1], H2 as [H2|H2].
  - congruence.
  - exfalso. apply N1. injection H1 as -> ->. apply in_map_iff. now exists (a, b').
  - exfalso. apply N1. injection H2 as -> ->. apply in_map_iff. now exists (a, b).
  - auto.
Qed.

Lemma NoDup_snd_inj {A B} (l : list (A * B)) a a' b : NoDup (map snd l) -> In (a, b) l -> In (a', b) l -> a = a'.
Proof.
  induction l as [|[x y] l IH]; intros ND H1 H2; [destruct H1|]. inversion ND as [|? ? N1 N2]; subst. cbn [snd] in N1.
  destruct H1 as [H1|H1], H2 as [H2|H2].
  - congruence.
  - exfalso. apply N1. injection H1 as -> ->. apply in_map_iff. now exists (a', b).
  - exfalso. apply N1. injection H2 as -> ->. apply in_map_iff. now exists (a, b).
  - auto.
Qed.

Section Memo.
Context {E K V T : Type} {CK : Cmp K} {LK : CmpLaws K}.
Variable f : K -> T -> outcome E (V * T).
Variable t0 : T.

Definition table (m : list (K * V)) (t : T) : Prop := calls f t0 m t /\ NoDup (map fst m).

Lemma calls_app m t k v t' : calls f t0 m t -> f k t = Ok (v, t') -> calls f t0 (m ++ [(k, v)]) t'.
Proof.
  intros H. revert k v t'. induction H as [t|k0 v0 t t1 m t2 H0 _ IH]; intros k v t' HF; cbn [app].
  - econstructor; [exact HF|constructor].
  - econstructor; [exact H0|]. now apply IH.
Qed.

Lemma memo_spec k m t v m' t' : memo f k (m, t) = Ok (v, (m', t')) -> table m t ->
  table m' t' /\ In (k, v) m' /\ forall x, In x m -> In x m'.
Proof.
  unfold memo. cbn [fst snd]. intros H [T1 T2]. destruct (bt_get k m) as [v0|] eqn:Ev.
  - injection H as <- <- <-. split; [split; assumption|]. split; [now apply bt_get_In|auto].
  - apply bind_Ok in H as ([v1 t1] & Hf & [= <- <- <-]). split; [split|split].
    + eapply calls_app; eassumption.
    + rewrite map_app. cbn [map fst]. apply bt_get_None in Ev.
      apply NoDup_Add with (a := k) (l := map fst m).
      * rewrite <- (app_nil_r (map fst m)) at 1. apply Add_app.
      * split; assumption.
    + apply in_or_app. right. now left.
    + intros x Hx. apply in_or_app. now left.
Qed.
End Memo.

Section Map.
Context {Q L P M St St' E C : Type} {CQ : Cmp Q} {CL : Cmp L} {CP : Cmp P} {CM : Cmp M}
  {LQ : CmpLaws Q} {LL : CmpLaws L} {LP : CmpLaws P} {LM : CmpLaws M}.
Variable f : Q -> St -> outcome E (P * St).
Variable g : L -> St' -> outcome E (M * St').
Variable s0 : St.
Variable t0 : St'.
Hypothesis INJf : forall m s, calls f s0 m s -> NoDup (map fst m) -> NoDup (map snd m).
Hypothesis INJg : forall m t, calls g t0 m t -> NoDup (map fst m) -> NoDup (map snd m).

Fixpoint map_triples (l : list (Q * (L * Q))) (st : map_state) : outcome E (@map_state Q L P M St St') :=
  match l with
  | [] => Ok st
  | (source, t) :: l' => let* st := map_transitions f g source [t] st in map_triples l' st
  end.

Lemma map_triples_app l1 l2 st : map_triples (l1 ++ l2) st = let* st := map_triples l1 st in map_triples l2 st.
Proof.
  revert st. induction l1 as [|[q t] l1 IH]; intro st; [reflexivity|]. cbn [app map_triples].
  destruct (map_transitions f g q [t] st); cbn [bind]; [apply IH|reflexivity..].
Qed.

Lemma map_transitions_triples q ts st : map_transitions f g q ts st = map_triples (map (fun t => (q, t)) ts) st.
Proof.
  revert st. induction ts as [|[l r] ts IH]; intro st; [reflexivity|]. cbn [map map_triples]. cbn [map_transitions].
  destruct st as [[ms ls] rs]. destruct (memo f q ms) as [[q' ms1]| | |]; cbn [bind]; try reflexivity.
  destruct (memo f r ms1) as [[r' ms2]| | |]; cbn [bind]; try reflexivity.
  destruct (memo g l ls) as [[l' ls1]| | |]; cbn [bind]; try reflexivity. apply IH.
Qed.

Lemma map_sources_triples l st : map_sources f g l st = map_triples (flat_map (fun x => map (fun t => (fst x, t)) (snd x)) l) st.
Proof.
  revert st. induction l as [|[q ts] l IH]; intro st; [reflexivity|]. cbn [map_sources flat_map fst snd].
  rewrite map_triples_app, map_transitions_triples. destruct (map_triples _ st); cbn [bind]; [apply IH|reflexivity..].
Qed.

(** The invariant of the loop; [done]: the transitions already copied. *)
Record map_inv (d : dfa Q L) (done : list (Q * (L * Q))) (st : @map_state Q L P M St St') : Prop := {
  mi_states : table f s0 (fst (fst (fst st))) (snd (fst (fst st)));
  mi_labels : table g t0 (fst (snd (fst st))) (snd (snd (fst st)));
  mi_initial : In (d_initial d, d_initial (snd st)) (fst (fst (fst st)));
  mi_final : d_final (snd st) = [];
  mi_wf : dfa_wf (snd st);
  mi_done : forall q l q', In (q, (l, q')) done -> exists p m p',
    In (q, p) (fst (fst (fst st))) /\ In (l, m) (fst (snd (fst st))) /\ In (q', p') (fst (fst (fst st))) /\
    d_edge (snd st) p m p';
  mi_edge : forall p m p', d_edge (snd st) p m p' -> exists q l q', In (q, (l, q')) done /\
    In (q, p) (fst (fst (fst st))) /\ In (l, m) (fst (snd (fst st))) /\ In (q', p') (fst (fst (fst st)))
}.

Lemma dfa_add_edge (d : dfa P M) s l t p m p' : dfa_wf d ->
  (d_edge (dfa_add s l t d) p m p' <-> (p = s /\ m = l /\ p' = t) \/ (~ (p = s /\ m = l) /\ d_edge d p m p')).
Proof.
  intros [W1 W2]. unfold d_edge, dfa_add. cbn [d_transitions].
  assert (We : bt_wf (entry s [] (d_transitions d))).
  { apply (entry_or (fun ts : list (M * P) => bt_wf ts)); [|constructor]. intros ts H. exact (W2 _ _ H). }
  split.
  - intros (ts & H1 & H2). apply (proj1 (bt_insert_In _ _ _ _ _ W1)) in H1 as [[-> ->]|[N H1]].
    + apply (proj1 (bt_insert_In _ _ _ _ _ We)) in H2 as [[-> ->]|[N H2]]; [auto|]. right. split; [tauto|].
      now apply entry_None in H2.
    + right. split; [tauto|eauto].
  - intros [(-> & -> & ->)|[N (ts & H1 & H2)]].
    + eexists. split; [apply bt_insert_In; [exact W1|left; split; reflexivity]|]. apply bt_insert_In; auto.
    + destruct (eqb_spec p s) as [->|Np].
      * eexists. split; [apply bt_insert_In; [exact W1|left; split; reflexivity]|]. apply bt_insert_In; [exact We|]. right.
        split; [tauto|]. apply entry_None; [exact W1|eauto].
      * exists ts. split; [|exact H2]. apply bt_insert_In; [exact W1|auto].
Qed.

Lemma dfa_add_wf (d : dfa P M) s l t : dfa_wf d -> dfa_wf (dfa_add s l t d).
Proof.
  intros [W1 W2]. split; [now apply bt_insert_wf|]. cbn [dfa_add d_transitions]. intros q ts H.
  apply (proj1 (bt_insert_In _ _ _ _ _ W1)) in H as [[-> ->]|[_ H]]; [|eauto]. apply bt_insert_wf.
  apply (entry_or (fun ts : list (M * P) => bt_wf ts)); [|constructor]. intros ts H. exact (W2 _ _ H).
Qed.

Lemma map_triples_spec d rest : forall done st st',
  (forall q l q', In (q, (l, q')) rest -> forall q'', ~ In (q, (l, q'')) done) ->
  NoDup (map (fun x => (fst x, fst (snd x))) rest) ->
  map_inv d done st -> map_triples rest st = Ok st' -> map_inv d (done ++ rest) st'.
Proof.
  induction rest as [|[q [l q']] rest IH]; intros done st st' HD ND I H; cbn [map_triples] in H.
  - injection H as <-. now rewrite app_nil_r.
  - apply bind_Ok in H as (st1 & H1 & H).
    change ((q, (l, q')) :: rest) with ([(q, (l, q'))] ++ rest). rewrite app_assoc.
    apply (IH _ st1 st'); [| |clear IH H|exact H].
    + intros q1 l1 q1' Hr q'' Hd. apply in_app_or in Hd as [Hd|[[= -> -> ->]|[]]].
      * eapply HD; [right; exact Hr|exact Hd].
      * inversion ND as [|? ? N1 N2]; subst. apply N1. apply in_map_iff. exists (q1, (l1, q1')). split; [reflexivity|exact Hr].
    + inversion ND; assumption.
    + destruct st as [[[ms s] [ls t]] res]. cbn [map_transitions] in H1.
      apply bind_Ok in H1 as ([p [ms1 s1]] & Hm1 & H1). apply bind_Ok in H1 as ([p' [ms2 s2]] & Hm2 & H1).
      apply bind_Ok in H1 as ([m [ls1 t1]] & Hm3 & [= <-]).
      destruct I as [I1 I2 I3 I3' I4 I5 I6]. cbn [fst snd] in *.
      apply (memo_spec f s0) in Hm1 as (T1 & Hp & X1); [|exact I1]. apply (memo_spec f s0) in Hm2 as (T2 & Hp' & X2); [|exact T1].
      apply (memo_spec g t0) in Hm3 as (T3 & Hm & X3); [|exact I2].
      assert (NS : NoDup (map snd ms2)) by (destruct T2; eauto). assert (NL : NoDup (map snd ls1)) by (destruct T3; eauto).
      assert (FRESH : forall p0', ~ d_edge res p m p0').
      { intros p0' He. apply I6 in He as (q1 & l1 & q2 & Hd & K1 & K2 & K3).
        assert (q1 = q) as -> by (eapply NoDup_snd_inj; [exact NS|apply X2, X1; exact K1|apply X2; exact Hp]).
        assert (l1 = l) as -> by (eapply NoDup_snd_inj; [exact NL|apply X3; exact K2|exact Hm]).
        eapply HD; [left; reflexivity|exact Hd]. }
      constructor; cbn [fst snd].
      * exact T2.
      * exact T3.
      * cbn [dfa_add d_initial]. auto.
      * exact I3'.
      * now apply dfa_add_wf.
      * intros q1 l1 q2 Hd. apply in_app_or in Hd as [Hd|[[= <- <- <-]|[]]].
        -- destruct (I5 _ _ _ Hd) as (p1 & m1 & p2 & K1 & K2 & K3 & K4). exists p1, m1, p2. split; [auto|]. split; [auto|].
           split; [auto|]. apply dfa_add_edge; [exact I4|]. right. split; [|exact K4]. intros [-> ->]. eapply FRESH; exact K4.
        -- exists p, m, p'. split; [auto|]. split; [auto|]. split; [auto|]. apply dfa_add_edge; [exact I4|auto].
      * intros p1 m1 p2 He. apply (proj1 (dfa_add_edge _ _ _ _ _ _ _ I4)) in He as [(-> & -> & ->)|[_ He]].
        -- exists q, l, q'. split; [apply in_or_app; right; now left|auto].
        -- apply I6 in He as (q1 & l1 & q2 & Hd & K1 & K2 & K3). exists q1, l1, q2. split; [apply in_or_app; now left|auto].
Qed.

(** The transitions of a well formed automaton. *)
Lemma triples_In (d : dfa Q L) q l q' : In (q, (l, q')) (triples d) <-> d_edge d q l q'.
Proof.
  unfold triples, d_edge. rewrite in_flat_map. split.
  - intros ([q0 ts] & H1 & H2). apply in_map_iff in H2 as ([l0 r] & [= <- <- <-] & H2). eauto.
  - intros (ts & H1 & H2). exists (q, ts). split; [exact H1|]. apply in_map_iff. now exists (l, q').
Qed.

Lemma bt_wf_NoDup {K V} `{CmpLaws K} (m : list (K * V)) : bt_wf m -> NoDup (keys m).
Proof.
  unfold bt_wf. induction 1 as [|x l _ IH F]; [constructor|]. constructor; [|exact IH]. intro HI.
  rewrite Forall_forall in F. specialize (F x HI). eapply lt_irrefl; exact F.
Qed.

Lemma triples_NoDup (d : dfa Q L) : dfa_wf d -> NoDup (map (fun x => (fst x, fst (snd x))) (triples d)).
Proof.
  intros [W1 W2]. unfold triples. apply bt_wf_NoDup in W1. unfold keys in W1. revert W1 W2. generalize (d_transitions d) as m.
  induction m as [|[q ts] m IH]; intros W1 W2; [constructor|]. cbn [flat_map]. rewrite map_app.
  inversion W1 as [|? ? N1 N2]; subst.
  assert (ND2 : NoDup (map (fun x => (fst x, fst (snd x))) (flat_map (fun st => map (fun t => (fst st, t)) (snd st)) m))).
  { apply IH; [exact N2|]. intros; eapply W2; right; eassumption. }
  assert (ND1 : NoDup (map (fun x : Q * (L * Q) => (fst x, fst (snd x))) (map (fun t => (q, t)) ts))).
  { rewrite map_map. cbn [fst snd]. assert (Wt := bt_wf_NoDup _ (W2 q ts (or_introl eq_refl))). unfold keys in Wt.
    clear -Wt. induction ts as [|[l r] ts IH]; [constructor|]. inversion Wt as [|? ? N1 N2]; subst. cbn [map fst].
    constructor; [|auto]. intro H. apply in_map_iff in H as ([l' r'] & [= E] & H). cbn [fst] in E. subst l'. apply N1.
    apply in_map_iff. now exists (l, r'). }
  cbn [fst snd]. clear IH. induction (map (fun t => (q, t)) ts) as [|x xs IHx] eqn:Ex in ND1 |- *; [exact ND2|]. (* *)
  revert ND1. assert (HX : forall y, In y (x :: xs) -> fst y = q).
  { rewrite <- Ex. intros y Hy. apply in_map_iff in Hy as (t & <- & _). reflexivity. }
  clear Ex IHx. revert HX. generalize (x :: xs) as ys. induction ys as [|y ys IHy]; intros HX ND1; [exact ND2|].
  cbn [map app]. inversion ND1 as [|? ? M1 M2]; subst. constructor.
  - intro HI. apply in_app_or in HI as [HI|HI]; [contradiction|].
    apply in_map_iff in HI as ([q1 [l1 r1]] & [= E1 E2] & HI). apply in_flat_map in HI as ([q2 ts2] & H1 & H2).
    apply in_map_iff in H2 as (t2 & Et & H2). cbn [fst snd] in *. injection Et as Eq1 _. apply N1. apply in_map_iff. exists (q2, ts2).
    split; [|exact H1]. cbn [fst]. rewrite Eq1, E1. apply HX. now left.
  - apply IHy; [|exact M2]. intros; apply HX; now right.
Qed.

Lemma map_finals_spec l : forall ms s (res res' : dfa P M) ms' s', map_finals f l (ms, s) res = Ok (res', (ms', s')) -> table f s0 ms s ->
  table f s0 ms' s' /\ (forall x, In x ms -> In x ms') /\ d_initial res' = d_initial res /\ d_transitions res' = d_transitions res /\
  (forall q, In q l -> In q (map fst ms')) /\
  forall p, In p (d_final res') <-> In p (d_final res) \/ exists q, In q l /\ In (q, p) ms'.
Proof.
  induction l as [|q l IH]; intros ms s res res' ms' s' H T; cbn [map_finals] in H.
  - injection H as <- <- <-. split; [exact T|]. split; [auto|]. split; [auto|]. split; [auto|]. split; [intros ? []|].
    intro p. split; [auto|]. intros [H|(q & [] & _)]. exact H.
  - apply bind_Ok in H as ([p0 [ms1 s1]] & Hm & H). apply (memo_spec f s0) in Hm as (T1 & Hp & X1); [|exact T].
    destruct (IH _ _ _ _ _ _ H T1) as (T2 & X2 & E1 & E2 & HK & HF). split; [exact T2|]. split; [auto|].
    split; [exact E1|]. split; [exact E2|]. split.
    { intros q1 [<-|Hq]; [|auto]. apply in_map_iff. exists (q, p0). auto. }
    intro p. rewrite HF. cbn [dfa_add_final_state d_final]. rewrite set_insert_In. split.
    + intros [[->|H0]|(q1 & Hq & H0)]; [|auto|].
      * right. exists q. split; [now left|auto].
      * right. exists q1. split; [now right|exact H0].
    + intros [H0|(q1 & [<-|Hq] & H0)]; [auto| |].
      * left. left. eapply NoDup_fst_fun; [apply T2|exact H0|auto].
      * right. eauto.
Qed.

Section Language.
Variables (has : L -> C -> Prop) (has' : M -> C -> Prop).
Hypothesis HAS : forall l t m t', g l t = Ok (m, t') -> forall c, has' m c <-> has l c.
Variable d : dfa Q L.
Hypothesis Wd : dfa_wf d.

Lemma calls_In {K V T} (h : K -> T -> outcome E (V * T)) t m t' : calls h t m t' ->
  forall k v, In (k, v) m -> exists t1 t2, h k t1 = Ok (v, t2).
Proof.
  induction 1 as [t|k0 v0 t t1 m t2 H0 _ IH]; intros k v H; [destruct H|]. destruct H as [[= -> ->]|H]; eauto.
Qed.

(** The result of the copy of the transitions. *)
Lemma map_core st : (let* st := map_start f d s0 t0 in map_sources f g (d_transitions d) st) = Ok st ->
  map_inv d (triples d) st.
Proof.
  intro H. apply bind_Ok in H as (st0 & H0 & H). unfold map_start in H0. apply bind_Ok in H0 as ([i s] & Hi & [= <-]).
  rewrite map_sources_triples in H. change (flat_map (fun x => map (fun t => (fst x, t)) (snd x)) (d_transitions d)) with (triples d) in H.
  change (triples d) with ([] ++ triples d). eapply map_triples_spec; [| |clear H|exact H].
  - intros ? ? ? _ ? [].
  - now apply triples_NoDup.
  - constructor; cbn [fst snd].
    + split; [econstructor; [exact Hi|constructor]|]. constructor; [intros []|constructor].
    + split; [constructor|constructor].
    + now left.
    + reflexivity.
    + split; [constructor|intros ? ? []].
    + intros ? ? ? [].
    + intros p m p' (ts & [] & _).
Qed.

Lemma map_run st : map_inv d (triples d) st ->
  (forall q w q', d_run has d q w q' -> forall p, In (q, p) (fst (fst (fst st))) ->
     exists p', In (q', p') (fst (fst (fst st))) /\ d_run has' (snd st) p w p') /\
  (forall p w p', d_run has' (snd st) p w p' -> forall q, In (q, p) (fst (fst (fst st))) ->
     exists q', In (q', p') (fst (fst (fst st))) /\ d_run has d q w q').
Proof.
  intros [[I1 I1'] [I2 I2'] I3 I3' I4 I5 I6].
  assert (NS := INJf _ _ I1 I1'). split.
  - intros q w q' R. induction R as [q|q l c q1 w q' He Hc _ IH]; intros p Hp; [exists p; split; [exact Hp|constructor]|].
    apply triples_In in He. destruct (I5 _ _ _ He) as (p0 & m & p1 & K1 & K2 & K3 & K4).
    assert (p0 = p) as -> by (eapply NoDup_fst_fun; [exact I1'|exact K1|exact Hp]).
    destruct (IH p1 K3) as (p' & Hp' & R'). exists p'. split; [exact Hp'|]. eapply dr_char; [exact K4| |exact R'].
    destruct (calls_In _ _ _ _ I2 _ _ K2) as (t1 & t2 & Hg). now apply (HAS _ _ _ _ Hg).
  - intros p w p' R. induction R as [p|p m c p1 w p' He Hc _ IH]; intros q Hq; [exists q; split; [exact Hq|constructor]|].
    destruct (I6 _ _ _ He) as (q0 & l & q1 & Hd & K1 & K2 & K3).
    assert (q0 = q) as -> by (eapply NoDup_snd_inj; [exact NS|exact K1|exact Hq]).
    destruct (IH q1 K3) as (q' & Hq' & R'). exists q'. split; [exact Hq'|]. eapply dr_char; [apply triples_In; exact Hd| |exact R'].
    destruct (calls_In _ _ _ _ I2 _ _ K2) as (t1 & t2 & Hg). now apply (HAS _ _ _ _ Hg).
Qed.

Theorem map_language d' : dfa_map f g d s0 t0 = Ok d' -> forall w, d_accepts has' d' w <-> d_accepts has d w.
Proof.
  unfold dfa_map. intro H. apply bind_Ok in H as (st0 & H0 & H). apply bind_Ok in H as (st & H1 & H).
  assert (HC : (let* st := map_start f d s0 t0 in map_sources f g (d_transitions d) st) = Ok st) by (rewrite H0; exact H1).
  apply map_core in HC. apply bind_Ok in H as ([res [ms' s']] & H & [= <-]).
  destruct (map_run _ HC) as [RF RB]. destruct HC as [I1 I2 I3 I3' I4 I5 I6].
  destruct st as [[[ms s] [ls t]] res0]. cbn [fst snd] in *.
  apply map_finals_spec in H as (T & X & Ei & Et & HK & HF); [|exact I1].
  assert (NS : NoDup (map snd ms')) by (destruct T; eauto).
  assert (RUN : forall p w p', d_run has' res p w p' <-> d_run has' res0 p w p').
  { intros p w p'. split; intro R; (induction R as [|? ? ? ? ? ? He Hc _ IH]; [constructor|]); (eapply dr_char; [|exact Hc|exact IH]);
      unfold d_edge in *; [rewrite <- Et|rewrite Et]; exact He. }
  intro w. unfold d_accepts. rewrite Ei. split.
  - intros (p' & Hf & R). apply RUN in R. destruct (RB _ _ _ R _ I3) as (q' & Hq' & R').
    exists q'. split; [|exact R']. apply HF in Hf as [Hf|(q & Hq & Hp)]; [rewrite I3' in Hf; destruct Hf|].
    assert (q' = q) as ->; [|exact Hq]. eapply NoDup_snd_inj; [exact NS|apply X; exact Hq'|exact Hp].
  - intros (q' & Hf & R). destruct (RF _ _ _ R _ I3) as (p' & Hp' & R'). exists p'. split; [|now apply RUN].
    apply HF. right. exists q'. split; [exact Hf|auto].
Qed.

(** [try_map]: the transitions are kept, the final states are lost. *)
Theorem try_map_language d' : dfa_try_map f g d s0 t0 = Ok d' ->
  d_final d' = [] /\
  exists phi : Q -> P -> Prop,
    (forall q p p', phi q p -> phi q p' -> p = p') /\ (forall q q' p, phi q p -> phi q' p -> q = q') /\
    forall w, (forall q, d_run has d (d_initial d) w q -> exists p, phi q p /\ d_run has' d' (d_initial d') w p) /\
              (forall p, d_run has' d' (d_initial d') w p -> exists q, phi q p /\ d_run has d (d_initial d) w q).
Proof.
  unfold dfa_try_map. intro H. apply bind_Ok in H as (st0 & H0 & H). apply bind_Ok in H as (st & H1 & [= <-]).
  assert (HC : (let* st := map_start f d s0 t0 in map_sources f g (d_transitions d) st) = Ok st) by (rewrite H0; exact H1).
  apply map_core in HC. destruct (map_run _ HC) as [RF RB]. destruct HC as [[I1 I1'] I2 I3 I3' I4 I5 I6].
  split; [exact I3'|]. exists (fun q p => In (q, p) (fst (fst (fst st)))). split; [|split; [|intro w; split]].
  - intros q p p'. now apply NoDup_fst_fun.
  - intros q q' p. apply NoDup_snd_inj. eauto.
  - intros q R. eauto.
  - intros p R. eauto.
Qed.
End Language.

(** No error and no panic besides those of [f] and [g]. *)
Lemma map_total (d : dfa Q L) : (forall q s, exists r, f q s = Ok r) -> (forall l t, exists r, g l t = Ok r) ->
  (exists d', dfa_map f g d s0 t0 = Ok d') /\ (exists d', dfa_try_map f g d s0 t0 = Ok d').
Proof.
  intros Tf Tg.
  assert (Mf : forall q ms, exists r, memo f q ms = Ok r).
  { intros q ms. unfold memo. destruct (bt_get q (fst ms)); [eauto|]. destruct (Tf q (snd ms)) as ([v s] & ->). eexists; reflexivity. }
  assert (Mg : forall l ls, exists r, memo g l ls = Ok r).
  { intros q ms. unfold memo. destruct (bt_get q (fst ms)); [eauto|]. destruct (Tg q (snd ms)) as ([v s] & ->). eexists; reflexivity. }
  assert (HT : forall q ts st, exists st', map_transitions f g q ts st = Ok st').
  { intros q ts. induction ts as [|[l r] ts IH]; intros [[ms ls] rs]; cbn [map_transitions]; [eauto|].
    destruct (Mf q ms) as ([q' ms1] & ->). cbn [bind]. destruct (Mf r ms1) as ([r' ms2] & ->). cbn [bind].
    destruct (Mg l ls) as ([l' ls1] & ->). cbn [bind]. apply IH. }
  assert (HS : forall l st, exists st', map_sources f g l st = Ok st').
  { induction l as [|[q ts] l IH]; intro st; cbn [map_sources]; [eauto|]. destruct (HT q ts st) as (st1 & ->). apply IH. }
  assert (HF : forall l ms (rs : dfa P M), exists r, map_finals f l ms rs = Ok r).
  { induction l as [|q l IH]; intros ms rs; cbn [map_finals]; [eauto|]. destruct (Mf q ms) as ([q' ms1] & ->). apply IH. }
  unfold dfa_map, dfa_try_map, map_start. destruct (Tf (d_initial d) s0) as ([i s] & ->). cbn [bind].
  destruct (HS (d_transitions d) (((d_initial d, i) :: [], s), ([], t0), Dfa i [] [])) as (st & ->). cbn [bind]. split; [|eexists; reflexivity].
  destruct (HF (d_final d) (fst (fst st)) (snd st)) as ([r ms] & ->). eexists; reflexivity.
Qed.
End Map.
