(** * Compilation of any expression: proofs *)

From Coq Require Import String List Bool Arith NArith Lia.
Import ListNotations.
From Verif Require Import Base BaseProofs Orders CharModel CharSpec CharProofs AutomatonModel AutomatonSpec AutomatonProofs AutomatonDet AutomatonTerm
  AutomatonMap AutomatonProperties AutomatonEdges RegexpModel RegexpSpec RegexpBuild.
Open Scope list_scope.

(** ** The states and transitions added *)
Record part (G : graph) (n m x y : nat) : Prop := {
  p_within : within G n m;
  p_x : n <= x < m;
  p_y : n <= y < m
}.

Definition shaped (f : builder -> (nat * nat) * builder) (closed : bool) : Prop :=
  forall n, exists G m x y, builds f n G m x y /\ part G n m x y /\ (closed = true -> closed_end G y).

Lemma within_mono G n m n' m' : within G n m -> n' <= n -> m <= m' -> within G n' m'.
Proof. intros W A B p l q H. apply W in H. lia. Qed.

Lemma shaped_repeat f c : shaped f c -> forall max min, shaped (build_repeat f max min) true.
Proof.
  intros Hf max. induction max as [|max IH]; intros min n.
  - exists empty_graph, (S n), n, n. split; [|split; [|intros _ l q []]].
    + intros A W. exists A. split; [destruct min; reflexivity|]. split; [exact W|]. split; [reflexivity|]. split; [reflexivity|]. intros; unfold empty_graph; tauto.
    + split; [intros p l q []|lia|lia].
  - destruct (Hf n) as (G1 & m & x & y & B1 & [W1 X1 Y1] & _). destruct min as [|min].
    + destruct (IH 0 m) as (G2 & k & rx & ry & B2 & [W2 X2 Y2] & C2). exists (gunion (gunion G1 G2) (gunion (edge x ry) (edge y rx))), k, x, ry. split; [|split].
      * intros A W. destruct (B1 A W) as (A1 & E1 & WA1 & I1 & N1 & D1). destruct (B2 A1 WA1) as (A2 & E2 & WA2 & I2 & N2 & D2).
        destruct (add_eps A2 x ry WA2) as (W3 & I3 & N3 & X3). destruct (add_eps _ y rx W3) as (W4 & I4 & N4 & X4).
        exists (nfa_add y None rx (nfa_add x None ry A2)). cbn [build_repeat]. rewrite E1, E2. split; [reflexivity|]. split; [exact W4|].
        split; [congruence|]. split; [congruence|]. intros p l q. rewrite X4, X3, D2, D1. unfold gunion. tauto.
      * split; [|lia|lia]. intros p l q [[H|H]|[(-> & -> & ->)|(-> & -> & ->)]]; [apply W1 in H|apply W2 in H| |]; lia.
      * intros _ l q [[H|H]|[(H & _)|(H & _)]]; [apply W1 in H; lia|now apply C2 in H|lia|lia].
    + destruct (IH min m) as (G2 & k & rx & ry & B2 & [W2 X2 Y2] & C2). exists (gunion (gunion G1 G2) (edge y rx)), k, x, ry. split; [|split].
      * intros A W. destruct (B1 A W) as (A1 & E1 & WA1 & I1 & N1 & D1). destruct (B2 A1 WA1) as (A2 & E2 & WA2 & I2 & N2 & D2).
        destruct (add_eps A2 y rx WA2) as (W3 & I3 & N3 & X3).
        exists (nfa_add y None rx A2). cbn [build_repeat]. rewrite E1, E2. split; [reflexivity|]. split; [exact W3|].
        split; [congruence|]. split; [congruence|]. intros p l q. rewrite X3, D2, D1. unfold gunion. tauto.
      * split; [|lia|lia]. intros p l q [[H|H]|(-> & -> & ->)]; [apply W1 in H|apply W2 in H|]; lia.
      * intros _ l q [[H|H]|(H & _)]; [apply W1 in H; lia|now apply C2 in H|lia].
Qed.

Lemma shaped_unbounded f c : shaped f c -> forall min, shaped (build_unbounded f min) false.
Proof.
  intros Hf min. induction min as [|min IH]; intro n; destruct (Hf n) as (G1 & m & x & y & B1 & [W1 X1 Y1] & _).
  - exists (gunion G1 (gunion (edge x y) (edge y x))), m, x, y. split; [|split; [|discriminate]].
    + intros A W. destruct (B1 A W) as (A1 & E1 & WA1 & I1 & N1 & D1).
      destruct (add_eps A1 x y WA1) as (W3 & I3 & N3 & X3). destruct (add_eps _ y x W3) as (W4 & I4 & N4 & X4).
      exists (nfa_add y None x (nfa_add x None y A1)). cbn [build_unbounded]. rewrite E1. split; [reflexivity|]. split; [exact W4|].
      split; [congruence|]. split; [congruence|]. intros p l q. rewrite X4, X3, D1. unfold gunion. tauto.
    + split; [|lia|lia]. intros p l q [H|[(-> & -> & ->)|(-> & -> & ->)]]; [apply W1 in H| |]; lia.
  - destruct (IH m) as (G2 & k & rx & ry & B2 & [W2 X2 Y2] & C2). exists (gunion (gunion G1 G2) (edge y rx)), k, x, ry. split; [|split; [|discriminate]].
    + intros A W. destruct (B1 A W) as (A1 & E1 & WA1 & I1 & N1 & D1). destruct (B2 A1 WA1) as (A2 & E2 & WA2 & I2 & N2 & D2).
      destruct (add_eps A2 y rx WA2) as (W3 & I3 & N3 & X3).
      exists (nfa_add y None rx A2). cbn [build_unbounded]. rewrite E1, E2. split; [reflexivity|]. split; [exact W3|].
      split; [congruence|]. split; [congruence|]. intros p l q. rewrite X3, D2, D1. unfold gunion. tauto.
    + split; [|lia|lia]. intros p l q [[H|H]|(-> & -> & ->)]; [apply W1 in H|apply W2 in H|]; lia.
Qed.

(** The end of the fragment of [e] has no transition, unless [e] is an unbounded repetition. *)
Definition ends (e : regexp) : bool := match e with RRepeat _ _ None => false | _ => true end.
Definition shape (e : regexp) : Prop := shaped (build_into e) (ends e).

(** *** Unions *)
Lemma shaped_all l : Forall shape l -> forall a b n m G, within G n m -> n <= a < m -> n <= b < m -> a <> b -> closed_end G b -> exists G' k,
  within G' n k /\ m <= k /\ closed_end G' b /\
  forall A0 A, nfa_wf A -> (forall p l q, n_edge A p l q <-> n_edge A0 p l q \/ G p l q) ->
    exists A', build_all l a b (m, A) = (k, A') /\ nfa_wf A' /\ n_initial A' = n_initial A /\ n_final A' = n_final A /\
      forall p l q, n_edge A' p l q <-> n_edge A0 p l q \/ G' p l q.
Proof.
  induction 1 as [|e l He Hl IH]; intros a b n m G W Ha Hb AB C.
  - exists G, m. split; [exact W|]. split; [lia|]. split; [exact C|]. intros A0 A WA HE. exists A. split; [reflexivity|]. auto.
  - destruct (He m) as (G2 & k & x & y & B2 & [W2 X2 Y2] & _).
    destruct (IH a b n k (gunion (gunion G G2) (gunion (edge a x) (edge y b)))) as (G' & k' & W' & LE & C' & HB); try lia.
    + intros p l0 q [[H|H]|[(-> & -> & ->)|(-> & -> & ->)]]; [apply W in H|apply W2 in H| |]; lia.
    + intros l0 q [[H|H]|[(H & _)|(H & _)]]; [now apply C in H|apply W2 in H; lia|lia|lia].
    + exists G', k'. split; [exact W'|]. split; [lia|]. split; [exact C'|]. intros A0 A WA HE. destruct (B2 A WA) as (A1 & E1 & WA1 & I1 & N1 & D1).
      destruct (add_eps A1 a x WA1) as (W3 & I3 & N3 & X3). destruct (add_eps _ y b W3) as (W4 & I4 & N4 & X4).
      destruct (HB A0 (nfa_add y None b (nfa_add a None x A1))) as (A' & E' & WA' & I' & N' & X'); [exact W4| |].
      * intros p l0 q. rewrite X4, X3, D1, HE. unfold gunion. tauto.
      * exists A'. cbn [build_all]. rewrite E1. unfold b_add. cbn [fst snd]. split; [exact E'|]. split; [exact WA'|].
        split; [congruence|]. split; [congruence|exact X'].
Qed.

(** *** Sequences *)
Fixpoint build_seq (l : list regexp) (x : nat) (b : builder) : nat * builder :=
  match l with
  | [] => (x, b)
  | e :: l' => let '((ex, ey), b) := build_into e b in build_seq l' ey (b_add x None ex b)
  end.
Lemma build_into_seq l b : build_into (RSequence l) b =
  let (x, b) := build_seq l (fst b) (S (fst b), snd b) in ((x, fst b), b_add x None (fst b) (S (fst b), snd b)).
Proof.
  destruct b as [n A]. cbn [build_into new_state fst snd].
  match goal with |- (let (_, _) := ?go l n _ in _) = _ => assert (E : forall l x b, go l x b = build_seq l x b) end.
  { clear. induction l as [|e l IH]; intros x b; [reflexivity|]. cbn [build_seq]. destruct (build_into e b) as [[ex ey] b']. apply IH. }
  rewrite E. destruct (build_seq l n (S n, A)) as [x [k A']]. reflexivity.
Qed.

Lemma shaped_seq l : Forall shape l -> forall a n m G, within G n m -> n <= a < m -> exists G' k x,
  within G' n k /\ n <= x < k /\ (closed_end G a \/ l <> [] -> ends (last l RAny) = true -> closed_end G' x) /\
  forall A0 A, nfa_wf A -> (forall p l q, n_edge A p l q <-> n_edge A0 p l q \/ G p l q) ->
    exists A', build_seq l a (m, A) = (x, (k, A')) /\ nfa_wf A' /\ n_initial A' = n_initial A /\ n_final A' = n_final A /\
      forall p l q, n_edge A' p l q <-> n_edge A0 p l q \/ G' p l q.
Proof.
  induction 1 as [|e l He Hl IH]; intros a n m G W Ha.
  - exists G, m, a. split; [exact W|]. split; [exact Ha|]. split; [intros [H|H]; [auto|congruence]|]. intros A0 A WA HE. exists A. split; [reflexivity|]. auto.
  - destruct (He m) as (G2 & k & x & y & B2 & [W2 X2 Y2] & C2).
    destruct (IH y n k (gunion (gunion G G2) (edge a x))) as (G' & k' & x' & W' & LE & C' & HB); try lia.
    + intros p l0 q [[H|H]|(-> & -> & ->)]; [apply W in H|apply W2 in H|]; lia.
    + exists G', k', x'. split; [exact W'|]. split; [lia|]. split.
      * intros _ EN. destruct l as [|e' l].
        -- apply C'; [|exact eq_refl]. left. cbn [last] in EN. intros l0 q [[H|H]|(H & _)]; [apply W in H; lia|exact (C2 EN _ _ H)|lia].
        -- apply C'; [right; discriminate|exact EN].
      * intros A0 A WA HE. destruct (B2 A WA) as (A1 & E1 & WA1 & I1 & N1 & D1).
        destruct (add_eps A1 a x WA1) as (W3 & I3 & N3 & X3).
        destruct (HB A0 (nfa_add a None x A1)) as (A' & E' & WA' & I' & N' & X'); [exact W3| |].
        -- intros p l0 q. rewrite X3, D1, HE. unfold gunion. tauto.
        -- exists A'. cbn [build_seq]. rewrite E1. unfold b_add. cbn [fst snd]. split; [exact E'|]. split; [exact WA'|].
           split; [congruence|]. split; [congruence|exact X'].
Qed.

Theorem build_into_shape e : sets_good e -> shape e.
Proof.
  induction e as [|s|l IH|e min max IH|l IH] using regexp_ind'; intro SG.
  - intro n. exists (fun p l q => p = n /\ l = Some any_set /\ q = S n), (S (S n)), n, (S n). split; [apply builds_label, any_set_good|].
    split; [split; [intros p l q (-> & -> & ->)| |]; lia|]. intros _ l q (H & _). lia.
  - inversion SG; subst. intro n. exists (fun p l q => p = n /\ l = Some s /\ q = S n), (S (S n)), n, (S n). split; [now apply builds_label|].
    split; [split; [intros p l q (-> & -> & ->)| |]; lia|]. intros _ l q (H & _). lia.
  - inversion SG as [| |l' SG'| |]; subst. assert (HB : Forall shape l) by (rewrite Forall_forall in *; auto). intro n.
    destruct (shaped_seq l HB n n (S n) empty_graph) as (G & k & x & W & X & _ & HE); [intros p l0 q []|lia|].
    exists (gunion G (edge x k)), (S k), x, k. split; [|split].
    + intros A WA. destruct (HE A A WA) as (A' & E' & W' & I' & N' & X'); [intros; unfold empty_graph; tauto|].
      destruct (add_eps A' x k W') as (W3 & I3 & N3 & X3). exists (nfa_add x None k A').
      rewrite build_into_seq. cbn [fst snd]. rewrite E'. cbn [fst snd b_add]. split; [reflexivity|]. split; [exact W3|]. split; [congruence|]. split; [congruence|].
      intros p l0 q. rewrite X3, X'. unfold gunion. tauto.
    + split; [|lia|lia]. intros p l0 q [H|(-> & -> & ->)]; [apply W in H|]; lia.
    + intros _ l0 q [H|(H & _)]; [apply W in H|]; lia.
  - inversion SG; subst. specialize (IH H0). destruct max as [max|]; [eapply (shaped_repeat _ _ IH)|eapply (shaped_unbounded _ _ IH)].
  - inversion SG as [| | |l' SG'|]; subst. assert (HB : Forall shape l) by (rewrite Forall_forall in *; auto). intro n.
    destruct (shaped_all l HB n (S n) n (S (S n)) empty_graph) as (G & k & W & LE & C & HE); [intros p l0 q []|lia|lia|lia|intros l0 q []|].
    exists G, k, n, (S n). split; [|split; [split; [exact W|lia|lia]|auto]].
    intros A WA. destruct (HE A A WA) as (A' & E' & W' & I' & N' & X'); [intros; unfold empty_graph; tauto|].
    exists A'. rewrite build_into_union. cbn [fst snd]. rewrite E'. auto.
Qed.

Theorem build_nfa_wf e : sets_good e -> nfa_wf (build_nfa e).
Proof.
  intro SG. destruct (build_into_shape e SG 0) as (G & m & x & y & B & _). destruct (C33_well_formed (Q := nat)) as (W0 & _ & _ & W1 & W2).
  destruct (B nfa_new W0) as (A & E & W & _). unfold build_nfa. rewrite E. now apply W2, W1.
Qed.

(** The automaton of a sequence. *)
Theorem build_nfa_seq l : sets_good (RSequence l) -> l <> [] ->
  n_accepts (build_nfa (RSequence l)) [] /\
  (ends (last l RAny) = true -> forall w, n_accepts (build_nfa (RSequence l)) w -> w = []).
Proof.
  intros SG NE. inversion SG as [| |l' SG'| |]; subst.
  assert (HB : Forall shape l) by (eapply Forall_impl; [intro e; apply build_into_shape|exact SG']).
  destruct (shaped_seq l HB 0 0 1 empty_graph) as (G & k & x & W & X & C & HE); [intros p l0 q []|lia|].
  destruct (C33_well_formed (Q := nat)) as (W0 & _).
  destruct (HE nfa_new nfa_new W0) as (A' & E' & W' & I' & N' & X'); [intros; unfold empty_graph; tauto|].
  destruct (add_eps A' x k W') as (W3 & I3 & N3 & X3).
  unfold build_nfa. rewrite build_into_seq. cbn [fst snd]. rewrite E'. cbn [fst snd b_add].
  assert (XE : forall p l q, n_edge (nfa_add x None k A') p l q <-> G p l q \/ edge x k p l q).
  { intros p l0 q. rewrite X3, X'. split; [intros [[H|H]|H]; [now apply C65_new in H|auto|auto]|tauto]. }
  unfold n_accepts, add_final_state, add_initial_state. cbn [n_initial n_final]. rewrite I3, N3, I', N'. cbn [nfa_new n_initial n_final set_insert].
  set (A1 := Nfa _ _ _). assert (XE1 : forall p l q, n_edge A1 p l q <-> G p l q \/ edge x k p l q) by (intros; apply XE). split.
  - exists x, k. split; [now left|]. split; [now left|]. eapply nr_epsilon; [|constructor]. apply XE1. right. split; auto.
  - intros EN w (i & f & [<-|[]] & [<-|[]] & H). specialize (C (or_intror NE) EN).
    assert (K : forall w q, n_run A1 k w q -> w = []).
    { clear - W XE1 X. intros w q R. inversion R as [|p q' w' r H R'|p s c q' w' r H M R']; subst; [reflexivity| |].
      - apply XE1 in H as [H|(H & _)]; [apply W in H; lia|lia].
      - apply XE1 in H as [H|(H & _)]; [apply W in H; lia|lia]. }
    inversion H as [|p q w' r H1 R|p s c q w' r H1 M R]; subst; [lia| |].
    + apply XE1 in H1 as [H1|(_ & _ & ->)]; [now apply C in H1|]. eapply K, R.
    + apply XE1 in H1 as [H1|(_ & H1 & _)]; [now apply C in H1|discriminate].
Qed.

(** ** The determinized automaton, renumbered *)
Lemma det_wf {Q} {CQ : Cmp Q} {LQ : CmpLaws Q} (a : nfa Q) fuel d : nfa_wf a -> determinize fuel a = Ok d -> dfa_wf d.
Proof.
  intros W H. destruct (det_states a W fuel d H) as (vis & _ & _ & _ & _ & WF & _ & HT). split; [exact WF|].
  intros q ts Hq. destruct (HT q ts Hq) as (m & _ & -> & _). apply bt_collect_wf.
Qed.

Lemma number_state_inj {K} m s : calls (number_state (Q := K)) 0 m s -> NoDup (map fst m) -> NoDup (map snd m).
Proof.
  enough (H : forall t, calls (number_state (Q := K)) t m s -> (forall v, In v (map snd m) -> t <= v) /\ NoDup (map snd m)) by (intros C _; now apply (H 0)).
  induction m as [|[k v] m IH]; intros t C; inversion C as [|? ? ? t1 ? ? E C']; subst.
  - split; [intros ? []|constructor].
  - injection E as <- <-. destruct (IH _ C') as [H1 H2]. split.
    + intros v [<-|Hv]; [apply Nat.le_refl|]. apply H1 in Hv. cbn [snd] in *. lia.
    + cbn [map snd]. constructor; [|exact H2]. intro Hv. apply H1 in Hv. lia.
Qed.
Lemma same_label_inj m s : calls same_label tt m s -> NoDup (map fst m) -> NoDup (map snd m).
Proof.
  intros C. enough (E : map snd m = map fst m) by (rewrite E; auto).
  induction C as [|k v t t1 m t2 E _ IH]; [reflexivity|]. injection E as <- <-. cbn [map fst snd]. now f_equal.
Qed.

Theorem re_build_accepts fuel e d : sets_good e -> re_build fuel e = Ok d -> forall w, d_accepts range_has d w <-> n_accepts (build_nfa e) w.
Proof.
  intros SG H w. unfold re_build in H. apply bind_Ok in H as (dt & H1 & H2). pose proof (build_nfa_wf e SG) as W.
  destruct (C33_determinize _ _ _ W H1) as [_ L]. rewrite <- L.
  apply (C35_map number_state same_label 0 tt number_state_inj same_label_inj range_has range_has) with (3 := H2); [|eapply det_wf; eassumption].
  intros l t m t' [= <- _] c. reflexivity.
Qed.

Theorem re_build_total e : sets_good e -> exists bound, forall fuel, bound <= fuel -> exists d, re_build fuel e = Ok d.
Proof.
  intro SG. destruct (C33_determinize_total _ (build_nfa_wf e SG)) as (bound & H). exists bound. intros fuel LE. destruct (H fuel LE) as (dt & E).
  unfold re_build. rewrite E. cbn [bind]. apply C35_map_total; [intros; eexists; reflexivity|intros; eexists; reflexivity].
Qed.

