(** * Compilation of regular expressions: proofs *)

From Coq Require Import String List Bool Arith NArith Lia.
Import ListNotations.
From Verif Require Import Base BaseProofs Orders CharModel CharSpec CharProofs AutomatonModel AutomatonSpec AutomatonProofs AutomatonProperties
  AutomatonEdges RegexpModel RegexpSpec.
Open Scope list_scope.

(** Induction on nested expressions. *)
Section Ind.
Variable P : regexp -> Prop.
Hypothesis Pany : P RAny.
Hypothesis Pset : forall s, P (RSet s).
Hypothesis Pseq : forall l, Forall P l -> P (RSequence l).
Hypothesis Prep : forall e min max, P e -> P (RRepeat e min max).
Hypothesis Puni : forall l, Forall P l -> P (RUnion l).
Fixpoint regexp_ind' (e : regexp) : P e :=
  match e with
  | RAny => Pany
  | RSet s => Pset s
  | RSequence l => Pseq l ((fix go l : Forall P l := match l with [] => Forall_nil _ | e :: l => Forall_cons _ (regexp_ind' e) (go l) end) l)
  | RRepeat e min max => Prep e min max (regexp_ind' e)
  | RUnion l => Puni l ((fix go l : Forall P l := match l with [] => Forall_nil _ | e :: l => Forall_cons _ (regexp_ind' e) (go l) end) l)
  end.
End Ind.

(** ** Graphs *)
Definition graph : Type := nat -> option charset -> nat -> Prop.

Inductive g_run (G : graph) : nat -> list N -> nat -> Prop :=
| gr_nil p : g_run G p [] p
| gr_eps p q w r : G p None q -> g_run G q w r -> g_run G p w r
| gr_char p s c q w r : G p (Some s) q -> cs_mem c s = true -> is_char c = true -> g_run G q w r -> g_run G p (c :: w) r.

Lemma g_run_app G p w q : g_run G p w q -> forall w' r, g_run G q w' r -> g_run G p (w ++ w') r.
Proof. induction 1; intros; cbn; [assumption|eapply gr_eps; eauto|eapply gr_char; eauto]. Qed.

Lemma g_run_sub (G G' : graph) : (forall p l q, G p l q -> G' p l q) -> forall p w q, g_run G p w q -> g_run G' p w q.
Proof. intros S p w q R. induction R; [constructor|eapply gr_eps; eauto|eapply gr_char; eauto]. Qed.

Lemma g_run_chars G p w q : g_run G p w q -> chars w.
Proof. induction 1; [constructor|assumption|constructor; assumption]. Qed.

(** The states of [G] are between [n] (included) and [m]. *)
Definition within (G : graph) (n m : nat) : Prop := forall p l q, G p l q -> n <= p < m /\ n <= q < m.

Definition lang : Type := list N -> Prop.
Inductive star (L : lang) : lang :=
| st_nil : star L []
| st_cons w w' : L w -> star L w' -> star L (w ++ w').

Lemma star_app L w : star L w -> forall w', star L w' -> star L (w ++ w').
Proof. induction 1; intros; cbn; [assumption|]. rewrite <- app_assoc. constructor; auto. Qed.
Lemma star_one (L : lang) w : L w -> star L w.
Proof. intro H. rewrite <- (app_nil_r w). constructor; [exact H|constructor]. Qed.
Lemma star_sub (L L' : lang) : (forall w, L w -> star L' w) -> forall w, star L w -> star L' w.
Proof. intros S w H. induction H; [constructor|]. apply star_app; auto. Qed.

Definition gunion (G1 G2 : graph) : graph := fun p l q => G1 p l q \/ G2 p l q.
Definition edge (a b : nat) : graph := fun p l q => p = a /\ l = None /\ q = b.

(** Two disjoint graphs, and epsilon edges from the first to the second. *)
Section Cross.
Variables (G1 G2 X : graph) (n m k : nat).
Hypothesis W1 : within G1 n m.
Hypothesis W2 : within G2 m k.
Hypothesis WX : forall p l q, X p l q -> l = None /\ n <= p < m /\ m <= q < k.
Let G : graph := gunion (gunion G1 G2) X.

Lemma cross_right p w q : g_run G p w q -> m <= p -> g_run G2 p w q /\ m <= q.
Proof.
  induction 1 as [p|p q w r E R IH|p s c q w r E Hm Hc R IH]; intro Hp; [split; [constructor|exact Hp]| |].
  - destruct E as [[E|E]|E]; [apply W1 in E; lia| |apply WX in E; lia].
    pose proof (W2 _ _ _ E). destruct IH; [lia|]. split; [eapply gr_eps; eassumption|assumption].
  - destruct E as [[E|E]|E]; [apply W1 in E; lia| |apply WX in E; lia].
    pose proof (W2 _ _ _ E). destruct IH; [lia|]. split; [eapply gr_char; eassumption|assumption].
Qed.

Lemma cross_left p w q : g_run G p w q -> p < m ->
  (q < m /\ g_run G1 p w q) \/
  (m <= q /\ exists w1 w2 p' q', w = w1 ++ w2 /\ g_run G1 p w1 p' /\ X p' None q' /\ g_run G2 q' w2 q).
Proof.
  induction 1 as [p|p q w r E R IH|p s c q w r E Hm Hc R IH]; intro Hp; [left; split; [exact Hp|constructor]| |].
  - destruct E as [[E|E]|E]; [|apply W2 in E; lia|].
    + pose proof (W1 _ _ _ E). destruct IH as [[Hq A]|(Hq & w1 & w2 & p' & q' & -> & A & B & C)]; [lia| |].
      * left. split; [exact Hq|eapply gr_eps; eassumption].
      * right. split; [exact Hq|]. exists w1, w2, p', q'. split; [reflexivity|]. split; [eapply gr_eps; eassumption|auto].
    + pose proof (WX _ _ _ E) as (_ & _ & Hq). destruct (cross_right _ _ _ R) as [A B]; [lia|].
      right. split; [exact B|]. exists [], w, p, q. split; [reflexivity|]. split; [constructor|auto].
  - destruct E as [[E|E]|E]; [|apply W2 in E; lia|apply WX in E as [[=] _]].
    pose proof (W1 _ _ _ E). destruct IH as [[Hq A]|(Hq & w1 & w2 & p' & q' & -> & A & B & C)]; [lia| |].
    + left. split; [exact Hq|eapply gr_char; eassumption].
    + right. split; [exact Hq|]. exists (c :: w1), w2, p', q'. split; [reflexivity|]. split; [eapply gr_char; eassumption|auto].
Qed.
End Cross.

(** A graph with epsilon edges between two states. *)
Section Loop.
Variables (G1 X : graph) (x y : nat) (T : lang).
Hypothesis WX : forall p l q, X p l q -> l = None /\ (p = x \/ p = y) /\ (q = x \/ q = y).
Hypothesis HT : forall p w q, (p = x \/ p = y) -> (q = x \/ q = y) -> g_run G1 p w q -> star T w.

Lemma loop_run p w q : g_run (gunion G1 X) p w q -> (q = x \/ q = y) ->
  exists w1 w2 q1, w = w1 ++ w2 /\ g_run G1 p w1 q1 /\ (q1 = x \/ q1 = y) /\ star T w2.
Proof.
  induction 1 as [p|p q w r E R IH|p s c q w r E Hm Hc R IH]; intro Hq.
  - exists [], [], p. split; [reflexivity|]. split; [constructor|]. split; [exact Hq|constructor].
  - destruct (IH Hq) as (w1 & w2 & q1 & -> & A & B & C). destruct E as [E|E].
    + exists w1, w2, q1. split; [reflexivity|]. split; [eapply gr_eps; eassumption|auto].
    + apply WX in E as (_ & Hp & Hq'). exists [], (w1 ++ w2), p. split; [reflexivity|]. split; [constructor|]. split; [exact Hp|].
      apply star_app; [|exact C]. exact (HT _ _ _ Hq' B A).
  - destruct E as [E|E]; [|apply WX in E as [[=] _]]. destruct (IH Hq) as (w1 & w2 & q1 & -> & A & B & C).
    exists (c :: w1), w2, q1. split; [reflexivity|]. split; [eapply gr_char; eassumption|auto].
Qed.

Lemma loop_star p w q : g_run (gunion G1 X) p w q -> (p = x \/ p = y) -> (q = x \/ q = y) -> star T w.
Proof. intros R Hp Hq. destruct (loop_run p w q R Hq) as (w1 & w2 & q1 & -> & A & B & C). apply star_app; [|exact C]. exact (HT _ _ _ Hp B A). Qed.
End Loop.

(** ** Fragments *)

(** A part of an automaton, of states between [n] and [m], that reads the language [L] from [x] to [y]. *)
Record frag (G : graph) (n m x y : nat) (L : lang) : Prop := {
  f_within : within G n m;
  f_x : n <= x < m;
  f_y : n <= y < m;
  f_labels : forall p s q, G p (Some s) q -> cs_good s;
  f_lang : forall w, g_run G x w y <-> L w;
  f_xx : forall w, g_run G x w x -> w = [] \/ (L w /\ L [])
}.
(** It may be repeated: nothing but repetitions of [L] is read from its last state. *)
Record loop_frag (G : graph) (x y : nat) (L : lang) : Prop := {
  l_yy : forall w, g_run G y w y -> star L w;
  l_yx : forall w, g_run G y w x -> star L w
}.

(** The exit has no exit. *)
Definition closed_end (G : graph) (y : nat) : Prop := forall l q, ~ G y l q.

Lemma closed_end_run G y w q : closed_end G y -> g_run G y w q -> w = [] /\ q = y.
Proof. intros C R. destruct R as [|p q w r E R|p s c q w r E]; [auto|now apply C in E|now apply C in E]. Qed.

(** Exactly [k] words, for a [k] between [min] and [max]. *)
Definition rep (L : lang) (min : nat) (max : option nat) : lang :=
  fun w => exists ws, w = concat ws /\ Forall L ws /\ min <= length ws /\ forall m, max = Some m -> length ws <= m.

Lemma rep_star L w : rep L 0 None w <-> star L w.
Proof.
  split.
  - intros (ws & -> & F & _). induction F; cbn; constructor; assumption.
  - induction 1 as [|w w' H S (ws & -> & F & _)]; [exists []; split; [reflexivity|split; [constructor|split; [lia|discriminate]]]|].
    exists (w :: ws). split; [reflexivity|]. split; [constructor; assumption|]. split; [lia|discriminate].
Qed.
Lemma rep_S (L : lang) min max w : rep L (S min) (option_map S max) w <-> exists w1 w2, w = w1 ++ w2 /\ L w1 /\ rep L min max w2.
Proof.
  split.
  - intros (ws & -> & F & A & B). destruct F as [|w1 ws H F]; [cbn in A; lia|]. cbn in *. exists w1, (concat ws). split; [reflexivity|]. split; [exact H|].
    exists ws. split; [reflexivity|]. split; [exact F|]. split; [lia|]. intros m ->. specialize (B (S m) eq_refl). lia.
  - intros (w1 & w2 & -> & H & ws & -> & F & A & B). exists (w1 :: ws). split; [reflexivity|]. split; [constructor; assumption|].
    cbn. split; [lia|]. intros m E. destruct max as [m'|]; [|discriminate]. injection E as <-. specialize (B m' eq_refl). lia.
Qed.
Lemma rep_0 (L : lang) max w : rep L 0 (Some (S max)) w <-> w = [] \/ exists w1 w2, w = w1 ++ w2 /\ L w1 /\ rep L 0 (Some max) w2.
Proof.
  split.
  - intros (ws & -> & F & A & B). destruct F as [|w1 ws H F]; [now left|]. right. exists w1, (concat ws). split; [reflexivity|]. split; [exact H|].
    exists ws. split; [reflexivity|]. split; [exact F|]. split; [lia|]. intros m [= <-]. specialize (B (S max) eq_refl). cbn in B. lia.
  - intros [->|(w1 & w2 & -> & H & ws & -> & F & A & B)].
    + exists []. split; [reflexivity|]. split; [constructor|]. split; [cbn; lia|intros; cbn; lia].
    + exists (w1 :: ws). split; [reflexivity|]. split; [constructor; assumption|]. cbn. split; [lia|]. intros m [= <-]. specialize (B max eq_refl). lia.
Qed.
Lemma rep_pad (L : lang) w : L w -> L [] -> forall min max, 0 < min -> (forall m, max = Some m -> min <= m) -> rep L min max w.
Proof.
  intros H H0 min max P B. exists (w :: repeat [] (min - 1)). cbn. rewrite repeat_length. split; [|split; [|split; [lia|]]].
  - induction (min - 1); cbn; [now rewrite app_nil_r|assumption].
  - constructor; [exact H|]. apply Forall_forall. intros v Hv. apply repeat_spec in Hv. now subst.
  - intros m E. specialize (B m E). lia.
Qed.
Lemma rep_one (L : lang) w max : L w -> (forall m, max = Some m -> 1 <= m) -> rep L 0 max w.
Proof. intros H B. exists [w]. cbn. rewrite app_nil_r. split; [reflexivity|]. split; [auto|]. split; [lia|exact B]. Qed.
Lemma rep_nil (L : lang) max : rep L 0 max [].
Proof. exists []. split; [reflexivity|]. split; [constructor|]. cbn. split; [lia|intros; lia]. Qed.

Definition empty_graph : graph := fun _ _ _ => False.
Lemma empty_run p w q : g_run empty_graph p w q -> w = [] /\ p = q.
Proof. destruct 1 as [|? ? ? ? []|? ? ? ? ? ? []]. auto. Qed.

(** A single state. *)
Lemma frag_once n (L : lang) : frag empty_graph n (S n) n n (rep L 0 (Some 0)).
Proof.
  split; try lia; try (intros ? ? ? []; fail).
  - intro w. split.
    + intro R. apply empty_run in R as [-> _]. apply rep_nil.
    + intros (ws & -> & _ & _ & B). specialize (B 0 eq_refl). destruct ws; [constructor|cbn in B; lia].
  - intros w R. apply empty_run in R as [-> _]. now left.
Qed.

(** One copy, then the rest. *)
Lemma frag_then G1 G2 n m k x y rx ry L1 min max :
  frag G1 n m x y L1 -> frag G2 m k rx ry (rep L1 min max) -> (forall b, max = Some b -> min <= b) ->
  frag (gunion (gunion G1 G2) (edge y rx)) n k x ry (rep L1 (S min) (option_map S max)).
Proof.
  intros F1 F2 HB. destruct F1 as [W1 X1 Y1 G1' R1 S1]. destruct F2 as [W2 X2 Y2 G2' R2 S2].
  assert (WX : forall p l q, edge y rx p l q -> l = None /\ n <= p < m /\ m <= q < k) by (intros p l q (-> & -> & ->); auto).
  split; try lia.
  - intros p l q [[E|E]|E]; [apply W1 in E|apply W2 in E|apply WX in E]; lia.
  - intros p s q [[E|E]|(_ & [=] & _)]; [exact (G1' _ _ _ E)|exact (G2' _ _ _ E)].
  - intro w. rewrite rep_S. split.
    + intro R. destruct (cross_left _ _ _ _ _ _ W1 W2 WX _ _ _ R) as [[? _]|(_ & w1 & w2 & p & q & -> & A & (-> & _ & ->) & C)]; [lia|lia|].
      exists w1, w2. split; [reflexivity|]. split; [now apply R1|now apply R2].
    + intros (w1 & w2 & -> & A & B). apply R1 in A. apply R2 in B. eapply g_run_app.
      * eapply g_run_sub; [|exact A]. intros ? ? ?; left; left; assumption.
      * eapply gr_eps; [right; repeat split|]. eapply g_run_sub; [|exact B]. intros ? ? ?; left; right; assumption.
  - intros w R. destruct (cross_left _ _ _ _ _ _ W1 W2 WX _ _ _ R) as [[_ A]|(? & _)]; [lia| |lia].
    apply S1 in A as [A|[A B]]; [now left|right].
    split; apply rep_pad; try assumption; try lia; intros b E; destruct max as [b'|]; try discriminate; injection E as <-; specialize (HB b' eq_refl); lia.
Qed.

(** An optional copy, then the rest. *)
Lemma frag_optional G1 G2 n m k x y rx ry L1 max :
  frag G1 n m x y L1 -> frag G2 m k rx ry (rep L1 0 (Some max)) -> closed_end G2 ry ->
  frag (gunion (gunion G1 G2) (gunion (edge x ry) (edge y rx))) n k x ry (rep L1 0 (Some (S max))).
Proof.
  intros F1 F2 CE. destruct F1 as [W1 X1 Y1 G1' R1 S1]. destruct F2 as [W2 X2 Y2 G2' R2 S2].
  assert (WX : forall p l q, gunion (edge x ry) (edge y rx) p l q -> l = None /\ n <= p < m /\ m <= q < k)
    by (intros p l q [(-> & -> & ->)|(-> & -> & ->)]; auto).
  split; try lia.
  - intros p l q [[E|E]|E]; [apply W1 in E|apply W2 in E|apply WX in E]; lia.
  - intros p s q [[E|E]|E]; [exact (G1' _ _ _ E)|exact (G2' _ _ _ E)|apply WX in E as [[=] _]].
  - intro w. rewrite rep_0. split.
    + intro R. destruct (cross_left _ _ _ _ _ _ W1 W2 WX _ _ _ R) as [[? _]|(_ & w1 & w2 & p & q & -> & A & X & C)]; [lia|lia|].
      destruct X as [(-> & _ & ->)|(-> & _ & ->)].
      * apply closed_end_run in C as [-> _]; [|exact CE]. rewrite app_nil_r. apply S1 in A as [->|[A _]]; [now left|right].
        exists w1, []. split; [now rewrite app_nil_r|]. split; [exact A|apply rep_nil].
      * right. exists w1, w2. split; [reflexivity|]. split; [now apply R1|now apply R2].
    + intros [->|(w1 & w2 & -> & A & B)].
      * eapply gr_eps; [right; left; repeat split|constructor].
      * apply R1 in A. apply R2 in B. eapply g_run_app.
        -- eapply g_run_sub; [|exact A]. intros ? ? ?; left; left; assumption.
        -- eapply gr_eps; [right; right; repeat split|]. eapply g_run_sub; [|exact B]. intros ? ? ?; left; right; assumption.
  - intros w R. destruct (cross_left _ _ _ _ _ _ W1 W2 WX _ _ _ R) as [[_ A]|(? & _)]; [lia| |lia].
    apply S1 in A as [A|[A B]]; [now left|right]. split; apply rep_one; try assumption; intros b [= <-]; lia.
Qed.

(** A loop. *)
Lemma frag_loop G n m x y L : frag G n m x y L -> loop_frag G x y L ->
  frag (gunion G (gunion (edge x y) (edge y x))) n m x y (rep L 0 None) /\
  loop_frag (gunion G (gunion (edge x y) (edge y x))) x y (rep L 0 None).
Proof.
  intros [W X Y G' R S] [Lyy Lyx].
  assert (WX : forall p l q, gunion (edge x y) (edge y x) p l q -> l = None /\ (p = x \/ p = y) /\ (q = x \/ q = y))
    by (intros p l q [(-> & -> & ->)|(-> & -> & ->)]; auto).
  assert (HT : forall p w q, p = x \/ p = y -> q = x \/ q = y -> g_run G p w q -> star L w).
  { intros p w q [->| ->] [->| ->] A; [|apply star_one; now apply R|now apply Lyx|now apply Lyy].
    apply S in A as [->|[A _]]; [constructor|now apply star_one]. }
  pose proof (loop_star G (gunion (edge x y) (edge y x)) x y L WX HT) as ST.
  split; [split; try lia|split].
  - intros p l q [E|E]; [exact (W _ _ _ E)|]. apply WX in E as (_ & [->| ->] & [->| ->]); lia.
  - intros p s q [E|E]; [exact (G' _ _ _ E)|apply WX in E as [[=] _]].
  - intro w. rewrite rep_star. split.
    + intro A. exact (ST _ _ _ A (or_introl eq_refl) (or_intror eq_refl)).
    + induction 1 as [|w w' H _ IH]; [eapply gr_eps; [right; left; repeat split|constructor]|].
      eapply g_run_app; [eapply g_run_sub; [|apply R, H]; intros ? ? ?; now left|]. eapply gr_eps; [right; right; repeat split|exact IH].
  - intros w A. right. split; [|apply rep_nil]. apply rep_star. exact (ST _ _ _ A (or_introl eq_refl) (or_introl eq_refl)).
  - intros w A. apply star_one, rep_star. exact (ST _ _ _ A (or_intror eq_refl) (or_intror eq_refl)).
  - intros w A. apply star_one, rep_star. exact (ST _ _ _ A (or_intror eq_refl) (or_introl eq_refl)).
Qed.

(** ** Alternatives *)

(** The fragment of a union under construction. *)
Record alt (G : graph) (n m a b : nat) (L : lang) : Prop := {
  a_within : within G n m;
  a_a : n <= a < m;
  a_b : n <= b < m;
  a_ab : a <> b;
  a_labels : forall p s q, G p (Some s) q -> cs_good s;
  a_in : forall p l, ~ G p l a;
  a_out : closed_end G b;
  a_lang : forall w, g_run G a w b <-> L w
}.

Lemma no_in_run G a p w q : (forall p l, ~ G p l a) -> g_run G p w q -> q = a -> p = a /\ w = [].
Proof.
  intros NI R. induction R as [p|p q w r E R IH|p s c q w r E Hm Hc R IH]; intro Hq; [auto| |].
  - destruct (IH Hq) as [-> _]. now apply NI in E.
  - destruct (IH Hq) as [-> _]. now apply NI in E.
Qed.

Lemma alt_add G1 G2 n m k a b x y L1 L2 : alt G1 n m a b L1 -> frag G2 m k x y L2 ->
  alt (gunion (gunion G1 G2) (gunion (edge a x) (edge y b))) n k a b (fun w => L1 w \/ L2 w).
Proof.
  intros [W1 A B AB G1' NI NO R1] [W2 X Y G2' R2 _]. set (G := gunion _ _).
  assert (RUN : forall p w q, g_run G p w q -> q = b ->
    (p < m -> g_run G1 p w b \/ exists w1 w2, w = w1 ++ w2 /\ g_run G1 p w1 a /\ L2 w2) /\ (m <= p -> g_run G2 p w y)).
  { intros p w q R. induction R as [p|p q w r E R IH|p s c q w r E Hm Hc R IH]; intro Hq; subst.
    - split; [left; constructor|lia].
    - destruct (IH eq_refl) as [I1 I2]. destruct E as [[E|E]|[(-> & _ & ->)|(-> & _ & ->)]].
      + pose proof (W1 _ _ _ E). split; [|lia]. intros _. destruct I1 as [C|(w1 & w2 & -> & C & D)]; [lia| |].
        * left. eapply gr_eps; eassumption.
        * right. exists w1, w2. split; [reflexivity|]. split; [eapply gr_eps; eassumption|exact D].
      + pose proof (W2 _ _ _ E). split; [lia|]. intros _. eapply gr_eps; [exact E|]. apply I2. lia.
      + split; [|lia]. intros _. right. exists [], w. split; [reflexivity|]. split; [constructor|]. apply R2, I2. lia.
      + split; [lia|]. intros _. destruct I1 as [C|(w1 & w2 & -> & C & D)]; [lia| |].
        * apply closed_end_run in C as [-> _]; [constructor|exact NO].
        * apply closed_end_run in C as [_ C]; [congruence|exact NO].
    - destruct (IH eq_refl) as [I1 I2]. destruct E as [[E|E]|[(_ & [=] & _)|(_ & [=] & _)]].
      + pose proof (W1 _ _ _ E). split; [|lia]. intros _. destruct I1 as [C|(w1 & w2 & -> & C & D)]; [lia| |].
        * left. eapply gr_char; eassumption.
        * right. exists (c :: w1), w2. split; [reflexivity|]. split; [eapply gr_char; eassumption|exact D].
      + pose proof (W2 _ _ _ E). split; [lia|]. intros _. eapply gr_char; try eassumption. apply I2. lia. }
  split; try lia.
  - intros p l q [[E|E]|[(-> & -> & ->)|(-> & -> & ->)]]; [apply W1 in E|apply W2 in E| |]; lia.
  - intros p s q [[E|E]|[(_ & [=] & _)|(_ & [=] & _)]]; [exact (G1' _ _ _ E)|exact (G2' _ _ _ E)].
  - intros p l [[E|E]|[(_ & _ & E)|(_ & _ & E)]]; [now apply NI in E|apply W2 in E| |]; lia.
  - intros l q [[E|E]|[(E & _)|(E & _)]]; [now apply NO in E|apply W2 in E| |]; lia.
  - intro w. split.
    + intro R. destruct (proj1 (RUN _ _ _ R eq_refl)) as [C|(w1 & w2 & -> & C & D)]; [lia|left; now apply R1|right].
      destruct (no_in_run G1 a a w1 a NI C eq_refl) as [_ ->]. exact D.
    + intros [C|C]; [apply R1 in C; eapply g_run_sub; [|exact C]; intros ? ? ?; left; left; assumption|].
      apply R2 in C. eapply gr_eps; [right; left; repeat split|]. rewrite <- (app_nil_r w). eapply g_run_app.
      * eapply g_run_sub; [|exact C]. intros ? ? ?; left; right; assumption.
      * eapply gr_eps; [right; right; repeat split|constructor].
Qed.

Lemma alt_frag G n m a b L : alt G n m a b L -> frag G n m a b L /\ loop_frag G a b L.
Proof.
  intros [W A B AB G' NI NO R]. split; split; try assumption.
  - intros w C. destruct (no_in_run G a a w a NI C eq_refl) as [_ ->]. now left.
  - intros w C. apply closed_end_run in C as [-> _]; [constructor|exact NO].
  - intros w C. apply closed_end_run in C as [_ C]; [congruence|exact NO].
Qed.

Lemma alt_empty n : alt empty_graph n (S (S n)) n (S n) (fun _ => False).
Proof.
  split; try lia; try (intros ? ? ? []; fail); try (intros ? ? []; fail).
  intro w. split; [|intros []]. intro R. apply empty_run in R as [_ E]. lia.
Qed.

(** One edge. *)
Lemma frag_label n s L : cs_good s -> (forall w, L w <-> exists c, w = [c] /\ is_char c = true /\ cs_mem c s = true) ->
  let G : graph := fun p l q => p = n /\ l = Some s /\ q = S n in
  frag G n (S (S n)) n (S n) L /\ loop_frag G n (S n) L.
Proof.
  intros Hs HL G. assert (C : closed_end G (S n)) by (intros l q (E & _); lia).
  split; [split; try lia|split].
  - intros p l q (-> & _ & ->). lia.
  - intros p s' q (_ & [= ->] & _). exact Hs.
  - intro w. rewrite HL. split.
    + intro R. inversion R as [? E|p q w0 r E R'|p s' c q w0 r E Hm Hc R']; subst; [lia|destruct E as (_ & [=] & _)|].
      destruct E as (_ & [= ->] & ->). apply closed_end_run in R' as [-> _]; [|exact C]. exists c. auto.
    + intros (c & -> & Hc & Hm). eapply gr_char; [repeat split|exact Hm|exact Hc|constructor].
  - intros w R. left. refine (proj2 (no_in_run G n n w n _ R eq_refl)). intros p l (_ & _ & E). lia.
  - intros w R. apply closed_end_run in R as [-> _]; [constructor|exact C].
  - intros w R. apply closed_end_run in R as [_ E]; [lia|exact C].
Qed.
Lemma frag_epsilon n (L : lang) : (forall w, L w <-> w = []) ->
  frag (edge n (S n)) n (S (S n)) n (S n) L /\ loop_frag (edge n (S n)) n (S n) L.
Proof.
  intros HL. assert (C : closed_end (edge n (S n)) (S n)) by (intros l q (E & _); lia).
  split; [split; try lia|split].
  - intros p l q (-> & _ & ->). lia.
  - intros p s' q (_ & [=] & _).
  - intro w. rewrite HL. split.
    + intro R. inversion R as [? E|p q w0 r E R'|p s' c q w0 r E Hm Hc R']; subst; [lia| |destruct E as (_ & [=] & _)].
      destruct E as (_ & _ & ->). now apply closed_end_run in R' as [-> _].
    + intros ->. eapply gr_eps; [repeat split|constructor].
  - intros w R. left. refine (proj2 (no_in_run _ n n w n _ R eq_refl)). intros p l (_ & _ & E). lia.
  - intros w R. apply closed_end_run in R as [-> _]; [constructor|exact C].
  - intros w R. apply closed_end_run in R as [_ E]; [lia|exact C].
Qed.

(** ** Copies under a changed language or graph *)
Lemma star_iff (L L' : lang) w : (forall w, L w <-> L' w) -> star L w -> star L' w.
Proof. intro E. apply star_sub. intros v H. now apply star_one, E. Qed.
Lemma frag_iff G n m x y L L' : (forall w, L w <-> L' w) -> frag G n m x y L -> frag G n m x y L'.
Proof.
  intros E [W X Y G' R S]. split; try assumption; [intro w; now rewrite R, E|]. intros w A. apply S in A as [A|[A B]]; [now left|].
  right. split; now apply E.
Qed.
Lemma loop_iff G x y L L' : (forall w, L w <-> L' w) -> loop_frag G x y L -> loop_frag G x y L'.
Proof. intros E [A B]. split; intros w C; eapply star_iff; eauto. Qed.

(** ** The automaton built *)

(** [f], called when the next state is [n], adds the graph [G] and returns [x] and [y]; the next state is then [m]. *)
Definition builds (f : builder -> (nat * nat) * builder) (n : nat) (G : graph) (m x y : nat) : Prop :=
  forall A, nfa_wf A -> exists A', f (n, A) = ((x, y), (m, A')) /\ nfa_wf A' /\
    n_initial A' = n_initial A /\ n_final A' = n_final A /\ forall p l q, n_edge A' p l q <-> n_edge A p l q \/ G p l q.

Lemma add_edge (A : nfa nat) s l t : nfa_wf A -> (forall c, l = Some c -> cs_good c) ->
  nfa_wf (nfa_add s l t A) /\ n_initial (nfa_add s l t A) = n_initial A /\ n_final (nfa_add s l t A) = n_final A /\
  forall p l' q, n_edge (nfa_add s l t A) p l' q <-> n_edge A p l' q \/ (p = s /\ l' = l /\ q = t).
Proof.
  intros W G. destruct (C33_well_formed (Q := nat)) as (_ & _ & K & _). split; [now apply K|]. split; [reflexivity|]. split; [reflexivity|].
  intros. now apply C65_add.
Qed.
Lemma add_eps (A : nfa nat) s t : nfa_wf A ->
  nfa_wf (nfa_add s None t A) /\ n_initial (nfa_add s None t A) = n_initial A /\ n_final (nfa_add s None t A) = n_final A /\
  forall p l' q, n_edge (nfa_add s None t A) p l' q <-> n_edge A p l' q \/ edge s t p l' q.
Proof. intro W. apply add_edge; [exact W|discriminate]. Qed.

Section Repeat.
Variable f : builder -> (nat * nat) * builder.
Variable L : lang.
Hypothesis Hf : forall n, exists G m x y, builds f n G m x y /\ frag G n m x y L.

Lemma builds_repeat max : forall min, min <= max -> forall n, exists G m x y,
  builds (build_repeat f max min) n G m x y /\ frag G n m x y (rep L min (Some max)) /\ closed_end G y.
Proof.
  induction max as [|max IH]; intros min LE n.
  - exists empty_graph, (S n), n, n. split; [|split; [|intros l q []]].
    + intros A W. exists A. split; [reflexivity|]. split; [exact W|]. split; [reflexivity|]. split; [reflexivity|]. intros; unfold empty_graph; tauto.
    + replace min with 0 by lia. apply frag_once.
  - destruct (Hf n) as (G1 & m & x & y & B1 & F1). destruct min as [|min].
    + destruct (IH 0 ltac:(lia) m) as (G2 & k & rx & ry & B2 & F2 & C2).
      exists (gunion (gunion G1 G2) (gunion (edge x ry) (edge y rx))), k, x, ry. split; [|split].
      * intros A W. destruct (B1 A W) as (A1 & E1 & W1 & I1 & N1 & X1). destruct (B2 A1 W1) as (A2 & E2 & W2 & I2 & N2 & X2).
        destruct (add_eps A2 x ry W2) as (W3 & I3 & N3 & X3). destruct (add_eps _ y rx W3) as (W4 & I4 & N4 & X4).
        exists (nfa_add y None rx (nfa_add x None ry A2)). cbn [build_repeat]. rewrite E1, E2. split; [reflexivity|]. split; [exact W4|].
        split; [congruence|]. split; [congruence|]. intros p l q. rewrite X4, X3, X2, X1. unfold gunion. tauto.
      * eapply frag_optional; eassumption.
      * pose proof (f_y _ _ _ _ _ _ F1). pose proof (f_x _ _ _ _ _ _ F1). pose proof (f_y _ _ _ _ _ _ F2).
        intros l q [[E|E]|[(E & _)|(E & _)]]; [apply (f_within _ _ _ _ _ _ F1) in E; lia|now apply C2 in E|lia|lia].
    + destruct (IH min ltac:(lia) m) as (G2 & k & rx & ry & B2 & F2 & C2).
      exists (gunion (gunion G1 G2) (edge y rx)), k, x, ry. split; [|split].
      * intros A W. destruct (B1 A W) as (A1 & E1 & W1 & I1 & N1 & X1). destruct (B2 A1 W1) as (A2 & E2 & W2 & I2 & N2 & X2).
        destruct (add_eps A2 y rx W2) as (W3 & I3 & N3 & X3).
        exists (nfa_add y None rx A2). cbn [build_repeat]. rewrite E1, E2. split; [reflexivity|]. split; [exact W3|].
        split; [congruence|]. split; [congruence|]. intros p l q. rewrite X3, X2, X1. unfold gunion. tauto.
      * apply (frag_then G1 G2 n m k x y rx ry L min (Some max) F1 F2). intros b [= <-]. lia.
      * pose proof (f_y _ _ _ _ _ _ F1). pose proof (f_y _ _ _ _ _ _ F2).
        intros l q [[E|E]|(E & _)]; [apply (f_within _ _ _ _ _ _ F1) in E; lia|now apply C2 in E|lia].
Qed.

Hypothesis Hl : forall n, exists G m x y, builds f n G m x y /\ frag G n m x y L /\ loop_frag G x y L.

Lemma builds_unbounded min : forall n, exists G m x y,
  builds (build_unbounded f min) n G m x y /\ frag G n m x y (rep L min None) /\ (min <= 1 -> loop_frag G x y (rep L min None)).
Proof.
  induction min as [|min IH]; intro n.
  - destruct (Hl n) as (G1 & m & x & y & B1 & F1 & L1). exists (gunion G1 (gunion (edge x y) (edge y x))), m, x, y.
    split; [|destruct (frag_loop _ _ _ _ _ _ F1 L1); auto].
    intros A W. destruct (B1 A W) as (A1 & E1 & W1 & I1 & N1 & X1).
    destruct (add_eps A1 x y W1) as (W3 & I3 & N3 & X3). destruct (add_eps _ y x W3) as (W4 & I4 & N4 & X4).
    exists (nfa_add y None x (nfa_add x None y A1)). cbn [build_unbounded]. rewrite E1. split; [reflexivity|]. split; [exact W4|].
    split; [congruence|]. split; [congruence|]. intros p l q. rewrite X4, X3, X1. unfold gunion. tauto.
  - destruct (Hf n) as (G1 & m & x & y & B1 & F1). destruct (IH m) as (G2 & k & rx & ry & B2 & F2 & L2).
    exists (gunion (gunion G1 G2) (edge y rx)), k, x, ry. split; [|split].
    + intros A W. destruct (B1 A W) as (A1 & E1 & W1 & I1 & N1 & X1). destruct (B2 A1 W1) as (A2 & E2 & W2 & I2 & N2 & X2).
      destruct (add_eps A2 y rx W2) as (W3 & I3 & N3 & X3).
      exists (nfa_add y None rx A2). cbn [build_unbounded]. rewrite E1, E2. split; [reflexivity|]. split; [exact W3|].
      split; [congruence|]. split; [congruence|]. intros p l q. rewrite X3, X2, X1. unfold gunion. tauto.
    + apply (frag_then G1 G2 n m k x y rx ry L min None F1 F2). discriminate.
    + intro LE. assert (min = 0) by lia. subst. destruct (L2 ltac:(lia)) as [Lyy Lyx].
      pose proof (f_within _ _ _ _ _ _ F1) as W1. pose proof (f_within _ _ _ _ _ _ F2) as W2.
      pose proof (f_x _ _ _ _ _ _ F1). pose proof (f_x _ _ _ _ _ _ F2). pose proof (f_y _ _ _ _ _ _ F1). pose proof (f_y _ _ _ _ _ _ F2).
      assert (WX : forall p l q, edge y rx p l q -> l = None /\ n <= p < m /\ m <= q < k) by (intros p l q (-> & -> & ->); auto).
      split; intros w R; destruct (cross_right _ _ _ _ _ _ W1 W2 WX _ _ _ R) as [R' ?]; try lia.
      apply Lyy in R'. revert R'. apply star_sub. intros v (ws & -> & F & _). destruct F as [|v ws Hv F]; [constructor|].
      apply star_one. exists (v :: ws). split; [reflexivity|]. split; [constructor; assumption|]. cbn. split; [lia|discriminate].
Qed.
End Repeat.

(** The words of characters matched. *)
Definition lang_of (e : regexp) : lang := fun w => matches e w /\ chars w.

Lemma chars_app w w' : chars (w ++ w') <-> chars w /\ chars w'.
Proof. apply Forall_app. Qed.

Lemma lang_repeat e min max w : rep (lang_of e) min max w <-> lang_of (RRepeat e min max) w.
Proof.
  split.
  - intros (ws & -> & F & A & B). split.
    + constructor; [|exact A|exact B]. eapply Forall_impl; [|exact F]. now intros v [H _].
    + clear A B. induction F as [|v ws [_ H] F IH]; cbn; [constructor|]. now apply chars_app.
  - intros [M C]. inversion M as [| | | | |? ? ? ws F A B]; subst. exists ws. split; [reflexivity|]. split; [|auto]. clear A B M.
    induction F as [|v ws H F IH]; [constructor|]. cbn in C. apply chars_app in C as [C1 C2]. constructor; [split; assumption|auto].
Qed.

Lemma lang_union_nil w : False <-> lang_of (RUnion []) w.
Proof. split; [intros []|]. intros [M _]. now inversion M. Qed.

Fixpoint build_all (l : list regexp) (x y : nat) (b : builder) : builder :=
  match l with
  | [] => b
  | e :: l' => let '((ex, ey), b) := build_into e b in build_all l' x y (b_add ey None y (b_add x None ex b))
  end.
Lemma build_into_union l b : build_into (RUnion l) b =
  ((fst b, S (fst b)), build_all l (fst b) (S (fst b)) (S (S (fst b)), snd b)).
Proof.
  destruct b as [n A]. cbn [build_into new_state fst snd]. f_equal. generalize (S (S n), A). induction l as [|e l IH]; intro b; [reflexivity|].
  cbn [build_all]. destruct (build_into e b) as [[ex ey] b']. apply IH.
Qed.

Definition built (e : regexp) : Prop := forall n, exists G m x y,
  builds (build_into e) n G m x y /\ frag G n m x y (lang_of e) /\ (loopable e = true -> loop_frag G x y (lang_of e)).

Lemma built_all l : Forall built l -> forall n m a b G L, alt G n m a b L -> exists G' k,
  alt G' n k a b (fun w => L w \/ lang_of (RUnion l) w) /\
  forall A0 A, nfa_wf A -> (forall p l q, n_edge A p l q <-> n_edge A0 p l q \/ G p l q) ->
    exists A', build_all l a b (m, A) = (k, A') /\ nfa_wf A' /\ n_initial A' = n_initial A /\ n_final A' = n_final A /\
      forall p l q, n_edge A' p l q <-> n_edge A0 p l q \/ G' p l q.
Proof.
  induction 1 as [|e l He Hl IH]; intros n m a b G L HA.
  - exists G, m. split.
    + destruct HA as [W X Y XY GL NI NO R]. split; try assumption. intro w. rewrite R, <- lang_union_nil. tauto.
    + intros A0 A W HE. exists A. split; [reflexivity|]. auto.
  - destruct (He m) as (G2 & k & x & y & B2 & F2 & _).
    pose proof (alt_add _ _ _ _ _ _ _ _ _ _ _ HA F2) as HA2. destruct (IH _ _ _ _ _ _ HA2) as (G' & k' & HA' & HB).
    exists G', k'. split.
    + destruct HA' as [W X Y XY GL NI NO R]. split; try assumption. intro w. rewrite R. split.
      * intros [[H|[H C]]|[H C]]; [now left| |]; right; (split; [|exact C]); [econstructor; [now left|exact H]|].
        inversion H; subst. econstructor; [right; eassumption|assumption].
      * intros [H|[H C]]; [auto|]. inversion H as [| | | |e' l' w' Hi Hm|]; subst. destruct Hi as [->|Hi]; [left; right; split; assumption|].
        right. split; [econstructor; eassumption|exact C].
    + intros A0 A W HE. destruct (B2 A W) as (A1 & E1 & W1 & I1 & N1 & X1).
      destruct (add_eps A1 a x W1) as (W3 & I3 & N3 & X3). destruct (add_eps _ y b W3) as (W4 & I4 & N4 & X4).
      destruct (HB A0 (nfa_add y None b (nfa_add a None x A1))) as (A' & E' & W' & I' & N' & X'); [exact W4| |].
      * intros p l0 q. rewrite X4, X3, X1, HE. unfold gunion. tauto.
      * exists A'. cbn [build_all]. rewrite E1. unfold b_add. cbn [fst snd]. split; [exact E'|]. split; [exact W'|].
        split; [congruence|]. split; [congruence|exact X'].
Qed.

Lemma any_set_mem c : is_char c = true -> cs_mem c any_set = true.
Proof.
  intro H. apply is_char_spec in H. change any_set with [(0, 1114111)%N]. apply cs_mem_iff. exists (0, 1114111)%N. split; [now left|cbn [fst snd]; lia].
Qed.
Lemma any_set_good : cs_good any_set.
Proof. unfold any_set. apply cs_insert_good; [now apply cs_insert_good|reflexivity|reflexivity]. Qed.

Lemma builds_label n s : cs_good s ->
  builds (fun b => let (x, b) := new_state b in let (y, b) := new_state b in ((x, y), b_add x (Some s) y b)) n
    (fun p l q => p = n /\ l = Some s /\ q = S n) (S (S n)) n (S n).
Proof.
  intros Hs A W. destruct (add_edge A n (Some s) (S n) W) as (W3 & I3 & N3 & X3); [intros c [= <-]; exact Hs|].
  exists (nfa_add n (Some s) (S n) A). cbn [new_state fst snd b_add]. auto.
Qed.

Theorem build_into_correct e : sets_good e -> compilable e = true -> built e.
Proof.
  induction e as [|s|l IH|e min max IH|l IH] using regexp_ind'; intros SG CO n.
  - exists (fun p l q => p = n /\ l = Some any_set /\ q = S n), (S (S n)), n, (S n). split; [apply builds_label, any_set_good|].
    edestruct (frag_label n any_set (lang_of RAny) any_set_good) as [F K]; [|split; [exact F|intros _; exact K]].
    intro w. split.
    + intros [M C]. inversion M; subst. exists c. split; [reflexivity|]. split; [assumption|now apply any_set_mem].
    + intros (c & -> & Hc & _). split; [now constructor|]. constructor; [exact Hc|constructor].
  - inversion SG; subst. exists (fun p l q => p = n /\ l = Some s /\ q = S n), (S (S n)), n, (S n). split; [now apply builds_label|].
    edestruct (frag_label n s (lang_of (RSet s))) as [F K]; [assumption| |split; [exact F|intros _; exact K]].
    intro w. split.
    + intros [M C]. inversion M; subst. inversion C; subst. exists c. auto.
    + intros (c & -> & Hc & Hm). split; [now constructor|]. constructor; [exact Hc|constructor].
  - destruct l as [|e l]; [|discriminate]. exists (edge n (S n)), (S (S n)), n, (S n). split.
    + intros A W. destruct (add_eps A n (S n) W) as (W3 & I3 & N3 & X3). exists (nfa_add n None (S n) A). cbn [build_into new_state fst snd b_add]. auto.
    + edestruct (frag_epsilon n (lang_of (RSequence []))) as [F K]; [|split; [exact F|intros _; exact K]].
      intro w. split; [intros [M _]; now inversion M|]. intros ->. split; constructor.
  - inversion SG; subst. cbn [compilable] in CO. apply andb_true_iff in CO as [C1 C2]. specialize (IH H0 C1).
    assert (Hf : forall n, exists G m x y, builds (build_into e) n G m x y /\ frag G n m x y (lang_of e)).
    { intro n'. destruct (IH n') as (G & m & x & y & B & F & _). now exists G, m, x, y. }
    destruct max as [max|].
    + apply Nat.leb_le in C2. destruct (builds_repeat _ _ Hf max min C2 n) as (G & m & x & y & B & F & C).
      exists G, m, x, y. split; [exact B|]. split; [eapply frag_iff; [apply lang_repeat|exact F]|]. intros _.
      split; intros w R; apply closed_end_run in R as [-> _]; try exact C; constructor.
    + assert (Hl : forall n, exists G m x y, builds (build_into e) n G m x y /\ frag G n m x y (lang_of e) /\ loop_frag G x y (lang_of e)).
      { intro n'. destruct (IH n') as (G & m & x & y & B & F & K). exists G, m, x, y. auto. }
      destruct (builds_unbounded _ _ Hf Hl min n) as (G & m & x & y & B & F & K).
      exists G, m, x, y. split; [exact B|]. split; [eapply frag_iff; [apply lang_repeat|exact F]|]. intro Lp. cbn [loopable] in Lp. apply Nat.leb_le in Lp.
      eapply loop_iff; [apply lang_repeat|auto].
  - inversion SG as [| | |l' SG' |]; subst. cbn [compilable] in CO.
    assert (HB : Forall built l).
    { clear SG. induction l as [|e l IHl]; [constructor|]. inversion IH; inversion SG'; subst. cbn [forallb] in CO. apply andb_true_iff in CO as [? ?].
      constructor; auto. }
    destruct (built_all l HB n (S (S n)) n (S n) _ _ (alt_empty n)) as (G & k & HA & HE).
    apply alt_frag in HA as [F K]. exists G, k, n, (S n). split; [|split].
    + intros A W. destruct (HE A A W) as (A' & E' & W' & I' & N' & X'); [intros; unfold empty_graph; tauto|].
      exists A'. rewrite build_into_union. cbn [fst snd]. rewrite E'. auto.
    + eapply frag_iff; [|exact F]. intro w. tauto.
    + intros _. eapply loop_iff; [|exact K]. intro w. tauto.
Qed.

Lemma n_run_chars (A : nfa nat) p w q : n_run A p w q -> chars w -> g_run (n_edge A) p w q.
Proof.
  induction 1 as [|p q w r E R IH|p s c q w r E M R IH]; intro C; [constructor|eapply gr_eps; eauto|].
  inversion C; subst. eapply gr_char; eauto.
Qed.
Lemma g_run_n (A : nfa nat) p w q : g_run (n_edge A) p w q -> n_run A p w q.
Proof. induction 1; [constructor|eapply nr_epsilon; eauto|eapply nr_char; eauto]. Qed.

Theorem build_nfa_correct e : sets_good e -> compilable e = true ->
  nfa_wf (build_nfa e) /\ forall w, chars w -> (n_accepts (build_nfa e) w <-> matches e w).
Proof.
  intros SG CO. destruct (build_into_correct e SG CO 0) as (G & m & x & y & B & F & _).
  destruct (C33_well_formed (Q := nat)) as (W0 & _).
  destruct (B nfa_new W0) as (A & E & W & I & N & X). unfold build_nfa. rewrite E.
  split; [exact W|]. intros w C. unfold n_accepts, add_final_state, add_initial_state. cbn [n_initial n_final]. rewrite I, N. cbn [nfa_new n_initial n_final set_insert].
  set (A1 := Nfa _ _ _).
  assert (R : forall p w q, g_run (n_edge A1) p w q <-> g_run G p w q).
  { intros p v q. split; apply g_run_sub; intros p' l q'.
    - intro H. apply (X p' l q') in H as [H|H]; [now apply C65_new in H|exact H].
    - intro H. apply (X p' l q'). now right. }
  split.
  - intros (i & f & [<-|[]] & [<-|[]] & H). apply n_run_chars in H; [|exact C]. apply R in H. now apply (f_lang _ _ _ _ _ _ F) in H as [H _].
  - intro H. exists x, y. split; [now left|]. split; [now left|]. apply g_run_n, R. apply (f_lang _ _ _ _ _ _ F). now split.
Qed.
