(** * Character sets: lemmas *)

From Coq Require Import List Bool NArith Lia.
Import ListNotations.
From Verif Require Import Base CharModel CharSpec.
Open Scope list_scope.
Local Open Scope N_scope.

Lemma is_char_spec c : is_char c = true <-> (c <= 55295 \/ 57344 <= c <= 1114111).
Proof.
  unfold is_char, max_char. rewrite orb_true_iff, andb_true_iff, !N.leb_le. tauto.
Qed.

Lemma in_range_iff r c : in_range r c = true <-> fst r <= c <= snd r.
Proof. unfold in_range. rewrite andb_true_iff, !N.leb_le. tauto. Qed.

Lemma cs_mem_iff c s : cs_mem c s = true <-> exists r, In r s /\ fst r <= c <= snd r.
Proof.
  unfold cs_mem. rewrite existsb_exists. split; intros (r & H1 & H2); exists r; (split; [exact H1|]); now apply in_range_iff.
Qed.

Lemma cs_mem_cons c r s : cs_mem c (r :: s) = true <-> (fst r <= c <= snd r) \/ cs_mem c s = true.
Proof. cbn [cs_mem existsb]. rewrite orb_true_iff, in_range_iff. reflexivity. Qed.

Lemma cs_mem_app c s t : cs_mem c (s ++ t) = cs_mem c s || cs_mem c t.
Proof. unfold cs_mem. now rewrite existsb_app. Qed.

Lemma next_char_lt b c : is_char b = true -> is_char c = true -> (next_char b <= c <-> b < c).
Proof.
  rewrite !is_char_spec. unfold next_char. intros Hb Hc. destruct (N.eqb_spec b 55295); lia.
Qed.

Lemma prev_char_lt a c : is_char a = true -> is_char c = true -> 0 < a -> (c <= prev_char a <-> c < a).
Proof.
  rewrite !is_char_spec. unfold prev_char. intros Hb Hc. destruct (N.eqb_spec a 57344); lia.
Qed.

Lemma next_char_is b : is_char b = true -> b < 1114111 -> is_char (next_char b) = true.
Proof. rewrite !is_char_spec. unfold next_char. intros. destruct (N.eqb_spec b 55295); lia. Qed.

Lemma prev_char_is a : is_char a = true -> 0 < a -> is_char (prev_char a) = true.
Proof. rewrite !is_char_spec. unfold prev_char. intros. destruct (N.eqb_spec a 57344); lia. Qed.

Lemma cs_from_weaken s : forall lo lo', lo' <= lo -> cs_from lo s -> cs_from lo' s.
Proof. destruct s as [|[a b] s]; [auto|]. intros lo lo' L (H1 & H). split; [lia|exact H]. Qed.

Lemma cs_from_above s : forall lo c, cs_from lo s -> cs_mem c s = true -> lo <= c.
Proof.
  induction s as [|[a b] s IH]; intros lo c W H; [discriminate|]. destruct W as (W1 & W2 & _ & _ & W3).
  apply cs_mem_cons in H as [H|H]; [simpl in H; lia|]. specialize (IH _ _ W3 H). lia.
Qed.

Lemma cs_from_In s : forall lo r, cs_from lo s -> In r s ->
  lo <= fst r /\ fst r <= snd r /\ is_char (fst r) = true /\ is_char (snd r) = true.
Proof.
  induction s as [|[a b] s IH]; intros lo r W H; [destruct H|]. destruct W as (W1 & W2 & W3 & W4 & W5).
  destruct H as [<-|H]; [simpl; auto|]. destruct (IH _ _ W5 H) as (H1 & H2). split; [lia|exact H2].
Qed.

(** ** Removal *)
Lemma cs_remove_mem r s : is_char (fst r) = true -> is_char (snd r) = true ->
  forall lo c, cs_from lo s -> is_char c = true ->
  (cs_mem c (cs_remove r s) = true <-> cs_mem c s = true /\ ~ fst r <= c <= snd r).
Proof.
  destruct r as [x y]. cbn [fst snd]. intros Hx Hy.
  induction s as [|[a b] s IH]; intros lo c W Hc; cbn [cs_remove fst snd].
  - split; [discriminate|]. intros [H _]. discriminate H.
  - destruct W as (W1 & W2 & Wa & Wb & W3). specialize (IH _ c W3 Hc).
    destruct ((y <? a) || (b <? x)) eqn:E.
    + rewrite !cs_mem_cons, IH. cbn [fst snd]. apply orb_true_iff in E. rewrite !N.ltb_lt in E.
      split; [|tauto]. intros [H|H]; [|tauto]. split; [now left|]. lia.
    + apply orb_false_iff in E. rewrite !N.ltb_ge in E. rewrite !cs_mem_app, !orb_true_iff, IH, cs_mem_cons. cbn [fst snd].
      assert (H1 : cs_mem c (if a <? x then [(a, prev_char x)] else []) = true <-> a <= c < x).
      { destruct (N.ltb_spec a x) as [L|L]; [|split; [discriminate|lia]].
        rewrite cs_mem_cons. cbn [fst snd cs_mem existsb]. pose proof (prev_char_lt x c Hx Hc ltac:(lia)). intuition (try discriminate; lia). }
      assert (H2 : cs_mem c (if y <? b then [(next_char y, b)] else []) = true <-> y < c <= b).
      { destruct (N.ltb_spec y b) as [L|L]; [|split; [discriminate|lia]].
        rewrite cs_mem_cons. cbn [fst snd cs_mem existsb]. pose proof (next_char_lt y c Hy Hc). intuition (try discriminate; lia). }
      rewrite H1, H2. split.
      * intros [H|[H|H]]; [split; [left|]; lia|split; [left|]; lia|tauto].
      * intros [[H|H] N]; [|tauto]. destruct (N.lt_ge_cases c x); [left; lia|right; left; lia].
Qed.

Lemma cs_remove_from r s : is_char (fst r) = true -> is_char (snd r) = true -> fst r <= snd r ->
  forall lo, cs_from lo s -> cs_from lo (cs_remove r s).
Proof.
  destruct r as [x y]. cbn [fst snd]. intros Hx Hy L. induction s as [|[a b] s IH]; intros lo W; [exact W|].
  destruct W as (W1 & W2 & Wa & Wb & W3). specialize (IH _ W3). cbn [cs_remove fst snd].
  destruct ((y <? a) || (b <? x)) eqn:E; [cbn [cs_from]; tauto|].
  apply orb_false_iff in E. rewrite !N.ltb_ge in E.
  assert (K : forall lo, lo <= y + 1 -> lo <= b + 1 -> cs_from lo ((if y <? b then [(next_char y, b)] else []) ++ cs_remove (x, y) s)).
  { intros l Hl Hl2. destruct (N.ltb_spec y b) as [Lb|Lb]; cbn [app]; [|eapply cs_from_weaken; [|exact IH]; lia].
    cbn [cs_from]. pose proof (proj2 (next_char_lt y b Hy Wb) Lb).
    assert (y < next_char y) by (unfold next_char; destruct (N.eqb_spec y 55295); lia).
    split; [lia|]. split; [assumption|]. split; [|auto]. apply next_char_is; [exact Hy|]. apply is_char_spec in Wb. lia. }
  destruct (N.ltb_spec a x) as [La|La]; cbn [app]; [|apply K; lia].
  cbn [cs_from]. pose proof (proj2 (prev_char_lt x a Hx Wa ltac:(lia)) La).
  assert (prev_char x < x) by (unfold prev_char; destruct (N.eqb_spec x 57344); lia).
  split; [lia|]. split; [assumption|]. split; [exact Wa|]. split; [apply prev_char_is; [exact Hx|lia]|]. apply K; lia.
Qed.

(** ** Gaps *)
Lemma gaps_from_mem s : forall start lo c, cs_from lo s -> start <= lo -> is_char c = true ->
  (forall d, is_char d = true -> start <= d -> lo <= d) ->
  (cs_mem c (cs_gaps_from start s) = true <-> start <= c /\ cs_mem c s = false).
Proof.
  induction s as [|[a b] s IH]; intros start lo c W L Hc HG; cbn [cs_gaps_from].
  - assert (c <= max_char) by (apply is_char_spec in Hc; unfold max_char; lia).
    destruct (N.leb_spec start max_char).
    + rewrite cs_mem_cons. cbn [fst snd cs_mem existsb]. intuition (try discriminate; lia).
    + split; [discriminate|]. intros [H1 _]. lia.
  - destruct W as (W1 & W2 & Wa & Wb & W3). rewrite cs_mem_app, orb_true_iff.
    assert (N1 : b + 1 <= next_char b) by (unfold next_char; destruct (N.eqb_spec b 55295); lia).
    assert (HI : cs_mem c (cs_gaps_from (next_char b) s) = true <-> b < c /\ cs_mem c s = false).
    { rewrite (IH (next_char b) (next_char b) c).
      - now rewrite (next_char_lt b c Wb Hc).
      - destruct s as [|[a' b'] s']; [exact Logic.I|]. destruct W3 as (V1 & V2 & Va & V3). split; [|auto].
        apply next_char_lt; [exact Wb|exact Va|lia].
      - lia.
      - exact Hc.
      - auto. }
    rewrite HI.
    assert (HA : cs_mem c (if start <? a then [(start, prev_char a)] else []) = true <-> start <= c < a).
    { destruct (N.ltb_spec start a) as [La|La]; [|split; [discriminate|lia]].
      rewrite cs_mem_cons. cbn [fst snd cs_mem existsb]. pose proof (prev_char_lt a c Wa Hc ltac:(lia)). intuition (try discriminate; lia). }
    rewrite HA. rewrite <- !not_true_iff_false, cs_mem_cons. cbn [fst snd].
    split.
    + intros [H|[H1 H2]].
      * split; [lia|]. intros [H'|H']; [lia|]. apply (cs_from_above _ _ _ W3) in H'. lia.
      * split; [specialize (HG _ Wa); lia|]. intros [H'|H']; [lia|contradiction].
    + intros [H1 H2]. destruct (N.lt_ge_cases c a); [left; lia|]. right. split; [|tauto].
      destruct (N.lt_ge_cases b c); [lia|]. exfalso. apply H2. left. lia.
Qed.

Lemma gaps_mem s c : cs_good s -> is_char c = true -> cs_mem c (cs_gaps s) = negb (cs_mem c s).
Proof.
  intros G Hc. assert (H := gaps_from_mem s 0 0 c G ltac:(lia) Hc ltac:(auto)). unfold cs_gaps.
  destruct (cs_mem c s), (cs_mem c (cs_gaps_from 0 s)); simpl; try reflexivity; exfalso.
  - destruct (proj1 H eq_refl) as [_ H']. discriminate.
  - assert (false = true) by (apply H; split; [lia|reflexivity]). discriminate.
Qed.

Lemma gaps_from_good s : forall start lo, cs_from lo s -> start <= lo ->
  (is_char start = true \/ max_char < start) -> cs_from start (cs_gaps_from start s).
Proof.
  induction s as [|[a b] s IH]; intros start lo W L Hs; cbn [cs_gaps_from].
  - destruct (N.leb_spec start max_char); [|exact Logic.I]. destruct Hs as [Hs|Hs]; [|lia].
    cbn [cs_from]. split; [lia|]. split; [lia|]. split; [exact Hs|]. split; [reflexivity|exact Logic.I].
  - destruct W as (W1 & W2 & Wa & Wb & W3).
    assert (N1 : b + 1 <= next_char b) by (unfold next_char; destruct (N.eqb_spec b 55295); lia).
    assert (K : cs_from (next_char b) (cs_gaps_from (next_char b) s)).
    { apply (IH _ (next_char b)); [|lia|].
      - destruct s as [|[a' b'] s']; [exact Logic.I|]. destruct W3 as (V1 & V2 & Va & V3). split; [|auto].
        apply next_char_lt; [exact Wb|exact Va|lia].
      - destruct (N.lt_ge_cases b 1114111) as [Lb|Lb]; [left; now apply next_char_is|right]. unfold max_char. lia. }
    assert (Ws : is_char start = true).
    { destruct Hs as [Hs|Hs]; [exact Hs|]. apply is_char_spec in Wa. unfold max_char in Hs. lia. }
    destruct (N.ltb_spec start a) as [La|La]; cbn [app].
    + cbn [cs_from]. split; [lia|]. split; [now apply prev_char_lt; [exact Wa|exact Ws|lia|]|].
      split; [exact Ws|]. split; [apply prev_char_is; [exact Wa|lia]|].
      assert (prev_char a < a) by (unfold prev_char; destruct (N.eqb_spec a 57344); lia).
      eapply cs_from_weaken; [|exact K]. lia.
    + eapply cs_from_weaken; [|exact K]. lia.
Qed.

Lemma gaps_good s : cs_good s -> cs_good (cs_gaps s).
Proof. intro G. eapply gaps_from_good; [exact G|lia|]. left. reflexivity. Qed.

(** ** Intersection *)
Lemma remove_all_mem g : (forall r, In r g -> is_char (fst r) = true /\ is_char (snd r) = true /\ fst r <= snd r) ->
  forall s c, cs_good s -> is_char c = true ->
  cs_good (fold_left (fun s r => cs_remove r s) g s) /\
  (cs_mem c (fold_left (fun s r => cs_remove r s) g s) = true <-> cs_mem c s = true /\ cs_mem c g = false).
Proof.
  induction g as [|r g IH]; intros Hg s c G Hc; cbn [fold_left].
  - split; [exact G|]. cbn [cs_mem existsb]. tauto.
  - destruct (Hg r (or_introl eq_refl)) as (R1 & R2 & R3).
    destruct (IH (fun r' H => Hg r' (or_intror H)) (cs_remove r s) c (cs_remove_from r s R1 R2 R3 0 G) Hc) as [G' H].
    split; [exact G'|]. rewrite H, (cs_remove_mem r s R1 R2 0 c G Hc). rewrite <- !not_true_iff_false, cs_mem_cons. tauto.
Qed.

Lemma gaps_ranges s r : cs_good s -> In r (cs_gaps s) -> is_char (fst r) = true /\ is_char (snd r) = true /\ fst r <= snd r.
Proof. intros G H. destruct (cs_from_In _ _ _ (gaps_good s G) H) as (_ & H1 & H2 & H3). auto. Qed.

Lemma intersection_mem s t c : cs_good s -> cs_good t -> is_char c = true ->
  cs_mem c (charset_intersection s t) = cs_mem c s && cs_mem c t.
Proof.
  intros Gs Gt Hc. unfold charset_intersection.
  destruct (remove_all_mem (cs_gaps t) (fun r => gaps_ranges t r Gt) s c Gs Hc) as [_ H].
  rewrite (gaps_mem t c Gt Hc) in H.
  apply eq_true_iff_eq. rewrite H, andb_true_iff, negb_false_iff. reflexivity.
Qed.

Lemma intersection_good s t : cs_good s -> cs_good t -> cs_good (charset_intersection s t).
Proof.
  intros Gs Gt. apply (remove_all_mem (cs_gaps t) (fun r => gaps_ranges t r Gt) s 0 Gs eq_refl).
Qed.

(** ** Insertion *)
Lemma cs_insert'_mem s : forall lo hi l c, cs_from l s -> lo <= hi -> is_char lo = true -> is_char hi = true -> is_char c = true ->
  (cs_mem c (cs_insert' lo hi s) = true <-> lo <= c <= hi \/ cs_mem c s = true).
Proof.
  induction s as [|[a b] s IH]; intros lo hi l c W L Hlo Hhi Hc; cbn [cs_insert'].
  - rewrite cs_mem_cons. reflexivity.
  - destruct W as (W1 & W2 & Wa & Wb & W3). destruct (N.ltb_spec (next_char hi) a); [rewrite cs_mem_cons; reflexivity|].
    destruct (N.ltb_spec (next_char b) lo).
    + rewrite !cs_mem_cons, (IH lo hi _ c W3 L Hlo Hhi Hc). tauto.
    + rewrite (IH (N.min a lo) (N.max b hi) _ c W3), cs_mem_cons; cbn [fst snd].
      * pose proof (next_char_lt b c Wb Hc). pose proof (next_char_lt hi c Hhi Hc).
        split; [|intros [K|[K|K]]; [left; lia|left; lia|now right]]. intros [K|K]; [|auto].
        destruct (N.lt_ge_cases c lo) as [L1|L1], (N.lt_ge_cases hi c) as [L2|L2], (N.lt_ge_cases c a) as [L3|L3], (N.lt_ge_cases b c) as [L4|L4]; lia.
      * lia.
      * destruct (N.min_spec a lo) as [[_ ->]|[_ ->]]; assumption.
      * destruct (N.max_spec b hi) as [[_ ->]|[_ ->]]; assumption.
      * exact Hc.
Qed.

Lemma cs_insert'_from s : forall lo hi l, cs_from l s -> l <= lo -> lo <= hi -> is_char lo = true -> is_char hi = true ->
  cs_from l (cs_insert' lo hi s).
Proof.
  induction s as [|[a b] s IH]; intros lo hi l W Ll L Hlo Hhi; cbn [cs_insert'].
  - cbn [cs_from]. auto.
  - destruct W as (W1 & W2 & Wa & Wb & W3). 
    assert (N1 : b < next_char b) by (unfold next_char; destruct (N.eqb_spec b 55295); lia).
    assert (N2 : hi < next_char hi) by (unfold next_char; destruct (N.eqb_spec hi 55295); lia).
    destruct (N.ltb_spec (next_char hi) a).
    + cbn [cs_from]. split; [lia|]. split; [lia|]. split; [auto|]. split; [auto|]. split; [lia|auto].
    + destruct (N.ltb_spec (next_char b) lo).
      * cbn [cs_from]. split; [auto|]. split; [auto|]. split; [auto|]. split; [auto|]. apply IH; try assumption; lia.
      * apply IH.
        -- eapply cs_from_weaken; [|exact W3]. lia.
        -- lia.
        -- lia.
        -- destruct (N.min_spec a lo) as [[_ ->]|[_ ->]]; assumption.
        -- destruct (N.max_spec b hi) as [[_ ->]|[_ ->]]; assumption.
Qed.

Lemma cs_insert_mem r s c : cs_good s -> is_char (fst r) = true -> is_char (snd r) = true -> is_char c = true ->
  (cs_mem c (cs_insert r s) = true <-> fst r <= c <= snd r \/ cs_mem c s = true).
Proof.
  intros G H1 H2 Hc. unfold cs_insert. destruct (N.ltb_spec (snd r) (fst r)); [|now apply (cs_insert'_mem s _ _ 0)].
  split; [auto|]. intros [K|K]; [lia|exact K].
Qed.

Lemma cs_insert_good r s : cs_good s -> is_char (fst r) = true -> is_char (snd r) = true -> cs_good (cs_insert r s).
Proof.
  intros G H1 H2. unfold cs_insert. destruct (N.ltb_spec (snd r) (fst r)); [exact G|]. apply cs_insert'_from; try assumption; lia.
Qed.

Lemma cs_char_mem c d : cs_mem c (cs_char d) = true <-> c = d.
Proof.
  unfold cs_char, cs_insert. cbn [fst snd]. rewrite N.ltb_irrefl. cbn [cs_insert']. rewrite cs_mem_cons. cbn [fst snd cs_mem existsb].
  split; [intros [H|H]; [lia|discriminate]|]. intros ->. left. lia.
Qed.

Lemma cs_char_good d : is_char d = true -> cs_good (cs_char d).
Proof. intro H. apply cs_insert_good; [exact Logic.I|exact H|exact H]. Qed.

Lemma cs_good_ranges s r : cs_good s -> In r s -> fst r <= snd r.
Proof. intros G H. apply (cs_from_In s 0 r G H). Qed.
