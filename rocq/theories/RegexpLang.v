(** * Languages of regular expressions: proofs *)

From Coq Require Import String List Bool Arith NArith Lia.
Import ListNotations.
From Verif Require Import Base BaseProofs Orders CharModel CharSpec CharProofs RegexpModel RegexpSpec RegexpBuild RegexpParse.
Open Scope list_scope.

(** ** Inversion *)
Lemma m_any_iff w : matches RAny w <-> exists c, w = [c] /\ is_char c = true.
Proof. split; [intro M; inversion M; subst; eauto|]. intros (c & -> & H). now constructor. Qed.
Lemma m_set_iff s w : matches (RSet s) w <-> exists c, w = [c] /\ cs_mem c s = true.
Proof. split; [intro M; inversion M; subst; eauto|]. intros (c & -> & H). now constructor. Qed.
Lemma m_nil_iff w : matches (RSequence []) w <-> w = [].
Proof. split; [intro M; now inversion M|]. intros ->. constructor. Qed.
Lemma m_cons_iff e l w : matches (RSequence (e :: l)) w <-> cat (matches e) (matches (RSequence l)) w.
Proof. split; [intro M; inversion M; subst; unfold cat; eauto|]. intros (u & v & -> & H1 & H2). now constructor. Qed.
Lemma m_union_iff l w : matches (RUnion l) w <-> exists e, In e l /\ matches e w.
Proof. split; [intro M; inversion M; subst; eauto|]. intros (e & H1 & H2). econstructor; eassumption. Qed.
Lemma m_repeat_iff e min max w : matches (RRepeat e min max) w <-> rep (matches e) min max w.
Proof. split; [intro M; inversion M; subst; unfold rep; eauto|]. intros (ws & -> & F & A & B). now constructor. Qed.

Lemma cat_iff (L L' M M' : words) w : (forall v, L v <-> L' v) -> (forall v, M v <-> M' v) -> (cat L M w <-> cat L' M' w).
Proof. intros H1 H2. split; intros (u & v & -> & A & B); exists u, v; (split; [reflexivity|]); split; first [now apply H1|now apply H2]. Qed.
Lemma cat_eps_l (L : words) w : cat eps L w <-> L w.
Proof. split; [now intros (u & v & -> & -> & H)|]. intro H. exists [], w. split; [reflexivity|]. now split. Qed.
Lemma cat_eps_r (L : words) w : cat L eps w <-> L w.
Proof. split; [intros (u & v & -> & H & ->); now rewrite app_nil_r|]. intro H. exists w, []. split; [now rewrite app_nil_r|]. now split. Qed.
Lemma cat_assoc (L M K : words) w : cat (cat L M) K w <-> cat L (cat M K) w.
Proof.
  split.
  - intros (u & v & -> & (a & b & -> & H1 & H2) & H3). exists a, (b ++ v). split; [now rewrite app_assoc|]. split; [exact H1|]. exists b, v. auto.
  - intros (u & v & -> & H1 & (a & b & -> & H2 & H3)). exists (u ++ a), b. split; [now rewrite app_assoc|]. split; [|exact H3]. exists u, a. auto.
Qed.

Lemma m_seq_app l1 l2 w : matches (RSequence (l1 ++ l2)) w <-> cat (matches (RSequence l1)) (matches (RSequence l2)) w.
Proof.
  revert w. induction l1 as [|e l1 IH]; intro w; cbn [app].
  - rewrite (cat_iff (matches (RSequence [])) eps _ (matches (RSequence l2))); [now rewrite cat_eps_l|intro; apply m_nil_iff|reflexivity].
  - rewrite m_cons_iff. rewrite (cat_iff _ (matches e) _ _ w (fun _ => iff_refl _) IH), <- cat_assoc.
    apply cat_iff; [intro; symmetry; apply m_cons_iff|reflexivity].
Qed.
Lemma m_seq_one e w : matches (RSequence [e]) w <-> matches e w.
Proof. rewrite m_cons_iff, (cat_iff _ (matches e) _ eps w (fun _ => iff_refl _) m_nil_iff). apply cat_eps_r. Qed.

(** ** [push] *)
Lemma push_lang cur e w : cur <> RUnion [] -> (matches (re_push cur e) w <-> cat (matches cur) (matches e) w).
Proof.
  intro N. assert (D : forall x, matches (RSequence [x; e]) w <-> cat (matches x) (matches e) w).
  { intro x. rewrite m_cons_iff. apply cat_iff; [reflexivity|intro; apply m_seq_one]. }
  destruct cur as [|s|[|x l]|x min max|[|x l]]; cbn [re_push]; try apply D; [| |congruence].
  - rewrite (cat_iff _ eps _ (matches e) w m_nil_iff (fun _ => iff_refl _)). symmetry. apply cat_eps_l.
  - rewrite m_seq_app. apply cat_iff; [reflexivity|]. intro. apply m_seq_one.
Qed.

(** ** Emptiness and simplification *)
Lemma nonvoid_solid e : nonvoid e -> solid e.
Proof.
  induction e as [|s|l IH|e min max IH|l IH] using regexp_ind'; intro H; inversion H; subst; constructor; auto.
  rewrite Forall_forall in *. auto.
Qed.

Lemma concat_nil (ws : list (list N)) : Forall (fun w => w = []) ws -> concat ws = [].
Proof. induction 1 as [|w ws -> _ IH]; [reflexivity|exact IH]. Qed.

Lemma is_empty_lang e : nonvoid e -> re_is_empty e = true -> forall w, matches e w <-> w = [].
Proof.
  induction e as [|s|l IH|e min max IH|l IH] using regexp_ind'; intros NV E w; cbn [re_is_empty] in E.
  - discriminate.
  - inversion NV; subst. destruct s; [congruence|discriminate].
  - inversion NV as [| |l' F| |]; subst. revert w. induction l as [|e l IHl]; intro w; [apply m_nil_iff|].
    cbn [forallb] in E. apply andb_true_iff in E as [E1 E2]. inversion IH; inversion F; subst.
    rewrite m_cons_iff. rewrite (cat_iff _ eps _ eps w); [exact (cat_eps_l eps w)|intro; now apply H1|]. intro. apply IHl; try assumption. now constructor.
  - inversion NV as [| | | |e' ? ? N1 N2]; subst. rewrite m_repeat_iff. apply orb_true_iff in E as [E|E].
    + specialize (IH N1 E). split.
      * intros (ws & -> & F & _). apply concat_nil. eapply Forall_impl; [|exact F]. intros v. apply IH.
      * intros ->. exists (repeat [] min). rewrite repeat_length. split; [symmetry; apply concat_nil, Forall_forall; intros v Hv; now apply repeat_spec in Hv|].
        split; [apply Forall_forall; intros v Hv; apply repeat_spec in Hv; subst; now apply IH|]. split; [lia|exact N2].
    + apply andb_true_iff in E as [E1 E2]. apply Nat.eqb_eq in E1. destruct max as [[|m]|]; try discriminate. subst. split.
      * intros (ws & -> & _ & _ & B). specialize (B 0 eq_refl). destruct ws; [reflexivity|cbn in B; lia].
      * intros ->. apply rep_nil.
  - inversion NV as [| | |l' NE F|]; subst. rewrite m_union_iff. rewrite Forall_forall in *. rewrite forallb_forall in E. split.
    + intros (e & Hi & M). apply (IH e Hi (F e Hi) (E e Hi)). exact M.
    + intros ->. destruct l as [|e l]; [congruence|]. exists e. split; [now left|]. apply (IH e); [now left|apply F; now left|apply E; now left|reflexivity].
Qed.

Lemma simplified_lang e : solid e -> forall w, matches (re_simplified e) w <-> matches e w.
Proof.
  induction e as [|s|l IH|e min max IH|l IH] using regexp_ind'; intros SO w; cbn [re_simplified].
  - reflexivity.
  - reflexivity.
  - inversion SO as [| |l' F| |]; subst. clear SO. revert w. induction l as [|e l IHl]; intro w; [reflexivity|].
    inversion IH; inversion F; subst. cbn [flat_map]. specialize (IHl H2 H6). destruct (re_is_empty e) eqn:E.
    + cbn [app]. rewrite IHl, m_cons_iff. rewrite (cat_iff _ eps _ (matches (RSequence l)) w); [now rewrite cat_eps_l|intro; now apply is_empty_lang|reflexivity].
    + cbn [app]. rewrite !m_cons_iff. apply cat_iff; [|exact IHl]. intro. apply H1. now apply nonvoid_solid.
  - inversion SO; subst. specialize (IH H0). rewrite !m_repeat_iff. split; intros (ws & -> & F & A); exists ws; (split; [reflexivity|]); (split; [|exact A]);
      (eapply Forall_impl; [|exact F]); intros v; apply IH.
  - inversion SO as [| | |l' F|]; subst. rewrite Forall_forall in *.
    assert (G : matches (RUnion (map re_simplified l)) w <-> matches (RUnion l) w).
    { rewrite !m_union_iff. split.
      - intros (e' & Hi & M). apply in_map_iff in Hi as (e & <- & Hi). exists e. split; [exact Hi|]. now apply (IH e Hi (F e Hi)).
      - intros (e & Hi & M). exists (re_simplified e). split; [now apply in_map|]. now apply (IH e Hi (F e Hi)). }
    destruct l as [|e [|e' l]]; try exact G. rewrite <- G. rewrite m_union_iff. cbn [map In]. split; [eauto|]. intros (x & [<-|[]] & M). exact M.
Qed.

(** For all expressions. *)
Lemma is_empty_eps e : re_is_empty e = true -> forall w, matches e w -> w = [].
Proof.
  induction e as [|s|l IH|e min max IH|l IH] using regexp_ind'; cbn [re_is_empty]; intros E w M.
  - discriminate.
  - apply m_set_iff in M as (c & -> & H). destruct s; [discriminate H|discriminate E].
  - rewrite forallb_forall in E. rewrite Forall_forall in IH. revert w M. induction l as [|e l IHl]; intros w M; [now apply m_nil_iff|].
    apply m_cons_iff in M as (u & v & -> & M1 & M2). rewrite (IH e (or_introl eq_refl) (E e (or_introl eq_refl)) u M1).
    apply IHl; [intros x Hx; apply IH; now right|intros x Hx; apply E; now right|exact M2].
  - apply m_repeat_iff in M as (ws & -> & F & L & B). apply orb_true_iff in E as [E|E].
    + apply concat_nil. eapply Forall_impl; [|exact F]. intros v. apply (IH E).
    + apply andb_true_iff in E as [_ E]. destruct max as [[|m]|]; try discriminate E. specialize (B 0 eq_refl). destruct ws; [reflexivity|cbn in B; lia].
  - apply m_union_iff in M as (e & Hi & M). rewrite forallb_forall in E. rewrite Forall_forall in IH. exact (IH e Hi (E e Hi) w M).
Qed.
Lemma simplified_keeps e : forall w, matches e w -> matches (re_simplified e) w.
Proof.
  induction e as [|s|l IH|e min max IH|l IH] using regexp_ind'; intros w M; cbn [re_simplified]; try exact M.
  - revert w M. induction l as [|e l IHl]; intros w M; [exact M|]. inversion IH; subst. cbn [flat_map].
    apply m_cons_iff in M as (u & v & -> & M1 & M2). destruct (re_is_empty e) eqn:E.
    + rewrite (is_empty_eps e E u M1). now apply IHl.
    + apply m_cons_iff. exists u, v. split; [reflexivity|]. split; [auto|now apply IHl].
  - apply m_repeat_iff in M as (ws & -> & F & A). apply m_repeat_iff. exists ws. split; [reflexivity|]. split; [|exact A]. eapply Forall_impl; [|exact F]. exact IH.
  - rewrite Forall_forall in IH. apply m_union_iff in M as (e & Hi & M).
    assert (G : matches (RUnion (map re_simplified l)) w) by (apply m_union_iff; exists (re_simplified e); split; [now apply in_map|now apply IH]).
    destruct l as [|e0 [|e' l]]; try exact G. destruct Hi as [->|[]]. apply IH; [now left|exact M].
Qed.

Lemma simplified_nonvoid e : nonvoid e -> nonvoid (re_simplified e).
Proof.
  induction e as [|s|l IH|e min max IH|l IH] using regexp_ind'; intros NV; cbn [re_simplified]; try exact NV.
  - inversion NV as [| |l' F| |]; subst. constructor. rewrite Forall_forall in *. intros x Hx. apply in_flat_map in Hx as (e & He & Hx).
    destruct (re_is_empty e); [destruct Hx|]. destruct Hx as [<-|[]]. auto.
  - inversion NV; subst. constructor; auto.
  - inversion NV as [| | |l' NE F|]; subst. rewrite Forall_forall in *.
    assert (G : nonvoid (RUnion (map re_simplified l))).
    { constructor; [destruct l; [congruence|discriminate]|]. apply Forall_forall. intros x Hx. apply in_map_iff in Hx as (e & <- & He). auto. }
    destruct l as [|e [|e' l]]; try exact G. apply IH; [now left|apply F; now left].
Qed.

Lemma push_nonvoid cur e : nonvoid cur -> nonvoid e -> nonvoid (re_push cur e).
Proof.
  intros H1 H2. destruct cur as [|s|[|x l]|x min max|[|x l]]; cbn [re_push]; try exact H2; try (constructor; auto; fail).
  inversion H1; subst. constructor. apply Forall_app. auto.
Qed.

(** ** Singletons *)
Lemma range_len_pos r : (fst r <= snd r)%N -> is_char (fst r) = true -> is_char (snd r) = true -> (1 <= range_len r)%N.
Proof.
  intros H A B. apply is_char_spec in A. apply is_char_spec in B. unfold range_len. destruct (N.ltb_spec (snd r) (fst r)); [lia|].
  destruct (N.leb_spec (fst r) 55295), (N.leb_spec 57344 (snd r)); cbn [andb]; lia.
Qed.
Lemma len_one s : cs_good s -> cs_len s = 1%N -> exists c, s = [(c, c)] /\ is_char c = true.
Proof.
  intros G L. destruct s as [|[a b] s]; [discriminate|]. destruct G as (_ & H & Ha & Hb & G).
  assert (K : (cs_len ((a, b) :: s) = range_len (a, b) + cs_len s)%N) by reflexivity. rewrite K in L.
  pose proof (range_len_pos (a, b) H Ha Hb) as P. destruct s as [|[a' b'] s].
  - cbn [cs_len fold_right] in L. exists a. assert (b = a); [|subst; auto]. rewrite N.add_0_r in L. revert L. unfold range_len. cbn [fst snd].
    apply is_char_spec in Ha. apply is_char_spec in Hb.
    destruct (N.ltb_spec b a); [lia|]. destruct (N.leb_spec a 55295), (N.leb_spec 57344 b); cbn [andb]; lia.
  - destruct G as (_ & H' & Ha' & Hb' & _). assert (K' : (cs_len ((a', b') :: s) = range_len (a', b') + cs_len s)%N) by reflexivity. rewrite K' in L.
    pose proof (range_len_pos (a', b') H' Ha' Hb'). lia.
Qed.

Lemma singleton_lang e : sets_good e -> re_is_singleton e = true -> exists w, forall v, matches e v <-> v = w.
Proof.
  induction e as [|s|l IH|e min max IH|l IH] using regexp_ind'; intros SG E; cbn [re_is_singleton] in E.
  - discriminate.
  - inversion SG; subst. apply N.eqb_eq in E. destruct (len_one s) as (c & -> & _); [assumption|assumption|]. exists [c]. intro v. rewrite m_set_iff. split.
    + intros (d & -> & H). apply cs_mem_iff in H as (r & [<-|[]] & H). cbn [fst snd] in H. f_equal. lia.
    + intros ->. exists c. split; [reflexivity|]. apply cs_mem_iff. exists (c, c). split; [now left|cbn [fst snd]; lia].
  - inversion SG as [| |l' F| |]; subst. clear SG. induction l as [|e l IHl]; [exists []; intro; apply m_nil_iff|].
    inversion IH; inversion F; subst. cbn [forallb] in E. apply andb_true_iff in E as [E1 E2]. destruct (H1 H5 E1) as (w1 & W1). destruct (IHl H2 E2 H6) as (w2 & W2).
    exists (w1 ++ w2). intro v. rewrite m_cons_iff. split.
    + intros (u & u' & -> & A & B). apply W1 in A. apply W2 in B. now subst.
    + intros ->. exists w1, w2. split; [reflexivity|]. split; [now apply W1|now apply W2].
  - inversion SG; subst. apply andb_true_iff in E as [E1 E2]. destruct max as [m|]; [|discriminate]. apply Nat.eqb_eq in E1. subst m. destruct (IH H0 E2) as (w & W).
    exists (concat (repeat w min)). intro v. rewrite m_repeat_iff. split.
    + intros (ws & -> & F & A & B). specialize (B min eq_refl). f_equal. assert (length ws = min) by lia. clear A B SG. subst min.
      induction F as [|u ws Hu F IHw]; [reflexivity|]. cbn. f_equal; [now apply W|exact IHw].
    + intros ->. exists (repeat w min). rewrite repeat_length. split; [reflexivity|]. split; [apply Forall_forall; intros u Hu; apply repeat_spec in Hu; now apply W|].
      split; [lia|]. intros m [= <-]. lia.
  - destruct l as [|e [|e' l]]; try discriminate. inversion SG as [| | |l' F|]; subst. inversion F; inversion IH; subst. destruct (H5 H1 E) as (w & W).
    exists w. intro v. rewrite m_union_iff, <- W. cbn [In]. split; [intros (x & [<-|[]] & M); exact M|eauto].
Qed.

Lemma build_singleton_ok e : sets_good e -> re_is_singleton e = true -> exists w, (forall acc, re_build_singleton e acc = Ok (acc ++ w)) /\
  (once e -> forall v, matches e v <-> v = w).
Proof.
  induction e as [|s|l IH|e min max IH|l IH] using regexp_ind'; intros SG E; cbn [re_is_singleton] in E.
  - discriminate.
  - inversion SG; subst. apply N.eqb_eq in E. destruct (len_one s) as (c & -> & _); [assumption|assumption|]. exists [c]. split.
    + intro acc. cbn [re_build_singleton fst snd]. now rewrite N.ltb_irrefl.
    + intros _ v. rewrite m_set_iff. split.
      * intros (d & -> & H). apply cs_mem_iff in H as (r & [<-|[]] & H). cbn [fst snd] in H. f_equal. lia.
      * intros ->. exists c. split; [reflexivity|]. apply cs_mem_iff. exists (c, c). split; [now left|cbn [fst snd]; lia].
  - inversion SG as [| |l' F| |]; subst. clear SG. induction l as [|e l IHl].
    + exists []. split; [intro; cbn; now rewrite app_nil_r|intros _; exact m_nil_iff].
    + inversion IH; inversion F; subst. cbn [forallb] in E. apply andb_true_iff in E as [E1 E2].
      destruct (H1 H5 E1) as (w1 & B1 & W1). destruct (IHl H2 E2 H6) as (w2 & B2 & W2). exists (w1 ++ w2). split.
      * intro acc. cbn [re_build_singleton]. rewrite B1. cbn [bind]. rewrite app_assoc. apply B2.
      * intros O v. inversion O as [| |l' Fo| |]; subst. inversion Fo; subst. rewrite m_cons_iff. split.
        -- intros (u & u' & -> & A & B). apply W1 in A; [|assumption]. apply W2 in B; [|now constructor]. now subst.
        -- intros ->. exists w1, w2. split; [reflexivity|]. split; [now apply W1|apply W2; [now constructor|reflexivity]].
  - inversion SG; subst. apply andb_true_iff in E as [E1 E2]. destruct (IH H0 E2) as (w & B & W). exists w. split; [exact B|].
    intros O v. inversion O; subst. rewrite m_repeat_iff. split.
    + intros (ws & -> & F & A & B'). specialize (B' 1 eq_refl). destruct F as [|u ws Hu F]; [cbn in A; lia|]. destruct ws; [|cbn in B'; lia]. cbn. rewrite app_nil_r. now apply W.
    + intros ->. exists [w]. cbn. rewrite app_nil_r. split; [reflexivity|]. split; [constructor; [now apply W|constructor]|]. split; [lia|]. intros m [= <-]. lia.
  - destruct l as [|e [|e' l]]; try discriminate. inversion SG as [| | |l' F|]; subst. inversion F; inversion IH; subst. destruct (H5 H1 E) as (w & B & W).
    exists w. split; [exact B|]. intros O v. inversion O as [| | |l' Fo|]; subst. inversion Fo; subst. rewrite m_union_iff, <- W by assumption. cbn [In].
    split; [intros (x & [<-|[]] & M); exact M|eauto].
Qed.
