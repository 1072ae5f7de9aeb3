(** * Names of variables: proofs *)

From Coq Require Import String List Bool NArith Lia.
Import ListNotations.
From Verif Require Import Base AbsJsonModel VariableModel VariableSpec.
Open Scope list_scope.
Open Scope N_scope.

Lemma between_spec a b c : between a b c = true <-> a <= c <= b.
Proof. unfold between. rewrite andb_true_iff, !N.leb_le. reflexivity. Qed.

Lemma in_table_cons r t c : in_table (r :: t) c <-> fst r <= c <= snd r \/ in_table t c.
Proof.
  unfold in_table. split.
  - intros (x & [<-|I] & H); [now left|]. right. now exists x.
  - intros [H|(x & I & H)]; [exists r; split; [now left|assumption]|]. exists x. split; [now right|assumption].
Qed.
Lemma in_table_nil c : in_table [] c <-> False.
Proof. split; [|intros []]. intros (x & [] & _). Qed.

Lemma base_spec c : is_pn_char_base c = true <-> in_table base_table c.
Proof.
  unfold is_pn_char_base, base_table. rewrite !orb_true_iff, !between_spec, !in_table_cons, in_table_nil. cbn [fst snd].
  tauto.
Qed.

Lemma u_spec c : is_pn_char_u c = true <-> pn_chars_u c.
Proof.
  unfold is_pn_char_u, pn_chars_u. cbn [app]. rewrite !orb_true_iff, base_spec, !N.eqb_eq, !in_table_cons. cbn [fst snd].
  assert (forall a, c = a <-> a <= c <= a) as E by (intros; lia). rewrite (E 95), (E 58). tauto.
Qed.

Lemma digit_spec c : is_ascii_digit c = true <-> digit c.
Proof. apply between_spec. Qed.

Lemma char_spec c : is_pn_char c = true <-> pn_chars c.
Proof.
  unfold is_pn_char, pn_chars. rewrite !orb_true_iff, u_spec, !N.eqb_eq, !between_spec, !in_table_cons, in_table_nil.
  cbn [fst snd]. unfold digit. assert (forall a, c = a <-> a <= c <= a) as E by (intros; lia). rewrite (E 0xb7). tauto.
Qed.

Lemma check_spec w : check_variable_name w = true <-> name_word w.
Proof.
  unfold check_variable_name, name_word. destruct w as [|c w].
  - split; [discriminate|]. intros (c & w' & E & _). discriminate.
  - split.
    + destruct (is_ascii_digit c || is_pn_char_u c) eqn:E; [|discriminate]. intros H. exists c, w.
      rewrite orb_true_iff, digit_spec, u_spec in E. rewrite forallb_forall in H. split; [reflexivity|]. split; [assumption|].
      apply Forall_forall. intros x I. apply char_spec. auto.
    + intros (c' & w' & E & H & F). injection E as <- <-. rewrite <- digit_spec, <- u_spec, <- orb_true_iff in H. rewrite H.
      apply forallb_forall. intros x I. apply char_spec. rewrite Forall_forall in F. auto.
Qed.

Lemma dot_not_char : ~ pn_chars dot.
Proof. rewrite <- char_spec. vm_compute. discriminate. Qed.
Lemma dot_not_start : ~ (digit dot \/ pn_chars_u dot).
Proof. rewrite <- digit_spec, <- u_spec, <- orb_true_iff. vm_compute. discriminate. Qed.

Lemma name_label w : name_word w <-> label_word w /\ ~ In dot w.
Proof.
  split.
  - intros (c & w' & -> & H & F). split.
    + exists c. split; [assumption|]. destruct w' as [|x l]; [now left|]. right.
      destruct (@exists_last _ (x :: l)) as (w2 & z & E); [discriminate|]. exists w2, z. rewrite E in *.
      apply Forall_app in F as [F1 F2]. split; [reflexivity|]. split; [|now inversion F2].
      eapply Forall_impl; [|exact F1]. auto.
    + intros [->|I]; [now apply dot_not_start|]. rewrite Forall_forall in F. now apply dot_not_char, F.
  - intros [(c & H & [->|(w' & z & -> & F & Z)]) N].
    + exists c, []. auto.
    + exists c, (w' ++ [z]). split; [reflexivity|]. split; [assumption|]. apply Forall_app. split; [|now constructor].
      rewrite Forall_forall in *. intros x I. destruct (F x I) as [P| ->]; [assumption|]. exfalso. apply N. right.
      apply in_or_app. now left.
Qed.

Section Names.
Context {TS : TextSyntax}.

Lemma variable_name_new_spec s n : variable_name_new s = Some n <-> n = s /\ variable_name s.
Proof.
  unfold variable_name_new, variable_name. rewrite <- check_spec. destruct (check_variable_name (chars s)).
  - split; [intros H; injection H as <-; auto|]. now intros [-> _].
  - split; [discriminate|]. now intros [_ H].
Qed.
Lemma variable_name_new_none s : variable_name_new s = None <-> ~ variable_name s.
Proof.
  unfold variable_name_new, variable_name. rewrite <- check_spec. destruct (check_variable_name (chars s)); [|split; [discriminate|reflexivity]].
  split; [discriminate|]. intros H. now contradiction H.
Qed.
End Names.
