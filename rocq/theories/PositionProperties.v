(** * C99: the errors of layout documents say where they are *)

From Coq Require Import String List Bool Arith Lia.
Import ListNotations.
From Verif Require Import Base JsonModel AbsModel AbsJsonModel PositionModel PositionSpec PositionProofs.
Open Scope list_scope.
Open Scope nat_scope.

Section Properties.
Context {TS : TextSyntax} (doc : json).

(** Keeping track of the positions changes nothing: the same layout is read, the same error is
    reported, and no position is looked up that the code map does not have (no other panic). *)
Theorem C99_same_result :
  match read_layout doc with
  | Ok l => layout_from_json doc = Ok l
  | Err e => layout_from_json doc = Err (pe_error e)
  | Panic w => layout_from_json doc = Panic w
  | OutOfFuel => layout_from_json doc = OutOfFuel
  end.
Proof.
  pose proof (read_layout_sim doc) as H.
  destruct (read_layout doc), (layout_from_json doc); cbn [sim] in H; try tauto; try congruence.
  destruct H as [-> _]. reflexivity.
Qed.

(** The error is about the fragment of the document at its position. *)
Theorem C99_points_at e : read_layout doc = Err e ->
  points_at doc (pe_error e) (position e) (pe_other e).
Proof.
  intros E. pose proof (read_layout_sim doc) as H. rewrite E in H.
  destruct (layout_from_json doc); cbn [sim] in H; try tauto. apply H.
Qed.

(** Hence every position of an error is one of the document. *)
Lemma points_in e i other : points_at doc e i other -> exists f, fragment_at doc i f.
Proof.
  destruct e; cbn [points_at]; intros H;
    repeat match goal with
           | H : exists _, _ |- _ => destruct H as [? H]
           | H : _ /\ _ |- _ => destruct H as [? H]
           | H : key_of _ _ _ _ _ _ |- _ => destruct H as (? & ? & ? & ?)
           | H : _ \/ _ |- _ => destruct H
           end; eauto.
Qed.

Lemma fragment_in_map i f : fragment_at doc i f -> nth_error (code_map_of doc) i = Some (volume f).
Proof. intros H. unfold code_map_of. now rewrite nth_error_map, H. Qed.

(** The positions of an error: its own and those of its hints. *)
Definition all_positions (e : pos_error) : list nat :=
  position e :: flat_map (fun h => match hint_position h with Some i => [i] | None => [] end) (hints e).

Theorem C99_in_document e i : read_layout doc = Err e -> In i (all_positions e) ->
  exists f, fragment_at doc i f.
Proof.
  intros E HI. pose proof (C99_points_at e E) as HP. destruct HI as [<-|HI]; [exact (points_in _ _ _ HP)|].
  unfold hints in HI. destruct (pe_error e); cbn [flat_map hint_position app In] in HI; try tauto.
  destruct (pe_other e) as [i'|] eqn:EO; cbn [flat_map hint_position app In] in HI; [|tauto].
  destruct HI as [<-|[]]. cbn [points_at] in HP.
  destruct HP as (off & o & before & between & i2 & Ei & _ & _ & _ & (j & _ & _ & _ & HK) & _).
  injection Ei as <-. eauto.
Qed.

(** The diagnostic is always produced: one label on the fragment that the error is about, a second one
    on the other entry when there are two, and the hints without position as notes. *)
Theorem C99_diagnostic e : read_layout doc = Err e ->
  syntax_diagnostic (code_map_of doc) e =
  Ok (match pe_error e, pe_other e with
      | DuplicateEntry _, Some i =>
          Diagnostic [LabelPrimary (position e) (pe_error e); LabelSecondary i (HintDuplicateEntry i)] []
      | InvalidType expected found, _ =>
          Diagnostic [LabelPrimary (position e) (pe_error e)]
            [HintExpectedType expected; HintFoundType found]
      | _, _ => Diagnostic [LabelPrimary (position e) (pe_error e)] []
      end).
Proof.
  intros E. pose proof (C99_in_document e) as HI.
  assert (HS : forall i, In i (all_positions e) -> span_of (code_map_of doc) i = Ok i).
  { intros i H. destruct (HI i E H) as [f Hf]. unfold span_of. now rewrite (fragment_in_map _ _ Hf). }
  unfold syntax_diagnostic. rewrite HS by (left; reflexivity). cbn [bind].
  unfold all_positions, hints in HS. unfold hints.
  destruct (pe_error e); try reflexivity. destruct (pe_other e) as [i|]; [|reflexivity].
  cbn [add_hints hint_position]. rewrite HS by (right; left; reflexivity). reflexivity.
Qed.

(** A second position is given exactly for duplicate entries. *)
Theorem C99_other e : read_layout doc = Err e ->
  (pe_other e <> None <-> exists k, pe_error e = DuplicateEntry k).
Proof.
  intros E. pose proof (read_layout_sim doc) as H. rewrite E in H.
  destruct (layout_from_json doc); cbn [sim] in H; try tauto. destruct H as [_ [HP HO]].
  split; [exact HO|]. intros [k Ek]. rewrite Ek in HP. cbn [points_at] in HP.
  destruct HP as (off & o & before & between & i' & -> & _). discriminate.
Qed.
End Properties.
