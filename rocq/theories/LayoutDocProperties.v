(** * C116: the documents of compiled layouts that serde reads *)

From Coq Require Import String Ascii List Bool Arith NArith ZArith QArith Qcanon Lia.
Import ListNotations.
From Verif Require Import Base BaseProofs Orders PatternModel ValueModel LayoutModel NumberModel HydrateModel JsonModel
  AutomatonModel RegexpModel AbsModel AbsJsonModel AbsJsonProofs AbsSerdeModel AbsSerdeProofs LayoutSerdeModel SerdeDocSpec SerdeDocProofs SerdeDocLeaves SerdeDocNested LayoutDocSpec LayoutDocProofs.
Open Scope list_scope.
Open Scope nat_scope.

Section C116.
Context {R F : Type} {CR : Cmp R} {SE : SerdeExternal R F} (from_f64 : F -> option Qc).
Notation sv := (serde_value F).
Notation object := (list (string * sv)).

Ltac nodup := repeat (apply NoDup_cons; [intros X; cbn [In] in X; repeat (destruct X as [X|X]; [discriminate X|]); destruct X|]); apply NoDup_nil.
Ltac keys := let x := fresh in intros x; clear; cbn; tauto.
Ltac variants E := repeat match type of E with
  | variant_ldoc _ _ = variant_ldoc _ _ => let N := fresh "N" in apply variant_inj in E as [N E]; try discriminate N; try (injection N as N); try clear N
  end.
Ltac by_struct H := let o := fresh "o" in let h := fresh "h" in let S := fresh "S" in let A := fresh "A" in let B := fresh "B" in
  eapply l_struct in H as (o & h & S & A & B); [|nodup|keys|].

Lemma data_iff (s : sv) l ex : get_data from_f64 s = Ok (l, ex) <-> layout_ldoc from_f64 (variant_ldoc "Literal" (variant_ldoc "Data" s)) l ex.
Proof.
  unfold get_data.
  set (plain := fun (c : sv) (k : data_kind) =>
    let* o := get_struct ["input"; "intro"; "dataset"; "resource"; "datatype"; "extra_properties"]%string c in
    let* h := get_header o in
    let* r := f_require o "resource" get_pattern in
    let* d := f_require o "datatype" get_resource in
    Ok (DataL k (fst h) r d, snd h)).
  assert (HP : forall c k, plain c k = Ok (l, ex) <-> exists o h, open_struct ["input"; "intro"; "dataset"; "resource"; "datatype"; "extra_properties"]%string c o /\ header_entries o h ex /\
    exists r d, l = DataL k h r d /\ given o "resource" pattern_ldoc r /\ given o "datatype" resource_ldoc d).
  { intros c k. unfold plain. apply (l_struct _ ["resource"; "datatype"]%string) with
      (P := fun (o : object) h l => exists r d, l = DataL k h r d /\ given o "resource" pattern_ldoc r /\ given o "datatype" resource_ldoc d); [nodup|keys|].
    intros o [h e]. eapply sreads_iff.
    - apply sreads_step; [apply sreads_require; intros; apply l_pattern|intros r].
      apply sreads_step; [apply sreads_require with (D := resource_ldoc); reflexivity|intros d]. apply sreads_ret.
    - intros [l' e']. cbn. split; [intros (r & A & d & B & [= -> ->]); eauto 6|]. intros (-> & r & d & -> & A & B). eauto 6. }
  assert (HU : forall c : sv, (let* o := get_struct ["input"; "intro"; "dataset"; "const"; "extra_properties"]%string c in let* h := get_header o in
      let* c := f_default o "const" (value_deserialize from_f64) (VLit LUnit) in Ok (UnitL (fst h) c, snd h)) = Ok (l, ex) <->
    exists o h, open_struct ["input"; "intro"; "dataset"; "const"; "extra_properties"]%string c o /\ header_entries o h ex /\
      exists v, l = UnitL h v /\ given_or o "const" (value_ldoc from_f64) (VLit LUnit) v).
  { intros c. apply (l_struct _ ["const"]%string) with (P := fun (o : object) h l => exists v, l = UnitL h v /\ given_or o "const" (value_ldoc from_f64) (VLit LUnit) v); [nodup|keys|].
    intros o [h e]. eapply sreads_iff.
    - apply sreads_step; [apply sreads_default with (D := value_ldoc from_f64); reflexivity|intros v]. apply sreads_ret.
    - intros [l' e']. cbn. split; [intros (v & A & [= -> ->]); eauto|]. intros (-> & v & -> & A). eauto. }
  assert (HT : forall c : sv, (let* o := get_struct ["input"; "intro"; "pattern"; "dataset"; "resource"; "datatype"; "extra_properties"]%string c in let* h := get_header o in
      let* p := f_option o "pattern" (get_automaton (R := R)) in let* r := f_require o "resource" get_pattern in let* d := f_require o "datatype" get_resource in
      Ok (DataL (KTextString p) (fst h) r d, snd h)) = Ok (l, ex) <->
    exists o h, open_struct ["input"; "intro"; "pattern"; "dataset"; "resource"; "datatype"; "extra_properties"]%string c o /\ header_entries o h ex /\
      exists p r d, l = DataL (KTextString p) h r d /\ given_opt o "pattern" (automaton_ldoc (R := R)) p /\ given o "resource" pattern_ldoc r /\ given o "datatype" resource_ldoc d).
  { intros c. apply (l_struct _ ["pattern"; "resource"; "datatype"]%string) with
      (P := fun (o : object) h l => exists p r d, l = DataL (KTextString p) h r d /\ given_opt o "pattern" (automaton_ldoc (R := R)) p /\ given o "resource" pattern_ldoc r /\ given o "datatype" resource_ldoc d); [nodup|keys|].
    intros o [h e]. eapply sreads_iff.
    - apply sreads_step; [apply sreads_option; intros; apply l_automaton|intros p]. apply sreads_step; [apply sreads_require; intros; apply l_pattern|intros r].
      apply sreads_step; [apply sreads_require with (D := resource_ldoc); reflexivity|intros d]. apply sreads_ret.
    - intros [l' e']. cbn. split; [intros (p & C & r & A & d & B & [= -> ->]); eauto 8|]. intros (-> & p & r & d & -> & C & A & B). eauto 10. }
  etransitivity; [exact (variant_content s (fun name c => if String.eqb name "Unit" then
      (let* o := get_struct ["input"; "intro"; "dataset"; "const"; "extra_properties"]%string c in let* h := get_header o in
      let* c := f_default o "const" (value_deserialize from_f64) (VLit LUnit) in Ok (UnitL (fst h) c, snd h))
    else if String.eqb name "Boolean" then plain c KBoolean else if String.eqb name "Number" then plain c KNumber
    else if String.eqb name "ByteString" then plain c KByteString else if String.eqb name "TextString" then
      (let* o := get_struct ["input"; "intro"; "pattern"; "dataset"; "resource"; "datatype"; "extra_properties"]%string c in let* h := get_header o in
      let* p := f_option o "pattern" (get_automaton (R := R)) in let* r := f_require o "resource" get_pattern in let* d := f_require o "datatype" get_resource in
      Ok (DataL (KTextString p) (fst h) r d, snd h)) else Err tt) _)|].
  split.
  - intros (name & c & -> & X).
    destruct (String.eqb_spec name "Unit") as [->|_]; [apply HU in X as (o & h & S & A & v & -> & B); econstructor; eauto|].
    destruct (String.eqb_spec name "Boolean") as [->|_]; [apply HP in X as (o & h & S & A & r & d & -> & B & C); eapply LdPlain; unfold plain_kind; eauto|].
    destruct (String.eqb_spec name "Number") as [->|_]; [apply HP in X as (o & h & S & A & r & d & -> & B & C); eapply LdPlain; unfold plain_kind; eauto|].
    destruct (String.eqb_spec name "ByteString") as [->|_]; [apply HP in X as (o & h & S & A & r & d & -> & B & C); eapply LdPlain; unfold plain_kind; eauto|].
    destruct (String.eqb_spec name "TextString") as [->|_]; [|discriminate X]. apply HT in X as (o & h & S & A & p & r & d & -> & B & C & E). eapply LdText; eauto.
  - intros H. remember (variant_ldoc "Literal" (variant_ldoc "Data" s)) as doc eqn:E. symmetry in E. destruct H; try (destruct H as [-> | ->]; [discriminate E|]); variants E; subst s.
    + do 2 eexists. split; [reflexivity|]. apply HU. eauto 10.
    + destruct H as [[-> ->]|[[-> ->]|[-> ->]]]; do 2 eexists; (split; [reflexivity|]); apply HP; eauto 10.
    + do 2 eexists. split; [reflexivity|]. apply HT. eauto 12.
Qed.

Lemma literal_iff (s : sv) l ex : get_literal from_f64 s = Ok (l, ex) <-> layout_ldoc from_f64 (variant_ldoc "Literal" s) l ex.
Proof.
  unfold get_literal.
  assert (HI : forall c : sv, (let* o := get_struct ["input"; "intro"; "dataset"; "pattern"; "resource"; "extra_properties"]%string c in let* h := get_header o in
      let* p := f_option o "pattern" (get_automaton (R := R)) in let* r := f_require o "resource" get_pattern in
      Ok (IdL (fst h) r p, snd h)) = Ok (l, ex) <->
    exists o h, open_struct ["input"; "intro"; "dataset"; "pattern"; "resource"; "extra_properties"]%string c o /\ header_entries o h ex /\
      exists p r, l = IdL h r p /\ given_opt o "pattern" (automaton_ldoc (R := R)) p /\ given o "resource" pattern_ldoc r).
  { intros c. apply (l_struct _ ["pattern"; "resource"]%string) with
      (P := fun (o : object) h l => exists p r, l = IdL h r p /\ given_opt o "pattern" (automaton_ldoc (R := R)) p /\ given o "resource" pattern_ldoc r); [nodup|keys|].
    intros o [h e]. eapply sreads_iff.
    - apply sreads_step; [apply sreads_option; intros; apply l_automaton|intros p]. apply sreads_step; [apply sreads_require; intros; apply l_pattern|intros r]. apply sreads_ret.
    - intros [l' e']. cbn. split; [intros (p & C & r & A & [= -> ->]); eauto 8|]. intros (-> & p & r & -> & C & A). eauto 10. }
  etransitivity; [exact (variant_content s (fun name c => if String.eqb name "Data" then get_data from_f64 c else if String.eqb name "Id" then
      (let* o := get_struct ["input"; "intro"; "dataset"; "pattern"; "resource"; "extra_properties"]%string c in let* h := get_header o in
      let* p := f_option o "pattern" (get_automaton (R := R)) in let* r := f_require o "resource" get_pattern in
      Ok (IdL (fst h) r p, snd h)) else Err tt) _)|].
  split.
  - intros (name & c & -> & X). destruct (String.eqb_spec name "Data") as [->|_]; [now apply data_iff|].
    destruct (String.eqb_spec name "Id") as [->|_]; [|discriminate X]. apply HI in X as (o & h & S & A & p & r & -> & B & C). eapply LdId; eauto.
  - intros H. remember (variant_ldoc "Literal" s) as doc eqn:E. symmetry in E. pose proof H as H0.
    destruct H0; try (destruct H0 as [-> | ->]; [discriminate E|]); variants E; subst s;
      try (do 2 eexists; (split; [reflexivity|]); apply data_iff; exact H).
    do 2 eexists. split; [reflexivity|]. apply HI. eauto 10.
Qed.

Lemma list_iff (s : sv) l ex : get_list s = Ok (l, ex) <-> layout_ldoc from_f64 (variant_ldoc "List" s) l ex.
Proof.
  unfold get_list.
  assert (HU : forall c : sv, (let* o := get_struct ["input"; "intro"; "item"; "dataset"; "extra_properties"]%string c in let* h := get_header o in
      let* it := f_require o "item" get_item in Ok (UnorderedL (fst h) it, snd h)) = Ok (l, ex) <->
    exists o h, open_struct ["input"; "intro"; "item"; "dataset"; "extra_properties"]%string c o /\ header_entries o h ex /\
      exists it, l = UnorderedL h it /\ given o "item" item_ldoc it).
  { intros c. apply (l_struct _ ["item"]%string) with (P := fun (o : object) h l => exists it, l = UnorderedL h it /\ given o "item" item_ldoc it); [nodup|keys|].
    intros o [h e]. eapply sreads_iff; [apply sreads_step; [apply sreads_require; intros; apply l_item|intros it]; apply sreads_ret|].
    intros [l' e']. cbn. split; [intros (v & A & [= -> ->]); eauto|]. intros (-> & v & -> & A). eauto. }
  assert (HO : forall c : sv, (let* o := get_struct ["input"; "intro"; "node"; "head"; "tail"; "dataset"; "extra_properties"]%string c in let* h := get_header o in
      let* n := f_require o "node" get_item in let* hd := f_require o "head" get_pattern in let* tl := f_require o "tail" get_pattern in
      Ok (OrderedL (fst h) n hd tl, snd h)) = Ok (l, ex) <->
    exists o h, open_struct ["input"; "intro"; "node"; "head"; "tail"; "dataset"; "extra_properties"]%string c o /\ header_entries o h ex /\
      exists n hd tl, l = OrderedL h n hd tl /\ given o "node" item_ldoc n /\ given o "head" pattern_ldoc hd /\ given o "tail" pattern_ldoc tl).
  { intros c. apply (l_struct _ ["node"; "head"; "tail"]%string) with
      (P := fun (o : object) h l => exists n hd tl, l = OrderedL h n hd tl /\ given o "node" item_ldoc n /\ given o "head" pattern_ldoc hd /\ given o "tail" pattern_ldoc tl); [nodup|keys|].
    intros o [h e]. eapply sreads_iff.
    - apply sreads_step; [apply sreads_require; intros; apply l_item|intros n]. apply sreads_step; [apply sreads_require; intros; apply l_pattern|intros hd].
      apply sreads_step; [apply sreads_require; intros; apply l_pattern|intros tl]. apply sreads_ret.
    - intros [l' e']. cbn. split; [intros (p & C & r & A & d & B & [= -> ->]); eauto 8|]. intros (-> & p & r & d & -> & C & A & B). eauto 10. }
  assert (HS : forall c : sv, (let* o := get_struct ["input"; "intro"; "items"; "dataset"; "extra_properties"]%string c in let* h := get_header o in
      let* its := f_require o "items" (de_vec get_item) in Ok (SizedL (fst h) its, snd h)) = Ok (l, ex) <->
    exists o h, open_struct ["input"; "intro"; "items"; "dataset"; "extra_properties"]%string c o /\ header_entries o h ex /\
      exists its, l = SizedL h its /\ given o "items" (seq_sdoc item_ldoc) its).
  { intros c. apply (l_struct _ ["items"]%string) with (P := fun (o : object) h l => exists its, l = SizedL h its /\ given o "items" (seq_sdoc item_ldoc) its); [nodup|keys|].
    intros o [h e]. eapply sreads_iff; [apply sreads_step; [apply sreads_require; intros; apply s_vec; intros; apply l_item|intros it]; apply sreads_ret|].
    intros [l' e']. cbn. split; [intros (v & A & [= -> ->]); eauto|]. intros (-> & v & -> & A). eauto. }
  etransitivity; [exact (variant_content s (fun name c => if String.eqb name "Unordered" then
      (let* o := get_struct ["input"; "intro"; "item"; "dataset"; "extra_properties"]%string c in let* h := get_header o in
      let* it := f_require o "item" get_item in Ok (UnorderedL (fst h) it, snd h))
    else if String.eqb name "Ordered" then
      (let* o := get_struct ["input"; "intro"; "node"; "head"; "tail"; "dataset"; "extra_properties"]%string c in let* h := get_header o in
      let* n := f_require o "node" get_item in let* hd := f_require o "head" get_pattern in let* tl := f_require o "tail" get_pattern in
      Ok (OrderedL (fst h) n hd tl, snd h))
    else if String.eqb name "Sized" then
      (let* o := get_struct ["input"; "intro"; "items"; "dataset"; "extra_properties"]%string c in let* h := get_header o in
      let* its := f_require o "items" (de_vec get_item) in Ok (SizedL (fst h) its, snd h)) else Err tt) _)|].
  split.
  - intros (name & c & -> & X).
    destruct (String.eqb_spec name "Unordered") as [->|_]; [apply HU in X as (o & h & S & A & it & -> & B); eapply LdUnordered; eauto|].
    destruct (String.eqb_spec name "Ordered") as [->|_]; [apply HO in X as (o & h & S & A & n & hd & tl & -> & B & C & E); eapply LdOrdered; eauto|].
    destruct (String.eqb_spec name "Sized") as [->|_]; [|discriminate X]. apply HS in X as (o & h & S & A & its & -> & B). eapply LdSized; eauto.
  - intros H. remember (variant_ldoc "List" s) as doc eqn:E. symmetry in E. destruct H; try (destruct H as [-> | ->]; [discriminate E|]); variants E; subst s; do 2 eexists; (split; [reflexivity|]).
    + apply HU. eauto 10.
    + apply HO. eauto 12.
    + apply HS. eauto 10.
Qed.

(** [Layout::deserialize] (of compiled layouts) reads exactly the documents of the grammar of LayoutDocSpec.v, as the layouts they describe. *)
Theorem C116_reads (s : sv) l ex : get_layout from_f64 s = Ok (l, ex) <-> layout_ldoc from_f64 s l ex.
Proof.
  assert (HP : forall c : sv, (let* o := get_struct ["input"; "intro"; "fields"; "dataset"; "extra_properties"]%string c in let* h := get_header o in
      let* f := f_require o "fields" (get_fields from_f64) in Ok (ProductL (fst h) f, snd h)) = Ok (l, ex) <->
    exists o h, open_struct ["input"; "intro"; "fields"; "dataset"; "extra_properties"]%string c o /\ header_entries o h ex /\
      exists fs, l = ProductL h fs /\ given o "fields" (map_sdoc (value_ldoc from_f64) field_ldoc) fs).
  { intros c. apply (l_struct _ ["fields"]%string) with (P := fun (o : object) h l => exists fs, l = ProductL h fs /\ given o "fields" (map_sdoc (value_ldoc from_f64) field_ldoc) fs); [nodup|keys|].
    intros o [h e]. eapply sreads_iff; [apply sreads_step; [apply sreads_require with (D := map_sdoc (value_ldoc from_f64) field_ldoc); intros; apply s_map; [reflexivity|intros; apply l_field]|intros it]; apply sreads_ret|].
    intros [l' e']. cbn. split; [intros (v & A & [= -> ->]); eauto|]. intros (-> & v & -> & A). eauto. }
  assert (HS : forall c : sv, (let* o := get_struct ["input"; "intro"; "variants"; "dataset"; "extra_properties"]%string c in let* h := get_header o in
      let* f := f_require o "variants" (de_vec get_sum_variant) in Ok (SumL (fst h) f, snd h)) = Ok (l, ex) <->
    exists o h, open_struct ["input"; "intro"; "variants"; "dataset"; "extra_properties"]%string c o /\ header_entries o h ex /\
      exists vs, l = SumL h vs /\ given o "variants" (seq_sdoc sum_variant_ldoc) vs).
  { intros c. apply (l_struct _ ["variants"]%string) with (P := fun (o : object) h l => exists vs, l = SumL h vs /\ given o "variants" (seq_sdoc sum_variant_ldoc) vs); [nodup|keys|].
    intros o [h e]. eapply sreads_iff; [apply sreads_step; [apply sreads_require; intros; apply s_vec; intros; apply l_sum_variant|intros it]; apply sreads_ret|].
    intros [l' e']. cbn. split; [intros (v & A & [= -> ->]); eauto|]. intros (-> & v & -> & A). eauto. }
  unfold get_layout. split.
  - intros X. apply bind_Ok in X as ([name c] & E & X). cbn [fst snd] in X.
    assert (Es : (s = SStr name /\ c = None) \/ exists x, s = variant_ldoc name x /\ c = Some x).
    { destruct s as [| | | | |t| | |[|[[] x] []]]; cbn in E; try discriminate E; injection E as <- <-; unfold variant_ldoc; eauto. }
    destruct (String.eqb_spec name "Never") as [->|_].
    { apply bind_Ok in X as (u & N & [= <- <-]). constructor. destruct Es as [[-> _]|(x & -> & ->)]; [now left|]. destruct x; try discriminate N. now right. }
    destruct (String.eqb_spec name "Always") as [->|_].
    { apply bind_Ok in X as (u & N & [= <- <-]). constructor. destruct Es as [[-> _]|(x & -> & ->)]; [now left|]. destruct x; try discriminate N. now right. }
    apply bind_Ok in X as (x & C & X). destruct Es as [[_ ->]|(x' & -> & ->)]; [discriminate C|]. injection C as ->.
    destruct (String.eqb_spec name "Literal") as [->|_]; [now apply literal_iff|].
    destruct (String.eqb_spec name "List") as [->|_]; [now apply list_iff|].
    destruct (String.eqb_spec name "Product") as [->|_]; [apply HP in X as (o & h & S & A & fs & -> & B); eapply LdProduct; eauto|].
    destruct (String.eqb_spec name "Sum") as [->|_]; [|discriminate X]. apply HS in X as (o & h & S & A & vs & -> & B). eapply LdSum; eauto.
  - intros H. pose proof H as H0. destruct H0; try (destruct H0 as [-> | ->]; reflexivity).
    1-4: change (get_literal from_f64 (variant_ldoc _ _) = Ok (_, _)) || idtac; apply literal_iff in H; exact H.
    + change ((let* o := get_struct ["input"; "intro"; "fields"; "dataset"; "extra_properties"]%string s in let* h := get_header o in
        let* f := f_require o "fields" (get_fields from_f64) in Ok (ProductL (fst h) f, snd h)) = Ok (ProductL h fs, ex)). apply HP. eauto 10.
    + change ((let* o := get_struct ["input"; "intro"; "variants"; "dataset"; "extra_properties"]%string s in let* h := get_header o in
        let* f := f_require o "variants" (de_vec get_sum_variant) in Ok (SumL (fst h) f, snd h)) = Ok (SumL h vs, ex)). apply HS. eauto 10.
    + apply list_iff in H. exact H.
    + apply list_iff in H. exact H.
    + apply list_iff in H. exact H.
Qed.

(** A field says if it is required; given as a sequence, it has four values. *)
Theorem C116_field (s : sv) f : get_field s = Ok f ->
  (exists o b, s = text_map o /\ In ("required"%string, SBool b) o /\ f_required f = b) \/
  (exists n v d b, s = SSeq [n; v; d; SBool b] /\ f_required f = b).
Proof.
  intros H. apply l_field in H. destruct H as [s o it b S _ (s' & I & E)]. unfold bool_sdoc in E. subst s'. destruct S as [o U|l L].
  - left. exists o, b. auto.
  - right. destruct l as [|n [|v [|d [|r [|]]]]]; try discriminate L. cbn in I. repeat (destruct I as [I|I]; [try discriminate I|]); [|destruct I].
    injection I as ->. exists n, v, d, b. auto.
Qed.

(** Entries that are not fields are ignored: adding some to a structure changes nothing. *)
Theorem C116_ignores (o : object) k x f : ~ In k ["intro"; "value"; "dataset"; "required"]%string ->
  (get_field (text_map ((k, x) :: o)) = Ok f <-> get_field (text_map o) = Ok f).
Proof.
  intros N. rewrite !l_field.
  assert (U : forall k', In k' ["intro"; "value"; "dataset"; "required"]%string -> (unrepeated ((k, x) :: o) k' <-> unrepeated o k')).
  { intros k' I. unfold unrepeated. cbn [map fst count_occ]. destruct (string_dec k k') as [->|_]; [contradiction|reflexivity]. }
  assert (G : forall T (D : sv -> T -> Prop) k' t, In k' ["intro"; "value"; "dataset"; "required"]%string -> (given ((k, x) :: o) k' D t <-> given o k' D t)).
  { intros T D k' t I. unfold given. split.
    - intros (s & [J|J] & HD); [injection J as -> _; contradiction|eauto].
    - intros (s & J & HD). exists s. split; [now right|exact HD]. }
  assert (E : forall o' : object, field_ldoc (text_map o') f <-> (forall k, In k ["intro"; "value"; "dataset"; "required"]%string -> unrepeated o' k) /\
    item_entries o' (f_item f) /\ given o' "required" bool_sdoc (f_required f)).
  { intros o'. split.
    - intros H. remember (text_map o') as s eqn:Es. destruct H as [s o1 it b S A B]. destruct S as [o1 U1|l1 L1]; [|discriminate Es].
      apply text_map_inj in Es as ->. auto.
    - intros (A & B & C). destruct f as [it b]. econstructor; [constructor; exact A|exact B|exact C]. }
  rewrite !E. unfold item_entries. rewrite !G by (cbn; tauto).
  split; intros (A & B); (split; [|exact B]); intros k' I; apply U; auto.
Qed.
End C116.
