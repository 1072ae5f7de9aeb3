(** * JSON and serde conversions: C46, C67, C68 *)

From Coq Require Import String Ascii List Bool Arith NArith ZArith QArith Qcanon Lia Sorting.Sorted.
Import ListNotations.
From Verif Require Import Base BaseProofs Orders ValueModel ValueProofs TermModel NumberModel NumberSpec NumberProofs
  NumberProperties JsonModel JsonSpec.
Open Scope list_scope.
Local Open Scope Z_scope.

(** ** Numbers *)

Lemma json_numeral neg ip fp : digits ip -> digits fp -> ip <> [] ->
  (match ip with d :: _ :: _ => d <> 0%nat | _ => True end) -> json_number (numeral neg ip fp) = true.
Proof.
  intros D F N Z. unfold numeral.
  assert (U : json_unsigned (digits_text ip ++ match fp with [] => "" | _ => "." ++ digits_text fp end) = true).
  { unfold json_unsigned. rewrite span_text by (trivial; apply frac_text).
    destruct ip as [|i ip]; [contradiction|]. cbn [map].
    apply andb_true_intro. split.
    - destruct ip; [now rewrite orb_true_r|]. destruct (Z.eqb_spec (Z.of_nat i) 0); [lia|reflexivity].
    - destruct fp as [|f fp]; [reflexivity|].
      change ("." ++ digits_text (f :: fp))%string with (String "."%char (digits_text (f :: fp))). cbn match.
      rewrite <- (append_nil_r (digits_text (f :: fp))), span_text by (trivial; exact I). reflexivity. }
  destruct neg.
  - match goal with |- json_number (_ ++ ?x) = _ => change (json_unsigned x = true) end. exact U.
  - match goal with |- json_number (_ ++ ?x) = _ => change (json_number x = true) end.
    now rewrite (proj2 (parse_text ip _ D N)).
Qed.

Lemma le_m1 q : (q <= - (1))%Qc <-> numer q <= - denom q.
Proof.
  split; intros H.
  - destruct (Z.le_gt_cases (numer q) (- denom q)) as [|X]; [assumption|].
    apply gt_m1 in X. exfalso. exact (Qclt_not_le _ _ X H).
  - apply Qcnot_lt_le. rewrite gt_m1. lia.
Qed.

Lemma number_to_json_spec q :
  (exists s, number_to_json q = Ok (Some s) /\ Denotes s q /\ ~ refused q) \/
  (number_to_json q = Ok None /\ refused q).
Proof.
  unfold number_to_json. destruct (C44_decimal_total q) as [[s|] E]; rewrite E; cbn [bind].
  - destruct (Z.le_gt_cases (numer q) (- denom q)) as [L|L].
    + right. split; [|right; now apply le_m1].
      assert (json_number s = false) as ->; [|reflexivity].
      pose proof E as E'. apply decimal_shape in E' as (gp & _ & -> & _).
      pose proof (denom_pos q) as P. destruct (Z.ltb_spec (numer q) 0); [|lia].
      assert (Y : Z.quot (numer q) (denom q) < 0).
      { replace (numer q) with (- - numer q) by lia. rewrite Z.quot_opp_l by lia.
        rewrite Z.quot_div_nonneg by lia.
        assert (1 <= - numer q / denom q) by (apply Z.div_le_lower_bound; lia). lia. }
      destruct (Z.quot (numer q) (denom q)); try lia. reflexivity.
    + left. exists s. destruct (decimal_text q s L E) as (ip & fp & A & B & C & D & F & G).
      split; [|split].
      * now rewrite D, json_numeral.
      * exists (numer q <? 0), ip, fp. auto.
      * intros [R|R]; [apply R; eapply finite_some; exact E|apply le_m1 in R; lia].
  - right. split; [reflexivity|]. left. now apply C44_decimal_none.
Qed.

(** ** C46 *)

(** The loop over the entries of a map. *)
Fixpoint entries_to_json (m : list (value * value)) (o : list (string * json)) : outcome non_json (list (string * json)) :=
  match m with
  | [] => Ok o
  | (k, v) :: m' =>
      match k with
      | VLit (LText s) => let* j := value_to_json v in entries_to_json m' (obj_insert s j o)
      | k => Err (NonStringKey k)
      end
  end.

Lemma value_to_json_map m : value_to_json (VMap m) = let* o := entries_to_json m [] in Ok (JObj o).
Proof. reflexivity. Qed.

Lemma obj_insert_new k j o : ~ In k (map fst o) -> obj_insert k j o = o ++ [(k, j)].
Proof.
  induction o as [|[k' j'] o IH]; cbn; [reflexivity|]. intros N.
  destruct (eqb_spec k k') as [->|]; [tauto|]. rewrite IH; tauto.
Qed.

Lemma entries_ok m : forall o o', NoDup (map fst m) ->
  (forall s, In s (map fst o) -> ~ In (VLit (LText s)) (map fst m)) ->
  entries_to_json m o = Ok o' ->
  exists new, o' = o ++ new /\
    Forall2 (fun kv e => fst kv = VLit (LText (fst e)) /\ value_to_json (snd kv) = Ok (snd e)) m new.
Proof.
  induction m as [|[k v] m IH]; intros o o' ND DJ; cbn [entries_to_json].
  - intros [= <-]. exists []. split; [now rewrite app_nil_r|constructor].
  - cbn in ND. inversion_clear ND as [|? ? NI ND'].
    destruct k as [[| | | |s]| |]; try discriminate. intros H. apply bind_Ok in H as (j & Hj & H).
    rewrite obj_insert_new in H.
    2:{ intros C. apply (DJ s C). now left. }
    destruct (IH (o ++ [(s, j)]) o' ND') as (new & -> & F); [|exact H|].
    + intros t Ht. rewrite map_app, in_app_iff in Ht. destruct Ht as [Ht|[<-|[]]].
      * intros C. apply (DJ t Ht). now right.
      * exact NI.
    + exists ((s, j) :: new). split; [now rewrite <- app_assoc|]. constructor; auto.
Qed.

Lemma traverse_Ok {E A B} (f : A -> outcome E B) l l' :
  traverse f l = Ok l' <-> Forall2 (fun a b => f a = Ok b) l l'.
Proof.
  rewrite <- mapM_Ok.
  assert (X : traverse f l = mapM f l) by (induction l as [|a l IH]; cbn; [|rewrite IH]; reflexivity).
  now rewrite X.
Qed.

Lemma bt_wf_NoDup (m : list (value * value)) : StronglySorted lt (map fst m) -> NoDup (map fst m).
Proof. apply sorted_lt_NoDup. Qed.

(** What [value_to_json] returns says the same as the value. *)
Theorem C46_to_json v j : value_wf v -> value_to_json v = Ok j -> JsonOf v j.
Proof.
  intros W. revert j. induction v as [l|m IH|l IH] using value_ind'; intros j.
  - destruct l; cbn; try (intros [= <-]; constructor).
    unfold num_to_json. destruct (number_to_json_spec n) as [(s & -> & D & _)|(-> & _)]; cbn; [|discriminate].
    intros [= <-]. now constructor.
  - rewrite value_to_json_map. intros H. apply bind_Ok in H as (o & Ho & H). injection H as <-.
    inversion_clear W as [|? S W'|].
    destruct (entries_ok m [] o) as (new & -> & F); [now apply bt_wf_NoDup|intros s []|exact Ho|].
    cbn [app]. constructor.
    clear Ho S. induction F as [|[k v] e m' new (E1 & E2) F IHF]; constructor.
    + split; [exact E1|]. inversion_clear IH as [|? ? [_ IH1] _]. apply IH1; [|exact E2].
      apply (W' k v). now left.
    + inversion_clear IH. apply IHF; [assumption|]. intros k' v' I. apply W'. now right.
  - cbn. intros H. apply bind_Ok in H as (o & Ho & H). injection H as <-.
    apply traverse_Ok in Ho. inversion_clear W as [| |? W']. constructor.
    induction Ho as [|a b l l' H1 F IHF]; constructor.
    + inversion_clear IH. apply H; [apply W'; now left|exact H1].
    + inversion_clear IH. apply IHF; [assumption|]. intros v' I. apply W'. now right.
Qed.

(** [bt_collect] of a sorted list. *)
Lemma bt_insert_last {K V} `{CmpLaws K} (m : list (K * V)) k v :
  (forall k', In k' (map fst m) -> lt k' k) -> bt_insert k v m = m ++ [(k, v)].
Proof.
  induction m as [|[k' v'] m IH]; cbn; [reflexivity|]. intros L.
  assert (lt k' k) as X by (apply L; now left). unfold lt in X.
  destruct (cmp k k') eqn:E.
  - apply cmp_eq in E. subst. exfalso. exact (lt_irrefl _ X).
  - exfalso. apply (lt_irrefl k). eapply lt_trans; [exact E|exact X].
  - rewrite IH; [reflexivity|]. intros; apply L; now right.
Qed.

Lemma bt_collect_sorted {K V} `{CmpLaws K} (m : list (K * V)) :
  StronglySorted lt (map fst m) -> bt_collect m = m.
Proof.
  intros S. unfold bt_collect.
  assert (forall acc, (forall k k', In k (map fst acc) -> In k' (map fst m) -> lt k k') ->
    fold_left (fun m kv => bt_insert (fst kv) (snd kv) m) m acc = acc ++ m) as X.
  { induction m as [|[k v] m IH]; intros acc L; cbn [fold_left]; [now rewrite app_nil_r|].
    inversion_clear S as [|? ? S' F]. rewrite bt_insert_last.
    - rewrite IH; [now rewrite <- app_assoc|assumption|].
      intros x x' Hx Hx'. rewrite map_app, in_app_iff in Hx. destruct Hx as [Hx|[<-|[]]].
      + apply L; [assumption|now right].
      + rewrite Forall_forall in F. now apply F.
    - intros k' Hk. apply L; [assumption|now left]. }
  apply X. intros k k' [].
Qed.

(** A document that says the same as a value is read as this value. *)
Theorem C46_from_json v j : value_wf v -> JsonOf v j -> value_from_json j = Ok v.
Proof.
  intros W. revert j. induction v as [l|m IH|l IH] using value_ind'; intros j J.
  - inversion J; subst; cbn; try reflexivity.
    unfold number_from_json. rewrite (denotes_parse s q) by assumption. reflexivity.
  - inversion J as [| | | | |m' o F]; subst. inversion_clear W as [|? S W'|].
    cbn [value_from_json].
    assert (X : traverse (fun e => let* v := value_from_json (snd e) in Ok (VLit (LText (fst e)), v)) o = Ok m).
    { apply traverse_Ok. clear S J. induction F as [|[k v] [s j'] m' new (E1 & E2) F IHF]; constructor.
      - cbn in *. subst k. inversion_clear IH as [|? ? [_ IH1] _]. cbn in IH1. rewrite (IH1 (proj2 (W' _ _ (or_introl eq_refl))) _ E2). reflexivity.
      - inversion_clear IH. apply IHF; [assumption|]. intros k' v' I. apply W'. now right. }
    rewrite X. cbn. now rewrite bt_collect_sorted.
  - inversion J as [| | | |l1 l' F|]; subst. inversion_clear W as [| |? W'].
    cbn [value_from_json].
    assert (X : traverse value_from_json l' = Ok l).
    { apply traverse_Ok. clear J. induction F as [|a b l l' H1 F IHF]; constructor.
      - inversion_clear IH. apply H; [apply W'; now left|exact H1].
      - inversion_clear IH. apply IHF; [assumption|]. intros v' I. apply W'. now right. }
    rewrite X. reflexivity.
Qed.

(** Round trip: whenever the conversion succeeds, reading the document back gives the value. *)
Theorem C46_round_trip v j : value_wf v -> value_to_json v = Ok j -> value_from_json j = Ok v.
Proof. intros W H. apply C46_from_json; [assumption|]. now apply C46_to_json. Qed.

(** The conversion never panics nor diverges, and it fails exactly when the value contains a byte string, a key
    that is not a string, a number without decimal expansion or - this is the part that the property does not
    allow - a number lower than or equal to -1. *)
Theorem C46_fails_exactly_partial v :
  (exists j, value_to_json v = Ok j /\ ~ NotJson refused v) \/
  (exists e, value_to_json v = Err e /\ NotJson refused v).
Proof.
  induction v as [l|m IH|l IH] using value_ind'.
  - destruct l; cbn.
    + left. eexists. split; [reflexivity|]. inversion 1.
    + left. eexists. split; [reflexivity|]. inversion 1.
    + unfold num_to_json. destruct (number_to_json_spec n) as [(s & -> & D & N)|(-> & N)]; cbn.
      * left. eexists. split; [reflexivity|]. inversion 1. contradiction.
      * right. eexists. split; [reflexivity|]. now constructor.
    + right. eexists. split; [reflexivity|]. constructor.
    + left. eexists. split; [reflexivity|]. inversion 1.
  - rewrite value_to_json_map.
    assert (X : forall o, (exists o', entries_to_json m o = Ok o' /\ ~ NotJson refused (VMap m)) \/
              (exists e, entries_to_json m o = Err e /\ NotJson refused (VMap m))).
    { induction m as [|[k v] m IHm]; intros o; cbn [entries_to_json].
      - left. eexists. split; [reflexivity|]. inversion 1; contradiction.
      - inversion_clear IH as [|? ? [_ IHv] IHr]. specialize (IHm IHr). cbn in IHv.
        assert (K : (exists s, k = VLit (LText s)) \/ ((forall s, k <> VLit (LText s)) /\
           match k with VLit (LText s) => let* j := value_to_json v in entries_to_json m (obj_insert s j o)
                      | k => Err (NonStringKey k) end = Err (NonStringKey k))).
        { destruct k as [[| | | |s]| |]; ((right; split; [discriminate|reflexivity]) || (left; eauto)). }
        destruct K as [(s & ->)|(K & ->)].
        2:{ right. eexists. split; [reflexivity|]. eapply nj_key; [now left|exact K]. }
        destruct IHv as [(j & -> & Nv)|(e & -> & Nv)]; cbn [bind].
        + destruct (IHm (obj_insert s j o)) as [(o' & -> & Nm)|(e & -> & Nm)].
          * left. eexists. split; [reflexivity|]. intros C. inversion C as [| |? k' v' I K|? k' v' I K|]; subst.
            -- destruct I as [[= <- <-]|I]; [now apply (K s)|]. apply Nm. eapply nj_key; eassumption.
            -- destruct I as [[= <- <-]|I]; [contradiction|]. apply Nm. eapply nj_value; eassumption.
          * right. eexists. split; [reflexivity|]. inversion Nm as [| |? k' v' I K|? k' v' I K|]; subst.
            -- eapply nj_key; [right; eassumption|eassumption].
            -- eapply nj_value; [right; eassumption|eassumption].
        + right. eexists. split; [reflexivity|]. eapply nj_value; [now left|assumption]. }
    destruct (X []) as [(o & -> & N)|(e & -> & N)]; cbn [bind]; eauto.
  - cbn [value_to_json].
    assert (X : (exists l', traverse value_to_json l = Ok l' /\ ~ NotJson refused (VList l)) \/
                (exists e, traverse value_to_json l = Err e /\ NotJson refused (VList l))).
    { induction IH as [|v l Hv Hl IHl]; cbn [traverse].
      - left. eexists. split; [reflexivity|]. inversion 1; contradiction.
      - destruct Hv as [(j & -> & Nv)|(e & -> & Nv)]; cbn [bind].
        + destruct IHl as [(l' & -> & N)|(e & -> & N)]; cbn [bind].
          * left. eexists. split; [reflexivity|]. intros C. inversion C as [| | | |? v' I K]; subst.
            destruct I as [<-|I]; [contradiction|]. apply N. eapply nj_item; eassumption.
          * right. eexists. split; [reflexivity|]. inversion N as [| | | |? v' I K]; subst.
            eapply nj_item; [right; eassumption|assumption].
        + right. eexists. split; [reflexivity|]. eapply nj_item; [now left|assumption]. }
    destruct X as [(o & -> & N)|(e & -> & N)]; cbn [bind]; eauto.
Qed.

(** C46 is false: the conversion of -1, a decimal number, fails. *)
Theorem C46_refuted : exists v e, value_wf v /\ ~ NotJson non_decimal v /\ value_to_json v = Err e.
Proof.
  exists (VLit (LNum (Q2Qc (-1 # 1)))). eexists. split; [constructor|]. split.
  - inversion 1 as [|? N| | |]; subst. apply N. exists 0%nat, (-1). apply Qc_is_canon. reflexivity.
  - vm_compute. reflexivity.
Qed.

(** ** C67: reading JSON documents *)

(** Some number of the document is written with an exponent. *)
Fixpoint has_exponent (s : string) : bool :=
  match s with
  | EmptyString => false
  | String c s' => Ascii.eqb c "e" || Ascii.eqb c "E" || has_exponent s'
  end.

(** The document is one: its numbers follow the grammar. *)
Inductive json_wf : json -> Prop :=
| jw_null : json_wf JNull
| jw_bool b : json_wf (JBool b)
| jw_num s : json_number s = true -> json_wf (JNum s)
| jw_str s : json_wf (JStr s)
| jw_arr l : (forall j, In j l -> json_wf j) -> json_wf (JArr l)
| jw_obj o : (forall k j, In (k, j) o -> json_wf j) -> json_wf (JObj o).

Inductive Exponents : json -> Prop :=
| ex_num s : has_exponent s = true -> Exponents (JNum s)
| ex_arr l j : In j l -> Exponents j -> Exponents (JArr l)
| ex_obj o k j : In (k, j) o -> Exponents j -> Exponents (JObj o).

Section JsonInd.
Variable P : json -> Prop.
Hypothesis (P1 : P JNull) (P2 : forall b, P (JBool b)) (P3 : forall s, P (JNum s)) (P4 : forall s, P (JStr s)).
Hypothesis P5 : forall l, Forall P l -> P (JArr l).
Hypothesis P6 : forall o, Forall (fun e => P (snd e)) o -> P (JObj o).
Fixpoint json_ind' (j : json) : P j :=
  match j with
  | JNull => P1 | JBool b => P2 b | JNum s => P3 s | JStr s => P4 s
  | JArr l => P5 l ((fix go l : Forall P l := match l with [] => Forall_nil _ | j :: l' => Forall_cons j (json_ind' j) (go l') end) l)
  | JObj o => P6 o ((fix go o : Forall (fun e => P (snd e)) o :=
                       match o with [] => Forall_nil _ | (k, j) :: o' => Forall_cons (k, j) (json_ind' j) (go o') end) o)
  end.
End JsonInd.

Lemma span_rest s : forall ds r, span_digits s = (ds, r) -> no_digit r /\ has_exponent s = has_exponent r.
Proof.
  induction s as [|c s IH]; cbn [span_digits]; intros ds r.
  - intros [= <- <-]. split; [exact I|reflexivity].
  - destruct (is_digit c) eqn:D.
    + destruct (span_digits s) as [ds' r'] eqn:E. intros [= <- <-]. destruct (IH _ _ eq_refl) as [A B].
      split; [exact A|]. cbn [has_exponent]. rewrite B.
      destruct (Ascii.eqb_spec c "e") as [->|]; [discriminate D|].
      destruct (Ascii.eqb_spec c "E") as [->|]; [discriminate D|]. reflexivity.
    + intros [= <- <-]. split; [exact D|reflexivity].
Qed.

Lemma exponent_cases s : json_exponent s = true ->
  (s = EmptyString) \/ (exists c r, s = String c r /\ (c = "e"%char \/ c = "E"%char)).
Proof.
  destruct s as [|c r]; [now left|]. cbn [json_exponent].
  destruct (Ascii.eqb_spec c "e"); [right; eauto|]. destruct (Ascii.eqb_spec c "E"); [right; eauto|]. discriminate.
Qed.

Lemma unsigned_exponent s : json_unsigned s = true ->
  if has_exponent s then xsd_unsigned s = None else exists q, xsd_unsigned s = Some q.
Proof.
  unfold json_unsigned, xsd_unsigned. destruct (span_digits s) as [ip r] eqn:E.
  destruct (span_rest _ _ _ E) as [_ ->].
  destruct ip as [|d ip]; [discriminate|]. intros H. apply andb_prop in H as [_ H].
  assert (C : r = EmptyString \/ (exists r', r = String "." r' /\ exists f fp r'', span_digits r' = (f :: fp, r'') /\ json_exponent r'' = true)
     \/ (exists c r', r = String c r' /\ (c = "e"%char \/ c = "E"%char))).
  { destruct r as [|c r']; [now left|]. destruct (Ascii.ascii_dec c ".") as [->|N].
    - right; left. exists r'. split; [reflexivity|]. destruct (span_digits r') as [[|f fp] r'']; [discriminate|]. eauto 6.
    - right; right. assert (K : json_exponent (String c r') = true).
      { revert H. clear - N. destruct c as [[] [] [] [] [] [] [] []]; trivial. now contradict N. }
      apply exponent_cases in K as [K|K]; [discriminate|]. destruct K as (c' & r1 & [= <- <-] & K). eauto. }
  destruct C as [->|[(r' & -> & f & fp & r'' & E' & X)|(c & r' & -> & X)]].
  - cbn. eauto.
  - destruct (span_rest _ _ _ E') as [_ R].
    change (has_exponent (String "." r')) with (has_exponent r'). rewrite R, E'.
    apply exponent_cases in X as [->|(c & r1 & -> & X)].
    + cbn [has_exponent app]. eauto.
    + assert (has_exponent (String c r1) = true) as -> by (destruct X as [-> | ->]; reflexivity).
      reflexivity.
  - destruct X as [-> | ->]; reflexivity.
Qed.

Lemma number_exponent s : json_number s = true ->
  if has_exponent s then xsd_decimal_parse s = None else exists q, xsd_decimal_parse s = Some q.
Proof.
  assert (C : (exists r, s = String "-" r) \/ (json_number s = json_unsigned s /\ (json_unsigned s = true -> xsd_decimal_parse s = xsd_unsigned s))).
  { destruct s as [|c r]; [right; split; reflexivity|].
    destruct (Ascii.ascii_dec c "-") as [->|N]; [left; eauto|].
    right. destruct (Ascii.ascii_dec c "+") as [->|N'].
    - split; [reflexivity|]. discriminate.
    - destruct c as [[] [] [] [] [] [] [] []];
        (now contradict N) || (now contradict N') || (split; [reflexivity|intros; reflexivity]). }
  destruct C as [(r & ->)|(E & E')].
  - change (json_number (String "-" r)) with (json_unsigned r). intros H. apply unsigned_exponent in H.
    change (has_exponent (String "-" r)) with (has_exponent r).
    change (xsd_decimal_parse (String "-" r)) with (option_map Qcopp (xsd_unsigned r)).
    destruct (has_exponent r); [now rewrite H|]. destruct H as (q & ->). cbn. eauto.
  - rewrite E. intros H. rewrite (E' H). now apply unsigned_exponent.
Qed.

(** A document is read unless it has a number with an exponent, and then the conversion panics. *)
Theorem C67_from_json_partial j : json_wf j ->
  (~ Exponents j /\ exists v, value_from_json j = Ok v) \/
  (Exponents j /\ exists m, value_from_json j = Panic m).
Proof.
  intros W. induction j as [|b|s|s|l IH|o IH] using json_ind'.
  - left. split; [inversion 1|cbn; eauto].
  - left. split; [inversion 1|cbn; eauto].
  - inversion_clear W as [| |? N| | |]. apply number_exponent in N. cbn [value_from_json]. unfold number_from_json.
    destruct (has_exponent s) eqn:X.
    + right. split; [now constructor|]. rewrite N. cbn. eauto.
    + left. split; [inversion 1; congruence|]. destruct N as (q & ->). cbn. eauto.
  - left. split; [inversion 1|cbn; eauto].
  - inversion_clear W as [| | | |? W'|]. cbn [value_from_json].
    assert (X : (~ Exponents (JArr l) /\ exists l', traverse value_from_json l = Ok l') \/
                (Exponents (JArr l) /\ exists m, traverse value_from_json l = Panic m)).
    { induction IH as [|j l Hj Hl IHl]; cbn [traverse].
      - left. split; [inversion 1; contradiction|eauto].
      - destruct (Hj (W' j (or_introl eq_refl))) as [(N & v & ->)|(N & m & ->)]; cbn [bind].
        + destruct IHl as [(N' & l' & ->)|(N' & m & ->)]; [intros; apply W'; now right| |]; cbn [bind].
          * left. split; [|eauto]. intros C. inversion C as [|? ? I' EE|]; subst. destruct I' as [<-|I]; [contradiction|]. apply N'. econstructor; eassumption.
          * right. split; [|eauto]. inversion N'; subst. econstructor; [right; eassumption|assumption].
        + right. split; [|eauto]. econstructor; [now left|assumption]. }
    destruct X as [(N & l' & ->)|(N & m & ->)]; cbn [bind]; eauto.
  - inversion_clear W as [| | | | |? W']. cbn [value_from_json].
    set (f := fun e : string * json => let* v := value_from_json (snd e) in Ok (VLit (LText (fst e)), v)).
    assert (X : (~ Exponents (JObj o) /\ exists l', traverse f o = Ok l') \/
                (Exponents (JObj o) /\ exists m, traverse f o = Panic m)).
    { induction IH as [|[k j] l Hj Hl IHl]; cbn [traverse].
      - left. split; [inversion 1; contradiction|eauto].
      - unfold f at 1 3. cbn [fst snd]. cbn [snd] in Hj.
        destruct (Hj (W' k j (or_introl eq_refl))) as [(N & v & ->)|(N & m & ->)]; cbn [bind].
        + destruct IHl as [(N' & l' & ->)|(N' & m & ->)]; [intros; eapply W'; right; eassumption| |]; cbn [bind].
          * left. split; [|eauto]. intros C. inversion C as [| |? ? ? I' EE]; subst. destruct I' as [[= <- <-]|I]; [contradiction|]. apply N'. econstructor; eassumption.
          * right. split; [|eauto]. inversion N'; subst. econstructor; [right; eassumption|assumption].
        + right. split; [|eauto]. econstructor; [now left|assumption]. }
    destruct X as [(N & l' & ->)|(N & m & ->)]; cbn [bind]; eauto.
Qed.

(** The conversion is declared infallible but the document [1e2] makes it panic. *)
Theorem C67_from_json_refuted : exists j m, json_wf j /\ value_from_json j = Panic m.
Proof. exists (JNum "1e2"). eexists. split; [constructor; reflexivity|reflexivity]. Qed.

(** When an object has several entries with the same key, the last wins. *)
Lemma bt_get_fold {K V} `{CmpLaws K} (l : list (K * V)) : forall m k, bt_wf m ->
  bt_get k (fold_left (fun m kv => bt_insert (fst kv) (snd kv) m) l m) =
  match bt_get k (rev l) with Some v => Some v | None => bt_get k m end.
Proof.
  assert (A : forall (l1 l2 : list (K * V)) k, bt_get k (l1 ++ l2) = match bt_get k l1 with Some v => Some v | None => bt_get k l2 end).
  { induction l1 as [|[k' v'] l1 IH]; intros l2 k; cbn; [reflexivity|]. destruct (eqb k k'); auto. }
  induction l as [|[k' v'] l IH]; intros m k W; cbn [fold_left rev]; [reflexivity|].
  rewrite IH by (now apply bt_insert_wf). rewrite A. cbn [bt_get fst snd]. rewrite bt_insert_get by assumption.
  destruct (bt_get k (rev l)); [reflexivity|]. destruct (eqb_spec k k'); reflexivity.
Qed.

Theorem C67_last_entry_wins o m : value_from_json (JObj o) = Ok (VMap m) ->
  forall k, bt_get (VLit (LText k)) m =
    match find (fun e => String.eqb k (fst e)) (rev o) with
    | Some e => match value_from_json (snd e) with Ok v => Some v | _ => None end
    | None => None
    end.
Proof.
  cbn [value_from_json]. intros H k. apply bind_Ok in H as (l & Hl & H). injection H as <-.
  apply traverse_Ok in Hl. unfold bt_collect. rewrite bt_get_fold by constructor. cbn [bt_get].
  assert (X : bt_get (VLit (LText k)) (rev l) = match find (fun e => String.eqb k (fst e)) (rev o) with
    | Some e => match value_from_json (snd e) with Ok v => Some v | _ => None end | None => None end).
  { assert (Hr : Forall2 (fun (e : string * json) b => (let* v := value_from_json (snd e) in Ok (VLit (LText (fst e)), v)) = Ok b) (rev o) (rev l)).
    { clear k. induction Hl; cbn [rev]; [constructor|]. apply Forall2_app; auto. }
    clear Hl. induction Hr as [|[s j] [k' v'] o' l' E F IH]; cbn [bt_get find fst snd]; [reflexivity|].
    apply bind_Ok in E as (v & Ev & E). injection E as <- <-. cbn [snd fst] in *.
    destruct (String.eqb_spec k s) as [->|N].
    - rewrite eqb_refl. cbn [snd]. rewrite Ev. reflexivity.
    - destruct (eqb_spec (VLit (LText k)) (VLit (LText s))) as [[= C]|_]; [contradiction|]. exact IH. }
  rewrite X. destruct (find _ (rev o)); [|reflexivity]. destruct (value_from_json (snd p)); reflexivity.
Qed.

(** ** C68: serde *)

Section Serde.
Context {F : Type} (to_f64 : Qc -> F) (from_f64 : F -> option Qc).

(** Every number of the value satisfies [P]. *)
Inductive Numbers (P : Qc -> Prop) : value -> Prop :=
| nu_num q : P q -> Numbers P (VLit (LNum q))
| nu_lit l : (forall q, l <> LNum q) -> Numbers P (VLit l)
| nu_map m : (forall k v, In (k, v) m -> Numbers P k /\ Numbers P v) -> Numbers P (VMap m)
| nu_list l : (forall v, In v l -> Numbers P v) -> Numbers P (VList l).

(** Not zero, and either an integer in the range of machine integers or exactly a float. *)
Definition native_exact (q : Qc) : Prop :=
  q <> Q2Qc (inject_Z 0) /\
  ((exists n, - 2 ^ 63 < n < 2 ^ 64 /\ q = Q2Qc (inject_Z n)) \/ from_f64 (to_f64 q) = Some q).

Theorem C68_serde_round_trip_partial v : value_wf v -> Numbers native_exact v ->
  exists s, value_serialize to_f64 v = Ok s /\ value_deserialize from_f64 s = Ok v.
Proof.
  intros W N. induction v as [l|m IH|l IH] using value_ind'.
  - destruct l; try (eexists; split; reflexivity).
    inversion_clear N as [? N'|? N'| |]; [|now destruct (N' n)]. destruct N' as [NZ N'].
    cbn [value_serialize literal_serialize].
    destruct (C45_native_panic n) as [(x & E)|[-> _]]; [|contradiction].
    rewrite E. cbn [bind]. destruct (C45_native_exact n x E) as [A B].
    destruct x as [z|z|q]; (eexists; split; [reflexivity|]); cbn [value_deserialize].
    + now rewrite (proj1 (A z eq_refl)).
    + now rewrite (proj1 (A z eq_refl)).
    + destruct (B q eq_refl) as [-> NB]. destruct N' as [(z & R & Ez)|N'].
      * exfalso. apply NB. exists z. split; [|auto]. intros ->. contradiction.
      * now rewrite N'.
  - inversion_clear W as [|? S W'|]. inversion_clear N as [| |? N'|].
    assert (X : exists l, traverse (fun kv => let* k := value_serialize to_f64 (fst kv) in
                                let* v := value_serialize to_f64 (snd kv) in Ok (k, v)) m = Ok l /\
                traverse (fun kv => let* k := value_deserialize from_f64 (fst kv) in
                                let* v := value_deserialize from_f64 (snd kv) in Ok (k, v)) l = Ok m).
    { clear S. induction IH as [|[k v] m [Hk Hv] Hm IHm]; [exists []; split; reflexivity|].
      cbn [fst snd] in Hk, Hv. destruct (W' k v (or_introl eq_refl)) as [Wk Wv].
      destruct (N' k v (or_introl eq_refl)) as [Nk Nv].
      destruct (Hk Wk Nk) as (sk & K1 & K2). destruct (Hv Wv Nv) as (sv & V1 & V2).
      destruct IHm as (l & L1 & L2); [intros; apply W'; now right|intros; apply N'; now right|].
      exists ((sk, sv) :: l). cbn [traverse fst snd]. rewrite K1. cbn [bind]. rewrite V1. cbn [bind]. rewrite L1, K2. cbn [bind].
      rewrite V2. cbn [bind]. rewrite L2. split; reflexivity. }
    destruct X as (l & L1 & L2). exists (SMap l). cbn [value_serialize value_deserialize]. rewrite L1, L2. cbn [bind].
    split; [reflexivity|]. now rewrite bt_collect_sorted.
  - inversion_clear W as [| |? W']. inversion_clear N as [| | |? N'].
    assert (X : exists l', traverse (value_serialize to_f64) l = Ok l' /\ traverse (value_deserialize from_f64) l' = Ok l).
    { induction IH as [|v l Hv Hl IHl]; [exists []; split; reflexivity|].
      destruct (Hv (W' v (or_introl eq_refl)) (N' v (or_introl eq_refl))) as (s & S1 & S2).
      destruct IHl as (l' & L1 & L2); [intros; apply W'; now right|intros; apply N'; now right|].
      exists (s :: l'). cbn [traverse]. rewrite S1. cbn [bind]. rewrite L1. rewrite S2. cbn [bind]. rewrite L2. split; reflexivity. }
    destruct X as (l' & L1 & L2). exists (SSeq l'). cbn [value_serialize value_deserialize]. rewrite L1, L2. split; reflexivity.
Qed.

(** The machine integers sent to the serializer are in the range of their types. *)
Inductive MachineSized : serde_value F -> Prop :=
| ms_u64 n : 0 <= n < 2 ^ 64 -> MachineSized (SU64 n)
| ms_i64 n : - 2 ^ 63 <= n < 2 ^ 63 -> MachineSized (SI64 n)
| ms_seq l : (forall s, In s l -> MachineSized s) -> MachineSized (SSeq l)
| ms_map m : (forall k s, In (k, s) m -> MachineSized k /\ MachineSized s) -> MachineSized (SMap m)
| ms_other s : match s with SUnit | SBool _ | SF64 _ | SStr _ | SBytes _ => True | _ => False end -> MachineSized s.

Theorem C68_serde_machine_sized v s : value_serialize to_f64 v = Ok s -> MachineSized s.
Proof.
  revert s. induction v as [l|m IH|l IH] using value_ind'; intros s H; cbn [value_serialize] in H.
  - destruct l as [|b|n|b|t]; cbn [literal_serialize] in H; try (injection H as <-; now apply ms_other).
    apply bind_Ok in H as (x & E & H). destruct (C45_native_exact n x E) as [A _].
    destruct x as [z|z|q]; injection H as <-.
    + apply ms_u64. apply (A z eq_refl).
    + apply ms_i64. apply (A z eq_refl).
    + now apply ms_other.
  - apply bind_Ok in H as (m' & E & H). injection H as <-. apply traverse_Ok in E. apply ms_map.
    induction E as [|[k v] e m m' E FF IHF]; [intros ? ? []|]. inversion_clear IH as [|? ? [Hk Hv] Hm].
    cbn [fst snd] in *. apply bind_Ok in E as (k1 & K1 & E). apply bind_Ok in E as (v1 & V1 & E). injection E as <-.
    intros k2 s2 [[= <- <-]|I]; [|now apply IHF]. split; auto.
  - apply bind_Ok in H as (l' & E & H). injection H as <-. apply traverse_Ok in E. apply ms_seq.
    induction E as [|v e l l' E FF IHF]; [intros ? []|]. inversion_clear IH as [|? ? Hv Hl].
    intros s2 [<-|I]; [auto|now apply IHF].
Qed.

(** Serializing zero panics. *)
Theorem C68_serde_refuted : exists v m, value_wf v /\ value_serialize to_f64 v = Panic m.
Proof. exists (VLit (LNum (Q2Qc (inject_Z 0)))). eexists. split; [constructor|reflexivity]. Qed.
End Serde.

(** ** Witnesses *)

Definition sample : value :=
  VMap [(VLit (LText "a"), VList [VLit (LNum (Q2Qc (1 # 8))); VLit LUnit; VLit (LBool true)]);
        (VLit (LText "b"), VMap [(VLit (LText "c"), VLit (LText "x"))])].

Lemma sample_wf : value_wf sample.
Proof.
  unfold sample. constructor.
  - repeat constructor.
  - intros k v [[= <- <-]|[[= <- <-]|[]]]; (split; [constructor|]).
    + constructor. intros v [<-|[<-|[<-|[]]]]; constructor.
    + constructor; [repeat constructor|]. intros k v [[= <- <-]|[]]. split; constructor.
Qed.

Example C46_example : value_wf sample /\
  value_to_json sample =
    Ok (JObj [("a", JArr [JNum "0.125"; JNull; JBool true]); ("b", JObj [("c", JStr "x")])])%string.
Proof. split; [apply sample_wf|vm_compute; reflexivity]. Qed.

Example C67_example : let j := JObj [("a", JNum "-1.50"); ("b", JArr [JNull]); ("a", JStr "x")]%string in
  json_wf j /\ ~ Exponents j /\
  value_from_json j = Ok (VMap [(VLit (LText "a"), VLit (LText "x")); (VLit (LText "b"), VList [VLit LUnit])]).
Proof.
  cbn zeta. split; [|split].
  - constructor. intros k j [[= <- <-]|[[= <- <-]|[[= <- <-]|[]]]]; constructor; [reflexivity|].
    intros j [<-|[]]. constructor.
  - inversion 1 as [| |? ? ? I E]; subst. destruct I as [[= <- <-]|[[= <- <-]|[[= <- <-]|[]]]]; inversion E; subst; [discriminate|].
    destruct H1 as [<-|[]]. inversion H2.
  - vm_compute. reflexivity.
Qed.

Example C68_example : Numbers (@native_exact Qc (fun q => q) (fun q => Some q)) sample /\
  value_serialize (fun q => q) sample =
    Ok (SMap [(SStr "a", SSeq [SF64 (Q2Qc (1 # 8)); SUnit; SBool true]); (SStr "b", SMap [(SStr "c", SStr "x")])])%string.
Proof.
  split; [|vm_compute; reflexivity]. unfold sample. constructor.
  intros k v [[= <- <-]|[[= <- <-]|[]]]; (split; [constructor; discriminate|]).
  - constructor. intros v [<-|[<-|[<-|[]]]]; (constructor; try discriminate). split; [discriminate|now right].
  - constructor. intros k v [[= <- <-]|[]]. split; constructor; discriminate.
Qed.

Print Assumptions C46_to_json.
Print Assumptions C46_round_trip.
Print Assumptions C46_fails_exactly_partial.
Print Assumptions C46_refuted.
Print Assumptions C67_from_json_partial.
Print Assumptions C67_last_entry_wins.
Print Assumptions C68_serde_round_trip_partial.
Print Assumptions C68_serde_machine_sized.
