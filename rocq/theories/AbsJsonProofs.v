(** * Lemmas on the reading of layout documents *)

From Coq Require Import String Ascii List Bool Arith NArith ZArith Lia.
Import ListNotations.
From Verif Require JsonProperties RegexpParse.
From Verif Require Import Base BaseProofs Orders PatternModel ValueModel LayoutModel NumberModel NumberSpec
  NumberProofs JsonModel RegexpModel AbsModel AbsJsonModel AbsJsonSpec.
Open Scope list_scope.
Open Scope nat_scope.

Lemma traverse_iff {E A B} (f : A -> outcome E B) (P : A -> B -> Prop) l l' :
  (forall a b, In a l -> (f a = Ok b <-> P a b)) -> (traverse f l = Ok l' <-> Forall2 P l l').
Proof.
  revert l'. induction l as [|a l IH]; intros l' H; cbn.
  - split; [intros [= <-]; constructor|now inversion 1].
  - split.
    + intros X. apply bind_Ok in X as (b & Hb & X). apply bind_Ok in X as (bs & Hbs & [= <-]).
      constructor; [apply H; [now left|assumption]|]. apply IH; [|assumption]. intros; apply H; now right.
    + inversion 1 as [|? b ? bs Hb Hbs]; subst. apply H in Hb; [|now left]. rewrite Hb. cbn.
      apply IH in Hbs; [|intros; apply H; now right]. rewrite Hbs. reflexivity.
Qed.

(** ** Unused entries *)

(** The entries whose key is in [ks] are used. *)
Fixpoint clear (o : object) (ks : list string) (u : unused_entries) : unused_entries :=
  match o, u with
  | (k, _) :: o', b :: u' => (if in_dec string_dec k ks then false else b) :: clear o' ks u'
  | _, u => u
  end.

Lemma clear_app o ks ks' u : clear o ks' (clear o ks u) = clear o (ks ++ ks') u.
Proof.
  revert u. induction o as [|[k j] o IH]; intros [|b u]; try reflexivity.
  cbn. rewrite IH. f_equal.
  destruct (in_dec string_dec k (ks ++ ks')) as [i|i]; rewrite in_app_iff in i;
    destruct (in_dec string_dec k ks), (in_dec string_dec k ks'); try reflexivity; tauto.
Qed.

Lemma clear_nil o u : clear o [] u = u.
Proof.
  revert u. induction o as [|[k j] o IH]; intros [|b u]; try reflexivity. cbn. now rewrite IH.
Qed.

Lemma check_clear o ks :
  unused_check o (clear o ks (unused_new o)) = Ok tt <-> (forall k, In k (map fst o) -> In k ks).
Proof.
  unfold unused_new. induction o as [|[k j] o IH]; cbn; [firstorder|].
  destruct (in_dec string_dec k ks) as [i|i].
  - rewrite IH. firstorder. now subst.
  - split; [congruence|]. intros H. now destruct i; apply H; left.
Qed.

(** The key occurs at most once. *)
Definition single (o : object) (k : string) : Prop := count_occ string_dec (map fst o) k <= 1.

Lemma entries_of_iff k o i p j :
  In (p, j) (entries_of k o i) <-> exists n, p = i + n /\ nth_error o n = Some (k, j).
Proof.
  revert i. induction o as [|[k' j'] o IH]; intros i; cbn.
  - split; [easy|]. intros (n & _ & H). now destruct n.
  - destruct (String.eqb_spec k' k) as [->|N]; cbn; rewrite IH.
    + split.
      * intros [[= <- <-]|(n & -> & H)]; [exists 0; split; [lia|reflexivity]|exists (S n); split; [lia|exact H]].
      * intros ([|n] & -> & H); [injection H as <-; left; f_equal; lia|right; exists n; split; [lia|exact H]].
    + split.
      * intros (n & -> & H); exists (S n); split; [lia|exact H].
      * intros ([|n] & -> & H); [cbn in H; congruence|exists n; split; [lia|exact H]].
Qed.

Lemma entries_of_length k o i : length (entries_of k o i) = count_occ string_dec (map fst o) k.
Proof.
  revert i. induction o as [|[k' j'] o IH]; intros i; cbn [entries_of map fst count_occ]; [reflexivity|].
  destruct (String.eqb_spec k' k) as [E|N], (string_dec k' k); cbn [length]; try congruence; rewrite IH; reflexivity.
Qed.

Lemma entries_of_In k o i j : (exists p, In (p, j) (entries_of k o i)) <-> In (k, j) o.
Proof.
  split.
  - intros (p & H). apply entries_of_iff in H as (n & _ & H). eapply nth_error_In, H.
  - intros H. apply In_nth_error in H as (n & H). exists (i + n). apply entries_of_iff. eauto.
Qed.

Lemma entries_of_none k o i : entries_of k o i = [] <-> ~ In k (map fst o).
Proof.
  rewrite (count_occ_not_In string_dec). rewrite <- (entries_of_length k o i).
  destruct (entries_of k o i); cbn; split; congruence.
Qed.

Lemma clear_absent k o u : ~ In k (map fst o) -> clear o [k] u = u.
Proof.
  revert u. induction o as [|[k' j'] o IH]; intros [|b u] H; try reflexivity. cbn in H.
  cbn. rewrite IH by tauto. destruct (string_dec k k') as [->|N]; [tauto|]. reflexivity.
Qed.

Lemma remove_clear k o i p j u :
  entries_of k o i = [(p, j)] -> unused_remove (p - i) u = clear o [k] u.
Proof.
  revert i u. induction o as [|[k' j'] o IH]; intros i u H; cbn in H; [discriminate|].
  destruct (String.eqb_spec k' k) as [->|N].
  - injection H as <- <- H. apply entries_of_none in H. rewrite Nat.sub_diag.
    destruct u as [|b u]; [reflexivity|]. cbn. rewrite clear_absent by assumption.
    destruct (string_dec k k); [reflexivity|congruence].
  - assert (S i <= p).
    { assert (X : In (p, j) (entries_of k o (S i))) by (rewrite H; now left).
      apply entries_of_iff in X as (n & -> & _). lia. }
    destruct u as [|b u].
    + destruct (p - i); reflexivity.
    + replace (p - i) with (S (p - S i)) by lia. cbn. rewrite (IH (S i)) by assumption.
      destruct (string_dec k k'); [congruence|reflexivity].
Qed.

Lemma get_unique_spec o k : 
  match get_unique o k with
  | Ok None => ~ In k (map fst o)
  | Ok (Some (i, j)) => single o k /\ In (k, j) o /\ (forall j', In (k, j') o -> j' = j) /\
                        forall u, unused_remove i u = clear o [k] u
  | Err e => e = DuplicateEntry k /\ ~ single o k
  | _ => False
  end.
Proof.
  unfold get_unique, single. rewrite <- (entries_of_length k o 0).
  destruct (entries_of k o 0) as [|[p j] [|e l]] eqn:E.
  - now apply entries_of_none in E.
  - cbn. repeat split.
    + lia.
    + apply (entries_of_In k o 0). exists p. rewrite E. now left.
    + intros j' H. apply (entries_of_In k o 0) in H as (p' & H). rewrite E in H. cbn in H. destruct H as [H|[]]. congruence.
    + intros u. rewrite <- (remove_clear k o 0 p j u E). f_equal. lia.
  - cbn. split; [reflexivity|lia].
Qed.

(** ** What a computation on the entries reads *)

(** [m] returns [a] exactly when [P a], and it uses the keys [ks]. *)
Definition reads {A} (o : object) (ks : list string) (m : entries A) (P : A -> Prop) : Prop :=
  forall u a u', m u = Ok (a, u') <-> (P a /\ (forall k, In k ks -> single o k) /\ u' = clear o ks u).

Lemma reads_ret {A} o (a : A) : reads o [] (e_ret a) (fun x => x = a).
Proof.
  intros u x u'. unfold e_ret. rewrite clear_nil. split.
  - intros [= <- <-]. cbn. tauto.
  - intros (-> & _ & ->). reflexivity.
Qed.

Lemma reads_bind {A B} o ks ks' (m : entries A) (k : A -> entries B) P Q :
  reads o ks m P -> (forall a, P a -> reads o ks' (k a) (Q a)) ->
  reads o (ks ++ ks') (e_bind m k) (fun b => exists a, P a /\ Q a b).
Proof.
  intros Hm Hk u b u'. unfold e_bind. split.
  - intros H. apply bind_Ok in H as ([a u1] & H1 & H2). cbn in H2.
    apply Hm in H1 as (Pa & S1 & ->). apply (Hk _ Pa) in H2 as (Qb & S2 & ->).
    rewrite clear_app. split; [eauto|]. split; [|reflexivity].
    intros x Hx. apply in_app_iff in Hx as [Hx|Hx]; auto.
  - intros ((a & Pa & Qb) & S & ->). rewrite <- clear_app.
    assert (E : m u = Ok (a, clear o ks u)).
    { apply Hm. repeat split; auto. intros x Hx. apply S, in_app_iff. now left. }
    rewrite E. cbn. apply (Hk _ Pa). repeat split; auto. intros x Hx. apply S, in_app_iff. now right.
Qed.

Lemma reads_iff {A} o ks (m : entries A) P Q :
  reads o ks m P -> (forall a, P a <-> Q a) -> reads o ks m Q.
Proof. intros H E u a u'. now rewrite (H u a u'), E. Qed.

Lemma reads_get {T} o k (parse : json -> outcome abs_error T) D :
  (forall j t, In (k, j) o -> (parse j = Ok t <-> D j t)) ->
  reads o [k] (get_entry o k parse) (has_opt o k D).
Proof.
  intros HD u x u'. unfold get_entry, has_opt. pose proof (get_unique_spec o k) as G.
  destruct (get_unique o k) as [[[i j]|]|e| |]; cbn; try contradiction.
  - destruct G as (S1 & I & U & R). split.
    + intros H. apply bind_Ok in H as (t & Ht & [= <- <-]). rewrite R.
      split; [exists j; split; [assumption|now apply HD]|]. split; [|reflexivity].
      intros k' [<-|[]]; assumption.
    + intros (H & _ & ->). destruct x as [x|].
      * destruct H as (j' & I' & Dx). rewrite (U _ I') in *. apply HD in Dx; [|assumption]. rewrite Dx. cbn.
        now rewrite R.
      * exfalso. apply H. apply in_map_iff. now exists (k, j).
  - split.
    + intros [= <- <-]. rewrite clear_absent by assumption. repeat split; auto.
      intros k' [<-|[]]. unfold single. rewrite (count_occ_not_In string_dec) in G. lia.
    + intros (H & _ & ->). rewrite clear_absent by assumption. destruct x as [x|]; [|reflexivity].
      destruct H as (j & I & _). exfalso. apply G. apply in_map_iff. now exists (k, j).
  - split; [discriminate|]. intros (_ & S1 & _). exfalso. apply G, S1. now left.
Qed.

Lemma reads_get_or {T} o k (parse : json -> outcome abs_error T) D d :
  (forall j t, In (k, j) o -> (parse j = Ok t <-> D j t)) ->
  reads o [k] (get_entry_or o k parse d) (has_or o k D d).
Proof.
  intros HD. unfold get_entry_or.
  eapply reads_iff with (P := fun b => exists a, has_opt o k D a /\ b = match a with Some t => t | None => d end).
  - change [k] with ([k] ++ []). apply (reads_bind o [k] [] _ _ (has_opt o k D) (fun a b => b = match a with Some t => t | None => d end)); [now apply reads_get|].
    intros a _. apply reads_ret.
  - intros b. unfold has_or, has_opt. split.
    + intros ([x|] & H & ->); auto.
    + intros [H|[H ->]]; [exists (Some b)|exists None]; auto.
Qed.

Lemma reads_require {T} o k (parse : json -> outcome abs_error T) D :
  (forall j t, In (k, j) o -> (parse j = Ok t <-> D j t)) ->
  reads o [k] (require_entry o k parse) (has o k D).
Proof.
  intros HD u x u'. unfold require_entry, has. pose proof (get_unique_spec o k) as G.
  destruct (get_unique o k) as [[[i j]|]|e| |]; cbn; try contradiction.
  - destruct G as (S1 & I & U & R). split.
    + intros H. apply bind_Ok in H as (t & Ht & [= <- <-]). rewrite R.
      split; [exists j; split; [assumption|now apply HD]|]. split; [|reflexivity].
      intros k' [<-|[]]; assumption.
    + intros ((j' & I' & Dx) & _ & ->). rewrite (U _ I') in *. apply HD in Dx; [|assumption]. rewrite Dx. cbn.
      now rewrite R.
  - split; [discriminate|]. intros ((j & I & _) & _). exfalso. apply G. apply in_map_iff. now exists (k, j).
  - split; [discriminate|]. intros (_ & S1 & _). exfalso. apply G, S1. now left.
Qed.

Lemma require_type_spec o i ty :
  require_type o = Ok (i, ty) ->
  In ("type"%string, JStr ty) o /\ single o "type" /\ (forall j, In ("type"%string, j) o -> j = JStr ty) /\
  forall u, unused_remove i u = clear o ["type"%string] u.
Proof.
  unfold require_type. pose proof (get_unique_spec o "type") as G.
  destruct (get_unique o "type") as [[[i' j]|]|e| |]; cbn; try contradiction; try discriminate.
  destruct j; try discriminate. intros [= <- <-]. tauto.
Qed.

Lemma require_type_complete o ty :
  In ("type"%string, JStr ty) o -> single o "type" -> exists i, require_type o = Ok (i, ty).
Proof.
  intros I S1. unfold require_type. pose proof (get_unique_spec o "type") as G.
  destruct (get_unique o "type") as [[[i' j]|]|e| |]; cbn; try contradiction.
  - destruct G as (_ & _ & U & _). rewrite <- (U _ I). eauto.
  - exfalso. apply G. apply in_map_iff. now exists ("type"%string, JStr ty).
  - exfalso. now apply G.
Qed.

Lemma reads_type o ty :
  reads o ["type"%string] (check_type o ty) (fun _ => In ("type"%string, JStr ty) o).
Proof.
  intros u [] u'. unfold check_type. split.
  - intros H. apply bind_Ok in H as ([i t] & Ht & H). cbn in H.
    destruct (String.eqb_spec t ty) as [->|N]; [|discriminate]. injection H as <-.
    apply require_type_spec in Ht as (I & S1 & _ & R). rewrite R. split; [assumption|]. split; [|reflexivity].
    intros k [<-|[]]. assumption.
  - intros (I & S1 & ->). destruct (require_type_complete o ty I) as (i & E); [apply S1; now left|].
    rewrite E. cbn. rewrite String.eqb_refl. apply require_type_spec in E as (_ & _ & _ & R). now rewrite R.
Qed.

(** The keys are all known and not repeated. *)
Definition known (o : object) (ks : list string) : Prop :=
  NoDup (map fst o) /\ forall k, In k (map fst o) -> In k ks.

Lemma with_entries_iff {A} o ks (m : entries A) P a :
  reads o ks m P -> (with_entries o m = Ok a <-> (P a /\ known o ks)).
Proof.
  intros R. unfold with_entries, known. split.
  - intros H. apply bind_Ok in H as ([x u] & Hx & H). apply bind_Ok in H as ([] & C & [= <-]).
    apply R in Hx as (Px & S1 & ->). cbn [snd] in C; pose proof (proj1 (check_clear o ks) C) as C1; clear C; rename C1 into C. split; [assumption|]. split; [|assumption].
    apply (NoDup_count_occ string_dec). intros k.
    destruct (in_dec string_dec k (map fst o)) as [i|i]; [apply S1, C, i|].
    apply (count_occ_not_In string_dec) in i. lia.
  - intros (Pa & ND & K).
    assert (E : m (unused_new o) = Ok (a, clear o ks (unused_new o))).
    { apply R. split; [assumption|]. split; [|reflexivity].
      intros k _. unfold single. revert k. now apply (NoDup_count_occ string_dec). }
    rewrite E. cbn. apply check_clear in K. rewrite K. reflexivity.
Qed.

Lemma known_well_keyed o ks req opt :
  (forall k, In k ks <-> In k req \/ In k opt) ->
  (well_keyed req opt o <-> known o ks /\ (forall k, In k req -> In k (map fst o))).
Proof. unfold well_keyed, known. intros E. setoid_rewrite <- E. tauto. Qed.

(** ** Leaves *)

Lemma string_iff j s : from_string j = Ok s <-> string_doc j s.
Proof. unfold string_doc. destruct j; cbn; split; congruence. Qed.

Lemma bool_iff j b : from_bool j = Ok b <-> bool_doc j b.
Proof. unfold bool_doc. destruct j; cbn; split; congruence. Qed.

Lemma vec_iff {T} (parse : json -> outcome abs_error T) D j l :
  (forall js j' t, j = JArr js -> In j' js -> (parse j' = Ok t <-> D j' t)) ->
  (from_vec parse j = Ok l <-> array_doc D j l).
Proof.
  unfold array_doc. intros H. destruct j; cbn; try (split; [discriminate|intros (? & ? & _); discriminate]).
  rewrite (traverse_iff parse D) by eauto. split; [eauto|]. intros (js & [= <-] & F). exact F.
Qed.

Lemma many_iff {T} (parse : json -> outcome abs_error T) D j l :
  (forall j' t, parse j' = Ok t <-> D j' t) ->
  (one_or_many parse j = Ok l <-> one_or_many_doc D j l).
Proof.
  intros H. unfold one_or_many_doc, array_doc.
  assert (One : (let* t := parse j in Ok [t]) = Ok l <-> exists x, l = [x] /\ D j x).
  { split.
    - intros X. apply bind_Ok in X as (t & Ht & [= <-]). apply H in Ht. eauto.
    - intros (x & -> & Dx). apply H in Dx. rewrite Dx. reflexivity. }
  assert (NA : (forall js, j <> JArr js) -> one_or_many parse j = (let* t := parse j in Ok [t]) ->
     one_or_many parse j = Ok l <-> (exists js, j = JArr js /\ Forall2 D js l) \/ ((forall js, j <> JArr js) /\ exists x, l = [x] /\ D j x)).
  { intros N ->. rewrite One. split; [auto|]. intros [(js & E & _)|[_ X]]; [now apply N in E|exact X]. }
  destruct j; try (apply NA; [discriminate|reflexivity]).
  cbn. rewrite (traverse_iff parse D) by auto. split; [eauto|].
  intros [(js & [= <-] & F)|[N _]]; [exact F|]. exfalso. now eapply N.
Qed.

Lemma map_iff {K V} {CK : Cmp K} (from_str : string -> outcome abs_error K) (parse : json -> outcome abs_error V) DK D j m :
  (forall s k, from_str s = Ok k <-> DK s k) ->
  (forall o k j' t, j = JObj o -> In (k, j') o -> (parse j' = Ok t <-> D j' t)) ->
  (from_btreemap from_str parse j = Ok m <-> map_doc DK D j m).
Proof.
  intros HK H. unfold map_doc. destruct j as [| | | | |o]; cbn; try (split; [discriminate|intros (? & ? & ? & _); discriminate]).
  assert (T : forall raw, traverse (fun e : string * json => let* k := from_str (fst e) in let* v := parse (snd e) in Ok (k, v)) o = Ok raw <->
    Forall2 (fun (e : string * json) (kv : K * V) => DK (fst e) (fst kv) /\ D (snd e) (snd kv)) o raw).
  { intros raw. apply traverse_iff. intros [k0 j0] [k v] I. cbn. rewrite <- HK, <- (H _ _ _ _ eq_refl I). split.
    - intros X. apply bind_Ok in X as (k1 & E1 & X). apply bind_Ok in X as (v1 & E2 & [= <- <-]). auto.
    - intros [-> ->]. reflexivity. }
  split.
  - intros X. apply bind_Ok in X as (raw & Hr & [= <-]). exists o, raw. repeat split. now apply T.
  - intros (o' & raw & [= <-] & F & ->). apply T in F. rewrite F. reflexivity.
Qed.

Lemma span_digits_text s : forall ds r, span_digits s = (ds, r) ->
  exists es, digits es /\ ds = map Z.of_nat es /\ s = (digits_text es ++ r)%string.
Proof.
  induction s as [|c s IH]; intros ds r; cbn [span_digits].
  - intros [= <- <-]. exists []. repeat split. constructor.
  - destruct (is_digit c) eqn:E.
    + destruct (span_digits s) as [ds' r'] eqn:Es. intros [= <- <-]. destruct (IH _ _ eq_refl) as (es & D & -> & ->).
      assert (X : exists d, d < 10 /\ c = digit_char d).
      { clear - E. unfold is_digit in E. apply andb_prop in E as [E1 E2]. apply N.leb_le in E1, E2.
        exists (N.to_nat (N_of_ascii c) - 48). split; [lia|].
        unfold digit_char. replace (48 + (N.to_nat (N_of_ascii c) - 48)) with (N.to_nat (N_of_ascii c)) by lia.
        change (N.to_nat (N_of_ascii c)) with (nat_of_ascii c). now rewrite ascii_nat_embedding. }
      destruct X as (d & Hd & ->). exists (d :: es). destruct (digit_char_facts d Hd) as [_ ->].
      repeat split. now constructor.
    + intros [= <- <-]. exists []. repeat split. constructor.
Qed.

Lemma append_empty_r s : (s ++ "")%string = s.
Proof. induction s; cbn; congruence. Qed.

Lemma unsigned_iff s z :
  parse_digits s = Some z <-> exists ds, digits ds /\ ds <> [] /\ s = digits_text ds /\ z = digits_value ds.
Proof.
  unfold parse_digits. split.
  - destruct (span_digits s) as [ds r] eqn:E. destruct (span_digits_text s _ _ E) as (es & D & -> & ->).
    intros H. destruct es as [|d es]; [discriminate|]. cbn [map] in H. destruct r; [|discriminate].
    change (Z.of_nat d :: map Z.of_nat es) with (map Z.of_nat (d :: es)) in H. rewrite number_of_digits in H.
    injection H as <-. exists (d :: es). rewrite append_empty_r. repeat split; auto. discriminate.
  - intros (ds & D & N & -> & ->). pose proof (span_text ds "" D I) as E. rewrite append_empty_r in E. rewrite E.
    destruct ds as [|d ds]; [congruence|]. rewrite <- number_of_digits. reflexivity.
Qed.

Lemma parse_i64_iff s z :
  parse_i64 s = Some z <-> integer_text s z /\ (- 2 ^ 63 <= z < 2 ^ 63)%Z.
Proof.
  unfold parse_i64, integer_text. set (u := parse_digits).
  assert (U : forall s z, u s = Some z <-> exists ds, digits ds /\ ds <> [] /\ s = digits_text ds /\ z = digits_value ds) by (intros; apply unsigned_iff).
  assert (R : forall o : option Z, match o with Some n => if ((- 2 ^ 63 <=? n) && (n <? 2 ^ 63))%Z then Some n else None | None => None end = Some z <->
     o = Some z /\ (- 2 ^ 63 <= z < 2 ^ 63)%Z).
  { intros [n|]; [|split; [discriminate|intros [? _]; discriminate]].
    destruct ((- 2 ^ 63 <=? n) && (n <? 2 ^ 63))%Z eqn:E.
    - apply andb_prop in E as [E1 E2]. apply Z.leb_le in E1. apply Z.ltb_lt in E2. split; [intros [= <-]; auto|tauto].
    - split; [discriminate|]. intros [[= ->] [A B]]. apply Z.leb_le in A. apply Z.ltb_lt in B. rewrite A, B in E. discriminate. }
  rewrite R. apply and_iff_compat_r.
  assert (Minus : forall t, option_map Z.opp (u t) = Some z <-> exists ds, digits ds /\ ds <> [] /\ t = digits_text ds /\ z = (- digits_value ds)%Z).
  { intros t. split.
    - destruct (u t) as [n|] eqn:E; cbn; [|discriminate]. intros [= <-]. apply U in E as (ds & D & N & -> & ->). eauto.
    - intros (ds & D & N & -> & ->). assert (E : u (digits_text ds) = Some (digits_value ds)) by (apply U; eauto). now rewrite E. }
  assert (NoSign : forall ds c t, digits ds -> digits_text ds = String c t -> is_digit c = true).
  { intros [|d ds] c t D; [discriminate|]. cbn [digits_text]. intros E. assert (c = digit_char d) as -> by congruence. inversion_clear D. now apply digit_char_facts. }
  assert (Other : forall c t, c <> "-"%char -> c <> "+"%char ->
     u (String c t) = Some z <->
     (exists ds : list nat, digits ds /\ ds <> [] /\ (String c t = digits_text ds /\ z = digits_value ds \/
       String c t = String "+" (digits_text ds) /\ z = digits_value ds \/ String c t = String "-" (digits_text ds) /\ z = (- digits_value ds)%Z))).
  { intros c t N1 N2. rewrite U. split; [intros (ds & D & N & E & ->); eauto 10|].
    intros (ds & D & N & [[E ->]|[[E _]|[E _]]]); [eauto|congruence|congruence]. }
  destruct s as [|c t].
  - rewrite U. split; [intros (ds & D & N & E & ->); eauto 10|].
    intros (ds & D & N & [[E ->]|[[E _]|[E _]]]); [eauto|discriminate|discriminate].
  - destruct (ascii_dec c "-") as [->|N1]; [|destruct (ascii_dec c "+") as [->|N2]].
    + rewrite Minus. split.
      * intros (ds & D & N & -> & ->). exists ds. auto 10.
      * intros (ds & D & N & [[E ->]|[[E _]|[E ->]]]).
        -- symmetry in E. apply NoSign in E; [discriminate|assumption].
        -- discriminate.
        -- injection E as ->. eauto.
    + rewrite U. split.
      * intros (ds & D & N & -> & ->). exists ds. auto 10.
      * intros (ds & D & N & [[E ->]|[[E ->]|[E _]]]).
        -- symmetry in E. apply NoSign in E; [discriminate|assumption].
        -- injection E as ->. eauto.
        -- discriminate.
    + rewrite <- (Other c t N1 N2).
      assert (X : forall (A : Type) (a b d : A), match c with "-"%char => a | "+"%char => b | _ => d end = d).
      { intros A a b d. clear - N1 N2. destruct c as [[] [] [] [] [] [] [] []]; try reflexivity; congruence. }
      replace (match c with "-"%char => option_map Z.opp (u t) | "+"%char => u t | _ => u (String c t) end)
        with (u (String c t)) by (symmetry; apply X). reflexivity.
Qed.

Lemma integer_no_dot s z : integer_text s z -> has_dot s = false.
Proof.
  assert (X : forall ds, digits ds -> has_dot (digits_text ds) = false).
  { induction 1 as [|d ds Hd D IH]; [reflexivity|]. cbn [digits_text has_dot]. rewrite IH, orb_false_r.
    do 10 (destruct d as [|d]; [reflexivity|]). lia. }
  intros (ds & D & _ & [[-> _]|[[-> _]|[-> _]]]); cbn; auto.
Qed.

(** ** Presence of the entries *)

Lemma has_In {T} o k (D : json -> T -> Prop) x : has o k D x -> In k (map fst o).
Proof. intros (j & I & _). apply in_map_iff. now exists (k, j). Qed.

Lemma type_In o ty : In ("type"%string, JStr ty) o -> In "type"%string (map fst o).
Proof. intros I. apply in_map_iff. now exists ("type"%string, JStr ty). Qed.

Lemma has_imp {T} o k (D D' : json -> T -> Prop) x :
  (forall j, In (k, j) o -> D j x -> D' j x) -> has o k D x -> has o k D' x.
Proof. intros H (j & I & X). exists j. auto. Qed.

Ltac in_tac := cbn [In app header_keys]; tauto.

(** [known] and the presence of the required entries make [well_keyed]. *)
Ltac keyed K :=
  eapply known_well_keyed; [|split; [exact K|]];
  [intros ?; in_tac
  |let k := fresh "k" in let H := fresh "H" in
   intros k H; cbn [In app] in H;
   repeat match type of H with _ \/ _ => destruct H as [H|H] | False => destruct H end;
   subst k; first [eapply has_In; eassumption|eapply type_In; eassumption]].
(** The converse. *)
Ltac unkeyed W := eapply known_well_keyed in W as [W _]; [exact W|intros ?; in_tac].

Section Leaves.
Context {TS : TextSyntax}.

Lemma iri_str_iff s i : iri_from_str s = Ok i <-> key_iri s i.
Proof.
  unfold iri_from_str, key_iri. destruct (is_iri_ref s) eqn:E; split; try congruence.
  - intros [= <-]; auto.
  - intros [-> _]; reflexivity.
  - intros [-> H]; congruence.
Qed.

Lemma iri_iff j i : iri_from_json j = Ok i <-> iri_doc j i.
Proof.
  unfold iri_from_json, iri_doc. split.
  - intros H. apply bind_Ok in H as (s & Hs & H). apply string_iff in Hs. apply iri_str_iff in H as [-> H]. auto.
  - intros [-> H]. cbn. unfold iri_from_str. now rewrite H.
Qed.

Lemma regexp_iff j e : regexp_from_json j = Ok e <-> regexp_doc j e.
Proof.
  unfold regexp_from_json, regexp_doc. split.
  - intros H. apply bind_Ok in H as (s & Hs & H). apply string_iff in Hs. exists s. split; [assumption|].
    destruct (re_parse (chars s)); congruence.
  - intros (s & -> & H). cbn. now rewrite H.
Qed.

Lemma const_iff j v : const_from_json j = Ok v <-> const_doc j v.
Proof.
  unfold const_from_json, const_doc. destruct (value_from_json j) as [x|e| |]; cbn; split; try congruence.
  - destruct e.
Qed.

Lemma option_iff {T} (parse : json -> outcome abs_error T) j x :
  from_option parse j = Ok x <->
  (j = JNull /\ x = None) \/ (exists t, j <> JNull /\ parse j = Ok t /\ x = Some t).
Proof.
  assert (N : (j <> JNull -> from_option parse j = (let* t := parse j in Ok (Some t)))) by (destruct j; cbn; congruence).
  destruct j; try (
    rewrite N by discriminate; split;
    [intros H; apply bind_Ok in H as (t & Ht & [= <-]); right; exists t; repeat split; auto; discriminate
    |intros [[? _]|(t & _ & -> & ->)]; [discriminate|reflexivity]]).
  cbn. split; [intros [= <-]; auto|]. intros [[_ ->]|(t & H & _)]; congruence.
Qed.

Ltac reads_leaf :=
  first [apply reads_ret
        |eapply reads_get; intros; first [apply string_iff|apply iri_iff]
        |eapply reads_require; intros; first [apply string_iff|apply iri_iff]].

Lemma literal_iff o p :
  literal_value_from o = Ok p <-> pattern_doc (JObj o) p.
Proof.
  unfold literal_value_from.
  pose proof (reads_get o "type" iri_from_json iri_doc (fun j t _ => iri_iff j t)) as RT.
  destruct (in_dec string_dec "type" (map fst o)) as [T|T].
  - erewrite with_entries_iff.
    2:{ eapply reads_bind; [exact RT|]. intros ty Hty. instantiate (1 := fun ty p => exists v t, ty = Some t /\ has o "value" string_doc v /\ p = ALiteral v (ATypeIri t)).
        instantiate (1 := ["value"%string]).
        destruct ty as [ty|]; [|now destruct Hty]. cbn beta iota.
        eapply reads_iff; [change ["value"%string] with ([] ++ ["value"%string] ++ [])%list; eapply reads_bind; [apply reads_ret|intros ? _; eapply reads_bind; [reads_leaf|intros; apply reads_ret]]|].
        intros a. cbn. split.
        - intros (b & -> & v & Hv & ->). eauto 10.
        - intros (v & t & [= <-] & Hv & ->). eauto 10. }
    split.
    + intros [(ty & Hty & v & t & -> & Hv & ->) K]. constructor; [keyed K|assumption|exact Hty].
    + inversion 1 as [| |? v ty W Hv Hty|? v tag W Hv Htag L]; subst.
      * split; [exists (Some ty); split; [exact Hty|]; eauto|]. unkeyed W.
      * exfalso. destruct W as (_ & W & _). apply W in T. cbn in T.
        repeat destruct T as [T|T]; try discriminate; destruct T.
  - erewrite with_entries_iff.
    2:{ eapply reads_bind; [exact RT|]. intros ty Hty. instantiate (1 := fun ty p => exists v t, has o "value" string_doc v /\ has o "language" string_doc t /\ is_lang_tag t = true /\ p = ALiteral v (ATypeLang t)).
        instantiate (1 := ["language"%string; "value"%string]).
        destruct ty as [ty|]; [now apply has_In in Hty|]. cbn beta iota.
        eapply reads_iff; [change ["language"%string; "value"%string] with (["language"%string] ++ ["value"%string] ++ [])%list; eapply reads_bind; [|intros ? _; eapply reads_bind; [reads_leaf|intros; apply reads_ret]]|].
        - instantiate (1 := fun ty => exists t, has o "language" string_doc t /\ is_lang_tag t = true /\ ty = ATypeLang t).
          change ["language"%string] with (["language"%string] ++ []).
          eapply reads_bind; [reads_leaf|]. intros tag _ u a u'. rewrite clear_nil.
          destruct (is_lang_tag tag); split; try congruence.
          + intros [= <- <-]. cbn. repeat split; auto; tauto.
          + intros ((_ & ->) & _ & ->). reflexivity.
          + intros ((? & _) & _). congruence.
        - intros a. cbn. split.
          + intros (b & (t & Ht & L & ->) & v & Hv & ->). eauto 10.
          + intros (v & t & Hv & Ht & L & ->). eauto 10. }
    split.
    + intros [(ty & Hty & v & t & Hv & Ht & L & ->) K]. constructor; try assumption.
      eapply known_well_keyed with (ks := ["language"; "value"]%string); [intros ?; in_tac|].
      split.
      * destruct K as [ND K]. split; [assumption|]. intros k Hk. destruct (K k Hk) as [<-|X]; [contradiction|exact X].
      * intros k [<-|[<-|[]]]; eapply has_In; eassumption.
    + inversion 1 as [| |? v ty W Hv Hty|? v tag W Hv Htag L]; subst.
      * now apply has_In in Hty.
      * split; [exists None; split; [exact T|]; eauto 10|].
        destruct W as (ND & W & _). split; [assumption|]. intros k Hk. apply W in Hk. cbn in *. tauto.
Qed.

Lemma pattern_iff j p : pattern_from_json j = Ok p <-> pattern_doc j p.
Proof.
  destruct j; cbn [pattern_from_json]; try (split; [discriminate|inversion 1]).
  - destruct (blank_suffix s) as [name|] eqn:B.
    + split; [intros [= <-]; now constructor|inversion 1; congruence].
    + destruct (is_iri_ref s) eqn:I.
      * split; [intros [= <-]; now constructor|inversion 1; congruence].
      * split; [discriminate|inversion 1; congruence].
  - apply literal_iff.
Qed.

Lemma quad_iff j q : quad_from_json j = Ok q <-> quad_doc j q.
Proof.
  destruct j as [| | | |l|]; cbn [quad_from_json]; try (split; [discriminate|inversion 1]).
  destruct l as [|s [|p [|o l]]]; try (split; [discriminate|inversion 1]).
  destruct l as [|g [|? ?]]; try (split; [discriminate|inversion 1]).
  - split.
    + intros H. repeat (apply bind_Ok in H as (? & ?H & H)). injection H as <-. constructor; now apply pattern_iff.
    + inversion 1 as [? ? ? ? ? ? A B C|]; subst. apply pattern_iff in A, B, C. now rewrite A, B, C.
  - split.
    + intros H. repeat (apply bind_Ok in H as (? & ?H & H)). injection H as <-. constructor; now apply pattern_iff.
    + inversion 1 as [|? ? ? ? ? ? ? ? A B C G]; subst. apply pattern_iff in A, B, C, G. now rewrite A, B, C; cbn; rewrite G.
Qed.

Lemma dataset_iff j ds : dataset_from_json j = Ok ds <-> dataset_doc j ds.
Proof. apply vec_iff. intros; apply quad_iff. Qed.

Lemma graph_iff j g : from_option (from_option pattern_from_json) j = Ok g <-> graph_doc j g.
Proof.
  unfold graph_doc. rewrite option_iff. apply or_iff_compat_l. split.
  - intros (t & N & H & ->). apply option_iff in H as [[-> _]|(p & _ & H & ->)]; [congruence|].
    exists p. repeat split; auto. now apply pattern_iff.
  - intros (p & N & H & ->). exists (Some p). repeat split; auto. apply option_iff. right. exists p. repeat split; auto.
    now apply pattern_iff.
Qed.

Lemma typed_iff o r : typed_string_from o = Ok r <-> resource_doc (JObj o) r.
Proof.
  unfold typed_string_from. erewrite with_entries_iff.
  2:{ eapply reads_bind; [reads_leaf|intros ? _; eapply reads_bind; [reads_leaf|intros; apply reads_ret]]. }
  split.
  - intros [(v & Hv & ty & Ht & ->) K]. constructor; try assumption. keyed K.
  - inversion 1 as [| | |? v ty W Hv Ht]; subst. split; [eauto 10|]. unkeyed W.
Qed.

Lemma resource_iff j r : resource_from_json j = Ok r <-> resource_doc j r.
Proof.
  destruct j; cbn [resource_from_json]; try (split; [discriminate|inversion 1]).
  - split; [intros [= <-]; constructor|now inversion 1].
  - destruct (has_dot s) eqn:E.
    + split; [discriminate|]. inversion 1 as [|? z I R| |]; subst. apply integer_no_dot in I. congruence.
    + destruct (parse_i64 s) as [z|] eqn:P.
      * apply parse_i64_iff in P as [I R]. split; [intros [= <-]; now constructor|].
        inversion 1 as [|? z' I' R'| |]; subst.
        assert (P : parse_i64 s = Some z) by (apply parse_i64_iff; auto).
        assert (P' : parse_i64 s = Some z') by (apply parse_i64_iff; auto). congruence.
      * split; [discriminate|]. inversion 1 as [|? z I R| |]; subst.
        assert (P' : parse_i64 s = Some z) by (apply parse_i64_iff; auto). congruence.
  - split; [intros [= <-]; constructor|now inversion 1].
  - apply typed_iff.
Qed.

Lemma ok_eq_iff (s k : string) : @Ok abs_error string s = Ok k <-> s = k.
Proof. split; congruence. Qed.

Lemma header_reads o : reads o header_keys (header_from o) (header_doc o).
Proof.
  unfold header_from.
  eapply reads_iff with (ks := header_keys).
  - change header_keys with (["base"%string] ++ ["prefixes"%string] ++ ["id"%string] ++ ["input"%string] ++ ["intro"%string] ++ ["dataset"%string] ++ ["extra"%string] ++ [])%list.
    eapply reads_bind; [eapply reads_get; intros; apply iri_iff|intros ? _].
    eapply reads_bind; [eapply reads_get_or; intros; eapply map_iff; intros; [apply ok_eq_iff|apply iri_iff]|intros ? _].
    eapply reads_bind; [eapply reads_get; intros; apply iri_iff|intros ? _].
    eapply reads_bind; [eapply reads_get_or; intros; eapply many_iff; intros; apply string_iff|intros ? _].
    eapply reads_bind; [eapply reads_get_or; intros; eapply many_iff; intros; apply string_iff|intros ? _].
    eapply reads_bind; [eapply reads_get_or; intros; apply dataset_iff|intros ? _].
    eapply reads_bind; [eapply reads_get_or; intros; eapply map_iff; intros; [apply iri_str_iff|apply resource_iff]|intros ? _].
    apply reads_ret.
  - intros h. unfold header_doc. split.
    + intros (? & H1 & ? & H2 & ? & H3 & ? & H4 & ? & H5 & ? & H6 & ? & H7 & ->). cbn. tauto.
    + intros (H1 & H2 & H3 & H4 & H5 & H6 & H7). destruct h; cbn in *. do 7 (eexists; split; [eassumption|]). reflexivity.
Qed.
End Leaves.

(** ** Sizes *)

Lemma size_entry o k j : In (k, j) o -> json_size j < json_size (JObj o).
Proof.
  cbn [json_size]. induction o as [|[k' j'] o IH]; [intros []|]; intros [E|I].
  - injection E as -> ->. lia.
  - apply IH in I. lia.
Qed.

Lemma size_item l j : In j l -> json_size j < json_size (JArr l).
Proof.
  cbn [json_size]. induction l as [|j' l IH]; [intros []|]; intros [E|I].
  - subst. lia.
  - apply IH in I. lia.
Qed.

Lemma contains_iff o k : contains_key o k = true <-> In k (map fst o).
Proof.
  unfold contains_key. rewrite existsb_exists, in_map_iff. split.
  - intros ([k' j] & I & E). apply String.eqb_eq in E. cbn in E. subst. now exists (k, j).
  - intros ([k' j] & E & I). cbn in E. subst. exists (k, j). split; [assumption|]. apply String.eqb_refl.
Qed.

(** ** The map of the fields *)

Section FieldKeys.
Context {V : Type}.
Let emb (f : string * V) : value * V := (VLit (LText (fst f)), snd f).

Lemma emb_cmp (a b : string) : cmp (VLit (LText a)) (VLit (LText b)) = cmp a b.
Proof. reflexivity. Qed.

Lemma emb_insert k v (m : list (string * V)) :
  map emb (bt_insert k v m) = bt_insert (VLit (LText k)) v (map emb m).
Proof.
  induction m as [|[k' v'] m IH]; [reflexivity|].
  cbn [map]. unfold emb at 2. cbn [fst snd bt_insert]. rewrite emb_cmp.
  destruct (cmp k k'); cbn [map]; [reflexivity|reflexivity|]. now rewrite IH.
Qed.

Lemma emb_collect (raw : list (string * V)) : map emb (bt_collect raw) = bt_collect (map emb raw).
Proof.
  unfold bt_collect. change (@nil (value * V)) with (map emb []). generalize (@nil (string * V)).
  induction raw as [|[k v] raw IH]; intros m; [reflexivity|].
  cbn [fold_left map]. rewrite IH. unfold emb at 4. cbn [fst snd]. now rewrite <- emb_insert.
Qed.
End FieldKeys.

(** ** Parts of layouts *)

(** Decomposes a sequence of entries; [tac] solves the readers of the nested parts. *)
Ltac reader tac :=
  first [ apply string_iff | apply bool_iff | apply iri_iff | apply pattern_iff | apply dataset_iff
        | apply regexp_iff | apply const_iff | apply graph_iff
        | eapply many_iff; intros; first [apply string_iff|apply pattern_iff]
        | tac ].
Ltac entry tac :=
  first [ apply reads_type | apply header_reads
        | eapply reads_require; intros; reader tac
        | eapply reads_get_or; intros; reader tac
        | eapply reads_get; intros; reader tac ].
Ltac entries_tac tac :=
  repeat (eapply reads_bind; [entry tac|intros ? _]); apply reads_ret.

Section Parts.
Context {TS : TextSyntax}.
Context (nested : object -> outcome abs_error alayout) (D : object -> alayout -> Prop) (n : nat).
Context (HN : forall o l, json_size (JObj o) <= n -> (nested o = Ok l <-> D o l)).

Lemma ref_iff j r : json_size j <= n -> (ref_from_json nested j = Ok r <-> ref_doc D j r).
Proof.
  intros Hj. destruct j as [| | | | |o]; cbn [ref_from_json]; try (split; [discriminate|inversion 1]).
  - split.
    + intros H. apply bind_Ok in H as (i & Hi & [= <-]). apply iri_str_iff in Hi as [-> Hi]. now constructor.
    + inversion 1; subst. unfold iri_from_str. match goal with H : is_iri_ref _ = true |- _ => rewrite H end. reflexivity.
  - split.
    + intros H. apply bind_Ok in H as (l & Hl & [= <-]). constructor. now apply HN.
    + inversion 1 as [|? l Hl]; subst. apply HN in Hl; [|assumption]. now rewrite Hl.
Qed.

Lemma format_iff d j f : json_size j <= n -> (format_from_json nested d j = Ok f <-> format_doc D d j f).
Proof.
  intros Hj. destruct j as [| | |s|l|o]; cbn [format_from_json].
  1,2,3,5: split; [discriminate|inversion 1 as [? ? R|]; subst; inversion R].
  - split.
    + intros H. apply bind_Ok in H as (i & Hi & [= <-]). apply iri_str_iff in Hi as [-> Hi].
      constructor; [now constructor|discriminate].
    + inversion 1 as [? ? R|]; subst. inversion R; subst. unfold iri_from_str.
      match goal with H : is_iri_ref _ = true |- _ => rewrite H end. reflexivity.
  - destruct (contains_key o "type") eqn:C.
    + apply contains_iff in C. split.
      * intros H. apply bind_Ok in H as (l & Hl & [= <-]). constructor; [constructor; now apply HN|].
        now intros ? [= <-].
      * inversion 1 as [? ? R|? ? ? ? W]; subst.
        -- inversion R as [|? l Hl]; subst. apply HN in Hl; [|assumption]. now rewrite Hl.
        -- exfalso. destruct W as (_ & W & _). apply W in C. cbn in C.
           repeat match type of C with _ \/ _ => destruct C as [C|C] end; try discriminate; destruct C.
    + unfold format_from. erewrite with_entries_iff.
      2:{ entries_tac ltac:(apply ref_iff; match goal with I : In _ o |- _ => apply size_entry in I; lia end). }
      split.
      * intros [(r & Hr & i & Hi & g & Hg & ->) K]. constructor; try assumption. keyed K.
      * inversion 1 as [? ? R X|? r i g W Hr Hi Hg]; subst.
        -- exfalso. specialize (X _ eq_refl). apply contains_iff in X. congruence.
        -- split; [eauto 10|unkeyed W].
Qed.

Ltac fmt := apply format_iff; match goal with I : In (_, _) _ |- _ => apply size_entry in I; lia end.

Lemma expect_iff j o : expect_object j = Ok o <-> j = JObj o.
Proof. destruct j; cbn; split; try discriminate; intros [= <-]; reflexivity. Qed.

Lemma item_iff j i : json_size j <= n -> (item_from_json nested j = Ok i <-> item_doc D j i).
Proof.
  intros Hj. unfold item_from_json. split.
  - intros H. apply bind_Ok in H as (o & Ho & H). apply expect_iff in Ho. subst.
    erewrite with_entries_iff in H; [|entries_tac ltac:(fmt)].
    destruct H as [(a & Ha & b & Hb & c & Hc & e & He & ->) K]. constructor; try assumption. keyed K.
  - inversion 1 as [o a b c e W Ha Hb Hc He]; subst. cbn [expect_object bind].
    erewrite with_entries_iff; [|entries_tac ltac:(fmt)]. split; [eauto 12|unkeyed W].
Qed.

Lemma field_iff j i : json_size j <= n -> (field_from_json nested j = Ok i <-> field_doc D j i).
Proof.
  intros Hj. unfold field_from_json. split.
  - intros H. apply bind_Ok in H as (o & Ho & H). apply expect_iff in Ho. subst.
    erewrite with_entries_iff in H; [|entries_tac ltac:(fmt)].
    destruct H as [(a & Ha & b & Hb & c & Hc & e & He & r & Hr & ->) K]. constructor; try assumption. keyed K.
  - inversion 1 as [o a b c e r W Ha Hb Hc He Hr]; subst. cbn [expect_object bind].
    erewrite with_entries_iff; [|entries_tac ltac:(fmt)]. split; [eauto 12|unkeyed W].
Qed.

Lemma variant_iff j i : json_size j <= n -> (variant_from_json nested j = Ok i <-> variant_doc D j i).
Proof.
  intros Hj. unfold variant_from_json. split.
  - intros H. apply bind_Ok in H as (o & Ho & H). apply expect_iff in Ho. subst.
    erewrite with_entries_iff in H; [|entries_tac ltac:(fmt)].
    destruct H as [(a & Ha & b & Hb & c & Hc & ->) K]. constructor; try assumption. keyed K.
  - inversion 1 as [o a b c W Ha Hb Hc]; subst. cbn [expect_object bind].
    erewrite with_entries_iff; [|entries_tac ltac:(fmt)]. split; [eauto 12|unkeyed W].
Qed.

Lemma node_iff j f : json_size j <= n -> (node_from_json nested j = Ok f <-> node_doc D j f).
Proof.
  intros Hj. destruct j as [| | |s|l|o]; cbn [node_from_json].
  1,2,3,5: split; [discriminate|inversion 1 as [? ? R|]; subst; inversion R].
  - split.
    + intros H. apply bind_Ok in H as (i & Hi & [= <-]). apply iri_str_iff in Hi as [-> Hi].
      constructor; [now constructor|discriminate].
    + inversion 1 as [? ? R|]; subst. inversion R; subst. unfold iri_from_str.
      match goal with H : is_iri_ref _ = true |- _ => rewrite H end. reflexivity.
  - destruct (contains_key o "type") eqn:C.
    + apply contains_iff in C. split.
      * intros H. apply bind_Ok in H as (l & Hl & [= <-]). constructor; [constructor; now apply HN|].
        now intros ? [= <-].
      * inversion 1 as [? ? R|? ? ? ? ? ? W]; subst.
        -- inversion R as [|? l Hl]; subst. apply HN in Hl; [|assumption]. now rewrite Hl.
        -- exfalso. destruct W as (_ & W & _). apply W in C. cbn in C.
           repeat match type of C with _ \/ _ => destruct C as [C|C] end; try discriminate; destruct C.
    + unfold node_from. erewrite with_entries_iff; [|entries_tac ltac:(fmt)].
      split.
      * intros [(h & Hh & r & Hr & i & Hi & v & Hv & ds & Hds & ->) K]. constructor; try assumption. keyed K.
      * inversion 1 as [? ? R X|? h r i v ds W Hh Hr Hi Hv Hds]; subst.
        -- exfalso. specialize (X _ eq_refl). apply contains_iff in X. congruence.
        -- split; [eauto 14|unkeyed W].
Qed.

(** ** Layout objects *)

Lemma layout_object_intro ty ks o h :
  (forall k, In k ks <-> In k ("type"%string :: required_keys ty) \/ In k (header_keys ++ optional_keys ty)) ->
  (forall k, In k (required_keys ty) -> In k (map fst o)) ->
  In ("type"%string, JStr ty) o -> header_doc o h -> known o ks -> layout_object ty o h.
Proof.
  intros E R I H K. repeat split; try apply K; try assumption; try apply H.
  - intros k X. apply E, K, X.
  - intros k [<-|X]; [now apply type_In in I|auto].
Qed.

Lemma layout_object_known ty ks o h :
  (forall k, In k ks <-> In k ("type"%string :: required_keys ty) \/ In k (header_keys ++ optional_keys ty)) ->
  layout_object ty o h -> In ("type"%string, JStr ty) o /\ header_doc o h /\ known o ks.
Proof.
  intros E (I & (A & B & _) & H). repeat split; try assumption; try apply H. intros k X. apply E, B, X.
Qed.

Ltac ks_tac := let k := fresh in intros k; cbn [In app header_keys required_keys optional_keys]; tauto.
Ltac intro_tac K :=
  match type of K with known _ ?ks => apply (layout_object_intro _ ks) end;
  [ks_tac
  |let k := fresh "k" in let H := fresh "H" in
   intros k H; cbn [In required_keys] in H;
   repeat match type of H with _ \/ _ => destruct H as [H|H] | False => destruct H end;
   subst k; eapply has_In; eassumption
  |assumption|assumption|exact K].
Ltac known_tac X :=
  match goal with |- _ /\ known _ ?ks => apply (layout_object_known _ ks) in X end; [|ks_tac]; destruct X as (?I & ?Hh & ?K).

Context (o : object) (Ho : json_size (JObj o) <= S n).

Ltac nest :=
  match goal with I : In (_, ?j) o |- _ => apply size_entry in I end;
  first [ apply node_iff; lia | apply item_iff; lia
        | eapply vec_iff; intros; subst;
          match goal with I : In _ _ |- _ => apply size_item in I end; apply item_iff; lia
        | eapply map_iff; intros; [apply ok_eq_iff|];
          subst; match goal with I : In (_, _) _ |- _ => apply size_entry in I end;
          first [apply variant_iff; lia|apply field_iff; lia] ].

Tactic Notation "go" reference(f) := unfold f; erewrite with_entries_iff; [|entries_tac ltac:(nest)].

Lemma unit_iff l : unit_from o = Ok l <->
  exists h c, l = AUnit h c /\ layout_object "unit" o h /\ has_or o "const" const_doc (VLit LUnit) c.
Proof.
  go unit_from. split.
  - intros [([] & I & h & Hh & c & Hc & ->) K]. exists h, c. split; [reflexivity|]. split; [intro_tac K|assumption].
  - intros (h & c & -> & X & Hc). known_tac X. split; [|assumption]. exists tt; eauto 10.
Qed.

Lemma boolean_iff l : boolean_from o = Ok l <->
  exists h r d, l = ALiteralL (AKBoolean d) h r /\ layout_object "boolean" o h /\
    has_opt o "resource" pattern_doc r /\ has_opt o "datatype" iri_doc d.
Proof.
  go boolean_from. split.
  - intros [([] & I & h & Hh & r & Hr & d & Hd & ->) K]. exists h, r, d. split; [reflexivity|]. split; [intro_tac K|auto].
  - intros (h & r & d & -> & X & Hr & Hd). known_tac X. split; [|assumption]. exists tt; eauto 12.
Qed.

Lemma number_iff l : number_from o = Ok l <->
  exists h r d, l = ALiteralL (AKNumber d) h r /\ layout_object "number" o h /\
    has_opt o "resource" pattern_doc r /\ has o "datatype" iri_doc d.
Proof.
  go number_from. split.
  - intros [([] & I & h & Hh & r & Hr & d & Hd & ->) K]. exists h, r, d. split; [reflexivity|]. split; [intro_tac K|auto].
  - intros (h & r & d & -> & X & Hr & Hd). known_tac X. split; [|assumption]. exists tt; eauto 12.
Qed.

Lemma bytes_iff l : bytes_from o = Ok l <->
  exists h r d, l = ALiteralL (AKByteString d) h r /\ layout_object "bytes" o h /\
    has_opt o "resource" pattern_doc r /\ has o "datatype" iri_doc d.
Proof.
  go bytes_from. split.
  - intros [([] & I & h & Hh & r & Hr & d & Hd & ->) K]. exists h, r, d. split; [reflexivity|]. split; [intro_tac K|auto].
  - intros (h & r & d & -> & X & Hr & Hd). known_tac X. split; [|assumption]. exists tt; eauto 12.
Qed.

Lemma text_iff l : text_from o = Ok l <->
  exists h p r d, l = ALiteralL (AKTextString p d) h r /\ layout_object "string" o h /\
    has_opt o "pattern" regexp_doc p /\ has_opt o "resource" pattern_doc r /\ has_opt o "datatype" iri_doc d.
Proof.
  go text_from. split.
  - intros [([] & I & h & Hh & p & Hp & r & Hr & d & Hd & ->) K]. exists h, p, r, d.
    split; [reflexivity|]. split; [intro_tac K|auto].
  - intros (h & p & r & d & -> & X & Hp & Hr & Hd). known_tac X. split; [|assumption]. exists tt; eauto 14.
Qed.

Lemma id_iff l : id_from o = Ok l <->
  exists h p r, l = ALiteralL (AKId p) h r /\ layout_object "id" o h /\
    has_opt o "pattern" regexp_doc p /\ has_opt o "resource" pattern_doc r.
Proof.
  go id_from. split.
  - intros [([] & I & h & Hh & p & Hp & r & Hr & ->) K]. exists h, p, r.
    split; [reflexivity|]. split; [intro_tac K|auto].
  - intros (h & p & r & -> & X & Hp & Hr). known_tac X. split; [|assumption]. exists tt; eauto 14.
Qed.

Lemma fields_map m :
  has_or o "fields" (map_doc (fun s k => k = VLit (LText s)) (field_doc D)) [] m <->
  exists f, has_or o "fields" (map_doc eq (field_doc D)) [] f /\
    m = bt_collect (map (fun f : string * afield alayout => (VLit (LText (fst f)), snd f)) f).
Proof.
  assert (S : forall raw : list (string * afield alayout),
    bt_collect (map (fun f : string * afield alayout => (VLit (LText (fst f)), snd f)) (bt_collect raw)) =
    bt_collect (map (fun f : string * afield alayout => (VLit (LText (fst f)), snd f)) raw)).
  { intros raw. rewrite emb_collect. apply JsonProperties.bt_collect_sorted, bt_collect_wf. }
  split.
  - intros [(j & I & o' & raw & -> & F & ->)|[N ->]].
    + assert (X : exists raw', Forall2 (fun (e : string * json) (kv : string * afield alayout) => fst e = fst kv /\ field_doc D (snd e) (snd kv)) o' raw' /\
        raw = map (fun f : string * afield alayout => (VLit (LText (fst f)), snd f)) raw').
      { clear - F. induction F as [|e [k v] o' raw [Hk Hv] F (raw' & F' & ->)].
        - exists []. now split.
        - cbn in Hk, Hv. subst. exists ((fst e, v) :: raw'). split; [|reflexivity]. now constructor. }
      destruct X as (raw' & F' & ->). exists (bt_collect raw'). split; [|symmetry; apply S].
      left. exists (JObj o'). split; [assumption|]. exists o', raw'. auto.
    + exists []. split; [now right|reflexivity].
  - intros (f & [(j & I & o' & raw & -> & F & ->)|[N ->]] & ->).
    + left. exists (JObj o'). split; [assumption|]. eexists o', _. split; [reflexivity|]. split; [|apply S].
      clear - F. induction F as [|e [k v] o' raw [Hk Hv] F IH]; constructor; [|assumption].
      cbn in *. now subst.
    + right. now split.
Qed.

Lemma product_iff l : product_from nested o = Ok l <->
  exists h f, l = AProduct h f /\ layout_object "record" o h /\
    has_or o "fields" (map_doc (fun s k => k = VLit (LText s)) (field_doc D)) [] f.
Proof.
  go product_from. split.
  - intros [([] & I & f & Hf & h & Hh & ->) K]. eexists h, _. split; [reflexivity|]. split; [intro_tac K|].
    apply fields_map. eauto.
  - intros (h & m & -> & X & Hm). known_tac X. split; [|assumption]. apply fields_map in Hm as (f & Hf & ->).
    exists tt; eauto 14.
Qed.

Lemma sum_iff l : sum_from nested o = Ok l <->
  exists h v, l = ASum h v /\ layout_object "sum" o h /\
    has_or o "variants" (map_doc eq (variant_doc D)) [] v.
Proof.
  go sum_from. split.
  - intros [([] & I & h & Hh & v & Hv & ->) K]. exists h, v. split; [reflexivity|]. split; [intro_tac K|assumption].
  - intros (h & v & -> & X & Hv). known_tac X. split; [|assumption]. exists tt; eauto 14.
Qed.

Lemma ordered_iff l : ordered_from nested o = Ok l <->
  exists h nd hd tl, l = AOrdered h nd hd tl /\ layout_object "list" o h /\ has o "node" (node_doc D) nd /\
    has_or o "head" pattern_doc (AVar "self") hd /\ has_or o "tail" pattern_doc (AIri (rdf "nil")) tl.
Proof.
  go ordered_from. split.
  - intros [([] & I & h & Hh & nd & Hnd & hd & Hhd & tl & Htl & ->) K]. exists h, nd, hd, tl.
    split; [reflexivity|]. split; [intro_tac K|auto].
  - intros (h & nd & hd & tl & -> & X & Hnd & Hhd & Htl). known_tac X. split; [|assumption]. exists tt; eauto 14.
Qed.

Lemma unordered_iff l : unordered_from nested o = Ok l <->
  exists h i, l = AUnordered h i /\ layout_object "set" o h /\ has o "item" (item_doc D) i.
Proof.
  go unordered_from. split.
  - intros [([] & I & h & Hh & i & Hi & ->) K]. exists h, i. split; [reflexivity|]. split; [intro_tac K|auto].
  - intros (h & i & -> & X & Hi). known_tac X. split; [|assumption]. exists tt; eauto 14.
Qed.

Lemma sized_iff l : sized_from nested o = Ok l <->
  exists h i, l = ASized h i /\ layout_object "tuple" o h /\ has_or o "items" (array_doc (item_doc D)) [] i.
Proof.
  go sized_from. split.
  - intros [([] & I & h & Hh & i & Hi & ->) K]. exists h, i. split; [reflexivity|]. split; [intro_tac K|auto].
  - intros (h & i & -> & X & Hi). known_tac X. split; [|assumption]. exists tt; eauto 14.
Qed.

Lemma union_iff l : union_from o = Ok l <-> exists h, l = AUnion h /\ layout_object "union" o h.
Proof.
  go union_from. split.
  - intros [([] & I & h & Hh & ->) K]. exists h. split; [reflexivity|]. intro_tac K.
  - intros (h & -> & X). known_tac X. split; [|assumption]. exists tt; eauto 14.
Qed.

Lemma intersection_iff l : intersection_from o = Ok l <-> exists h, l = AIntersection h /\ layout_object "intersection" o h.
Proof.
  go intersection_from. split.
  - intros [([] & I & h & Hh & ->) K]. exists h. split; [reflexivity|]. intro_tac K.
  - intros (h & -> & X). known_tac X. split; [|assumption]. exists tt; eauto 14.
Qed.
End Parts.

Section Layouts.
Context {TS : TextSyntax}.

Lemma layout_type ty o h : layout_object ty o h -> exists i, require_type o = Ok (i, ty).
Proof.
  intros (I & (ND & _ & _) & _). apply require_type_complete; [assumption|].
  unfold single. apply (NoDup_count_occ string_dec). assumption.
Qed.

Ltac ex_of H := repeat match type of H with ex _ => let x := fresh "x" in destruct H as [x H] | _ /\ _ => let A := fresh "A" in destruct H as [A H] end.

Lemma object_iff n : forall o l, json_size (JObj o) <= n -> (object_from n o = Ok l <-> object_doc o l).
Proof.
  induction n as [|n IH]; intros o l Ho; [cbn [json_size] in Ho; lia|].
  cbn [object_from]. unfold object_body. split.
  - intros H. apply bind_Ok in H as ([i ty] & _ & H). cbn [snd] in H.
    repeat match type of H with
    | (if ?b then _ else _) = _ => destruct b
    end; try discriminate;
    first [ apply id_iff in H | apply unit_iff in H | apply boolean_iff in H | apply number_iff in H
          | apply bytes_iff in H | apply text_iff in H | apply (product_iff _ _ _ IH _ Ho) in H
          | apply (sum_iff _ _ _ IH _ Ho) in H | apply (ordered_iff _ _ _ IH _ Ho) in H
          | apply (unordered_iff _ _ _ IH _ Ho) in H | apply (sized_iff _ _ _ IH _ Ho) in H
          | apply union_iff in H | apply intersection_iff in H ];
    ex_of H; subst; constructor; assumption.
  - inversion 1; subst;
    match goal with H : layout_object _ _ _ |- _ => destruct (layout_type _ _ _ H) as [i ->] end;
    cbn [bind snd String.eqb Ascii.eqb Bool.eqb];
    first [ apply id_iff | apply unit_iff | apply boolean_iff | apply number_iff
          | apply bytes_iff | apply text_iff | apply (product_iff _ _ _ IH _ Ho)
          | apply (sum_iff _ _ _ IH _ Ho) | apply (ordered_iff _ _ _ IH _ Ho)
          | apply (unordered_iff _ _ _ IH _ Ho) | apply (sized_iff _ _ _ IH _ Ho)
          | apply union_iff | apply intersection_iff ];
    eauto 10.
Qed.

Lemma layout_iff j l : layout_from_json j = Ok l <-> layout_doc j l.
Proof.
  destruct j; cbn [layout_from_json]; try (split; [discriminate|inversion 1]).
  - split; [intros [= <-]; constructor|now inversion 1].
  - rewrite object_iff by reflexivity. split; [now constructor|now inversion 1].
Qed.
End Layouts.

(** ** Outcomes *)

Definition fine {A} (r : outcome abs_error A) : Prop := (exists a, r = Ok a) \/ (exists e, r = Err e).

Lemma fine_ok {A} (a : A) : fine (Ok a). Proof. left; eauto. Qed.
Lemma fine_err {A} e : fine (@Err abs_error A e). Proof. right; eauto. Qed.

Lemma fine_bind {A B} (m : outcome abs_error A) (k : A -> outcome abs_error B) :
  fine m -> (forall a, fine (k a)) -> fine (bind m k).
Proof. intros [[a ->]|[e ->]] H; cbn; [apply H|apply fine_err]. Qed.

Lemma fine_traverse {A B} (f : A -> outcome abs_error B) l : (forall a, In a l -> fine (f a)) -> fine (traverse f l).
Proof.
  induction l as [|a l IH]; intros H; cbn [traverse]; [apply fine_ok|].
  apply fine_bind; [apply H; now left|]. intros b. apply fine_bind; [apply IH; intros; apply H; now right|].
  intros; apply fine_ok.
Qed.

Lemma fine_unique o k : fine (get_unique o k).
Proof. unfold get_unique. destruct (entries_of k o 0) as [|? [|? ?]]; first [apply fine_ok|apply fine_err]. Qed.

Lemma unique_In o k i j : get_unique o k = Ok (Some (i, j)) -> In (k, j) o.
Proof. intros H. pose proof (get_unique_spec o k) as G. rewrite H in G. now destruct G as (_ & I & _). Qed.

Definition sound {A} (m : entries A) : Prop := forall u, fine (m u).

Lemma sound_bind {A B} (m : entries A) (k : A -> entries B) : sound m -> (forall a, sound (k a)) -> sound (e_bind m k).
Proof. intros Hm Hk u. apply fine_bind; [apply Hm|]. intros r. apply Hk. Qed.

Lemma sound_ret {A} (a : A) : sound (e_ret a).
Proof. intros u. apply fine_ok. Qed.

Lemma sound_get {T} o k (parse : json -> outcome abs_error T) :
  (forall j, In (k, j) o -> fine (parse j)) -> sound (get_entry o k parse).
Proof.
  intros H u. unfold get_entry. destruct (fine_unique o k) as [[[[i j]|] E]|[e E]]; rewrite E; cbn;
    try first [apply fine_ok|apply fine_err].
  apply unique_In in E. apply fine_bind; [auto|]. intros; apply fine_ok.
Qed.

Lemma sound_get_or {T} o k (parse : json -> outcome abs_error T) d :
  (forall j, In (k, j) o -> fine (parse j)) -> sound (get_entry_or o k parse d).
Proof. intros H. apply sound_bind; [now apply sound_get|]. intros; apply sound_ret. Qed.

Lemma sound_require {T} o k (parse : json -> outcome abs_error T) :
  (forall j, In (k, j) o -> fine (parse j)) -> sound (require_entry o k parse).
Proof.
  intros H u. unfold require_entry. destruct (fine_unique o k) as [[[[i j]|] E]|[e E]]; rewrite E; cbn;
    try first [apply fine_ok|apply fine_err].
  apply unique_In in E. apply fine_bind; [auto|]. intros; apply fine_ok.
Qed.

Lemma fine_type o : fine (require_type o).
Proof.
  unfold require_type. apply fine_bind; [apply fine_unique|]. intros [[i j]|]; [|apply fine_err].
  destruct j; first [apply fine_ok|apply fine_err].
Qed.

Lemma sound_type o ty : sound (check_type o ty).
Proof.
  intros u. apply fine_bind; [apply fine_type|]. intros r.
  destruct (String.eqb _ _); [apply fine_ok|apply fine_err].
Qed.

Lemma fine_with {A} o (m : entries A) : sound m -> fine (with_entries o m).
Proof.
  intros H. apply fine_bind; [apply H|]. intros [a u]. apply fine_bind; [|intros; apply fine_ok]. cbn [snd].
  revert u. induction o as [|[k j] o IH]; intros [|b u]; cbn; try apply fine_ok.
  destruct b; [apply fine_err|apply IH].
Qed.

Lemma fine_string j : fine (from_string j).
Proof. destruct j; first [apply fine_ok|apply fine_err]. Qed.
Lemma fine_bool j : fine (from_bool j).
Proof. destruct j; first [apply fine_ok|apply fine_err]. Qed.

Lemma fine_many {T} (parse : json -> outcome abs_error T) j : (forall j, fine (parse j)) -> fine (one_or_many parse j).
Proof.
  intros H. destruct j; cbn [one_or_many]; try (apply fine_bind; [apply H|intros; apply fine_ok]).
  apply fine_traverse. auto.
Qed.

Lemma fine_map {K V} {CK : Cmp K} (from_str : string -> outcome abs_error K) (parse : json -> outcome abs_error V) j :
  (forall s, fine (from_str s)) -> (forall o k j', j = JObj o -> In (k, j') o -> fine (parse j')) ->
  fine (from_btreemap from_str parse j).
Proof.
  intros HK H. destruct j as [| | | | |o]; cbn [from_btreemap]; try apply fine_err.
  apply fine_bind; [|intros; apply fine_ok]. apply fine_traverse. intros [k j'] I.
  apply fine_bind; [apply HK|]. intros. apply fine_bind; [eapply H; [reflexivity|exact I]|]. intros; apply fine_ok.
Qed.

Lemma fine_vec {T} (parse : json -> outcome abs_error T) j :
  (forall l j', j = JArr l -> In j' l -> fine (parse j')) -> fine (from_vec parse j).
Proof.
  intros H. destruct j; cbn [from_vec]; try apply fine_err. apply fine_traverse. eauto.
Qed.

Lemma fine_option {T} (parse : json -> outcome abs_error T) j : (forall j, fine (parse j)) -> fine (from_option parse j).
Proof.
  intros H. destruct j; cbn [from_option]; try (apply fine_bind; [apply H|intros; apply fine_ok]). apply fine_ok.
Qed.

Section Fine.
Context {TS : TextSyntax}.

Lemma fine_iri_str s : fine (iri_from_str s).
Proof. unfold iri_from_str. destruct (is_iri_ref s); [apply fine_ok|apply fine_err]. Qed.
Lemma fine_iri j : fine (iri_from_json j).
Proof. apply fine_bind; [apply fine_string|apply fine_iri_str]. Qed.
Lemma fine_regexp j : fine (regexp_from_json j).
Proof.
  apply fine_bind; [apply fine_string|]. intros s.
  destruct (RegexpParse.parse_never_panics (chars s)) as [[e ->]|[e ->]]; [apply fine_ok|apply fine_err].
Qed.

Lemma fine_pattern j : fine (pattern_from_json j).
Proof.
  destruct j; cbn [pattern_from_json]; try apply fine_err.
  - destruct (blank_suffix s); [apply fine_ok|]. destruct (is_iri_ref s); [apply fine_ok|apply fine_err].
  - apply fine_with. apply sound_bind; [apply sound_get; intros; apply fine_iri|]. intros ty.
    apply sound_bind.
    + destruct ty; [apply sound_ret|]. apply sound_bind; [apply sound_require; intros; apply fine_string|].
      intros tag u. destruct (is_lang_tag tag); [apply fine_ok|apply fine_err].
    + intros. apply sound_bind; [apply sound_require; intros; apply fine_string|]. intros; apply sound_ret.
Qed.

Lemma fine_quad j : fine (quad_from_json j).
Proof.
  destruct j as [| | | |l|]; cbn [quad_from_json]; try apply fine_err.
  destruct l as [|s [|p [|o g]]]; try apply fine_err.
  destruct g as [|g [|? ?]]; try apply fine_err;
  repeat (apply fine_bind; [apply fine_pattern|intros]); apply fine_ok.
Qed.

Lemma fine_dataset j : fine (dataset_from_json j).
Proof. apply fine_vec. intros; apply fine_quad. Qed.
Lemma fine_graph j : fine (from_option (from_option pattern_from_json) j).
Proof. apply fine_option. intros. apply fine_option, fine_pattern. Qed.

Lemma fine_resource j : fine (resource_from_json j).
Proof.
  destruct j; cbn [resource_from_json]; try first [apply fine_ok|apply fine_err].
  - destruct (has_dot s); [apply fine_err|]. destruct (parse_i64 s); [apply fine_ok|apply fine_err].
  - apply fine_with. apply sound_bind; [apply sound_require; intros; apply fine_string|]. intros.
    apply sound_bind; [apply sound_require; intros; apply fine_iri|]. intros; apply sound_ret.
Qed.

Ltac fine_reader tac :=
  first [ apply fine_string | apply fine_bool | apply fine_iri | apply fine_pattern | apply fine_dataset
        | apply fine_regexp | apply fine_graph
        | apply fine_many; intros; first [apply fine_string|apply fine_pattern]
        | apply fine_map; intros; [first [apply fine_ok|apply fine_iri_str]|first [apply fine_iri|apply fine_resource]]
        | tac ].
Ltac sound_entry tac :=
  first [ apply sound_type
        | apply sound_require; intros; fine_reader tac
        | apply sound_get_or; intros; fine_reader tac
        | apply sound_get; intros; fine_reader tac ].
Ltac sound_tac tac :=
  repeat (apply sound_bind; [sound_entry tac|intros ?]); apply sound_ret.

Lemma sound_header o : sound (header_from o).
Proof. unfold header_from. sound_tac idtac. Qed.

(** The constants of the document are read. *)
Definition calm (j : json) : Prop := forall c, constant_in c j -> exists v, value_from_json c = Ok v.

Lemma calm_entry o k j : calm (JObj o) -> In (k, j) o -> calm j.
Proof. intros H I c (o' & X & C). apply H. exists o'. split; [econstructor; eassumption|assumption]. Qed.
Lemma calm_item l j : calm (JArr l) -> In j l -> calm j.
Proof. intros H I c (o' & X & C). apply H. exists o'. split; [econstructor; eassumption|assumption]. Qed.

Section FineParts.
Context (nested : object -> outcome abs_error alayout) (n : nat).
Context (HN : forall o, json_size (JObj o) <= n -> calm (JObj o) -> fine (nested o)).

Lemma fine_ref j : json_size j <= n -> calm j -> fine (ref_from_json nested j).
Proof.
  intros Hj C. destruct j; cbn [ref_from_json]; try apply fine_err.
  - apply fine_bind; [apply fine_iri_str|intros; apply fine_ok].
  - apply fine_bind; [now apply HN|intros; apply fine_ok].
Qed.

Lemma fine_format d j : json_size j <= n -> calm j -> fine (format_from_json nested d j).
Proof.
  intros Hj C. destruct j as [| | | | |o]; cbn [format_from_json]; try apply fine_err.
  - apply fine_bind; [apply fine_iri_str|intros; apply fine_ok].
  - destruct (contains_key o "type").
    + apply fine_bind; [now apply HN|intros; apply fine_ok].
    + unfold format_from. apply fine_with.
      sound_tac ltac:(idtac; match goal with I : In _ o |- _ => apply fine_ref; [apply size_entry in I; lia|eapply calm_entry; eassumption] end).
Qed.

Ltac fmt := match goal with I : In (_, _) _ |- _ => apply fine_format; [apply size_entry in I; lia|eapply calm_entry; eassumption] end.

Lemma fine_item j : json_size j <= n -> calm j -> fine (item_from_json nested j).
Proof.
  intros Hj C. unfold item_from_json. destruct j; cbn [expect_object bind]; try apply fine_err.
  apply fine_with. sound_tac ltac:(idtac; fmt).
Qed.
Lemma fine_field j : json_size j <= n -> calm j -> fine (field_from_json nested j).
Proof.
  intros Hj C. unfold field_from_json. destruct j; cbn [expect_object bind]; try apply fine_err.
  apply fine_with. sound_tac ltac:(idtac; fmt).
Qed.
Lemma fine_variant j : json_size j <= n -> calm j -> fine (variant_from_json nested j).
Proof.
  intros Hj C. unfold variant_from_json. destruct j; cbn [expect_object bind]; try apply fine_err.
  apply fine_with. sound_tac ltac:(idtac; fmt).
Qed.
Lemma fine_node j : json_size j <= n -> calm j -> fine (node_from_json nested j).
Proof.
  intros Hj C. destruct j as [| | | | |o]; cbn [node_from_json]; try apply fine_err.
  - apply fine_bind; [apply fine_iri_str|intros; apply fine_ok].
  - destruct (contains_key o "type").
    + apply fine_bind; [now apply HN|intros; apply fine_ok].
    + unfold node_from. apply fine_with. sound_tac ltac:(idtac; fmt).
Qed.

Context (o : object) (Ho : json_size (JObj o) <= S n) (Co : calm (JObj o)).

Lemma fine_body : fine (object_body nested o).
Proof.
  unfold object_body. apply fine_bind; [apply fine_type|]. intros [i ty]. cbn [snd].
  repeat match goal with |- fine (if ?b then _ else _) => destruct b end; try apply fine_err;
  apply fine_with;
  repeat (apply sound_bind;
    [first [ apply sound_header | sound_entry ltac:(idtac;
       match goal with I : In (_, ?j) o |- _ =>
         let X := fresh in let Y := fresh in
         pose proof (size_entry _ _ _ I) as X; pose proof (calm_entry _ _ _ Co I) as Y;
         first [ apply fine_node; [lia|assumption] | apply fine_item; [lia|assumption]
               | apply fine_vec; intros ? ? -> I'; apply fine_item; [apply size_item in I'; lia|eapply calm_item; eassumption]
               | apply fine_map; [intros; apply fine_ok|];
                 intros ? ? ? -> I';
                 first [apply fine_field|apply fine_variant]; [apply size_entry in I'; lia|eapply calm_entry; eassumption]
               | destruct (Co j) as [v Hv]; [exists o; split; [constructor|exact I]|];
                 unfold const_from_json; rewrite Hv; apply fine_ok ] end)]
    |intros ?]); apply sound_ret.
Qed.
End FineParts.

Lemma fine_object n : forall o, json_size (JObj o) <= n -> calm (JObj o) -> fine (object_from n o).
Proof.
  induction n as [|n IH]; intros o Ho C; [cbn [json_size] in Ho; lia|].
  cbn [object_from]. eapply fine_body; eassumption.
Qed.

Lemma fine_layout j : calm j -> fine (layout_from_json j).
Proof.
  intros C. destruct j; cbn [layout_from_json]; try first [apply fine_ok|apply fine_err].
  apply fine_object; [reflexivity|assumption].
Qed.
End Fine.
