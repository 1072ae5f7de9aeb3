(** * Reading what is written in CBOR: proofs *)

From Coq Require Import String List Bool Arith NArith ZArith QArith Qcanon Permutation Sorted Lia.
Import ListNotations.
From Verif Require Import Base BaseProofs Orders ValueModel ValueProofs PatternModel HydrateModel NumberModel NumberSpec NumberProofs NumberProperties JsonModel JsonSpec JsonProperties
  CborModel CborSpec CborProperties AbsMeaning CliSpec CborReadModel CborReadSpec.
Open Scope list_scope.
Open Scope nat_scope.

(** ** Maps *)
Section Collect.
Context {K : Type} `{CmpLaws K} {V : Type}.

Lemma bt_insert_new (m : list (K * V)) k v : ~ In k (map fst m) -> Permutation (bt_insert k v m) ((k, v) :: m).
Proof.
  induction m as [|[k' v'] m IH]; cbn [bt_insert map fst In]; intros N; [reflexivity|].
  destruct (cmp k k') eqn:E.
  - apply cmp_eq in E. subst. elim N. now left.
  - reflexivity.
  - rewrite IH by tauto. apply perm_swap.
Qed.
Lemma bt_collect_perm (m : list (K * V)) : NoDup (map fst m) -> Permutation (bt_collect m) m.
Proof.
  unfold bt_collect. intros ND.
  assert (X : forall acc, (forall k, In k (map fst m) -> ~ In k (map fst acc)) ->
    Permutation (fold_left (fun m kv => bt_insert (fst kv) (snd kv) m) m acc) (m ++ acc)).
  { induction m as [|[k v] m IH]; intros acc D; cbn [fold_left app]; [reflexivity|].
    cbn [map fst] in ND. inversion ND as [|? ? N ND']; subst. cbn [fst snd].
    assert (Pi := bt_insert_new acc k v (D k (or_introl eq_refl))).
    rewrite IH.
    - rewrite Pi. symmetry. apply Permutation_middle.
    - exact ND'.
    - intros k' Hk Ha. apply (Permutation_in _ (Permutation_map fst Pi)) in Ha. cbn [map fst In] in Ha.
      destruct Ha as [->|Ha]; [contradiction|]. apply (D k'); [now right|exact Ha]. }
  rewrite X; [now rewrite app_nil_r|]. intros k _ [].
Qed.
Lemma bt_collect_of_perm (l m : list (K * V)) : Permutation l m -> StronglySorted lt (map fst m) -> bt_collect l = m.
Proof.
  intros P S. assert (ND : NoDup (map fst m)) by now apply sorted_lt_NoDup.
  assert (NL : NoDup (map fst l)) by (eapply Permutation_NoDup; [apply Permutation_sym, Permutation_map; exact P|exact ND]).
  assert (Q : Permutation (bt_collect l) m) by (rewrite (bt_collect_perm _ NL); exact P).
  apply bt_ext; [apply bt_collect_wf|exact S|]. intro k.
  destruct (bt_get k m) as [v|] eqn:G.
  - apply bt_get_In in G. apply bt_get_wf; [apply bt_collect_wf|]. eapply Permutation_in; [apply Permutation_sym|]; eassumption.
  - apply bt_get_None in G. apply bt_get_None. intro I. apply G. unfold keys in *. eapply Permutation_in; [apply Permutation_map|]; eassumption.
Qed.
End Collect.

Lemma Forall2_perm_r {A B} (P : A -> B -> Prop) l l1 l2 : Forall2 P l l1 -> Permutation l1 l2 ->
  exists l', Permutation l l' /\ Forall2 P l' l2.
Proof.
  intros F Pm. revert l F. induction Pm as [|x l1 l2 Pm IH|x y l1|l1 l2 l3 P1 IH1 P2 IH2]; intros l F.
  - inversion F; subst. exists []. split; constructor.
  - inversion F as [|a ? l0 ? Ha F0]; subst. destruct (IH _ F0) as (l' & Q & G). exists (a :: l'). split; [now constructor|now constructor].
  - inversion F as [|a ? l0 ? Ha F0]; subst. inversion F0 as [|b ? l00 ? Hb F00]; subst.
    exists (b :: a :: l00). split; [apply perm_swap|]. repeat constructor; assumption.
  - destruct (IH1 _ F) as (l' & Q & G). destruct (IH2 _ G) as (l'' & Q' & G'). exists l''. split; [now transitivity l'|exact G'].
Qed.
Lemma list_max_perm l l' : Permutation l l' -> list_max l = list_max l'.
Proof.
  induction 1 as [|x l l' _ IH|x y l|l1 l2 l3 _ IH1 _ IH2]; [reflexivity| | |congruence]; unfold list_max in *; cbn [fold_right].
  - now rewrite IH.
  - lia.
Qed.

(** ** Items *)
Section Read.
Context {CC : Cmp cbor} {CL : CmpLaws cbor} {F : Type}.
Variables (from_f64 : F -> option Qc) (to_f64 : Qc -> F).
Notation read := (cbor_read to_f64).
Notation fits := (cbor_exact from_f64 to_f64).

(** [c] is read as [v]. *)
Definition reads (v : value) (c : cbor) : Prop :=
  exists s, read c = Ok s /\ value_deserialize from_f64 s = Ok v /\ serde_depth s = value_depth v.

Lemma read_result c : (exists s, read c = Ok s) \/ read c = Err tt.
Proof.
  revert c. fix IH 1. intros [|b|z|q|s|s|l|m|t c]; cbn [cbor_read]; eauto.
  - destruct (0 <=? z)%Z; destruct (_ : bool); eauto.
  - assert (X : (exists l', traverse read l = Ok l') \/ traverse read l = Err tt).
    { induction l as [|c l IHl]; cbn [traverse]; [eauto|].
      destruct (IH c) as [(s & ->)| ->]; cbn [bind]; [|auto]. destruct IHl as [(l' & ->)| ->]; cbn [bind]; eauto. }
    destruct X as [(l' & ->)| ->]; cbn [bind]; eauto.
  - assert (X : let f := fun kv : cbor * cbor => let* k := read (fst kv) in let* v := read (snd kv) in Ok (k, v) in
                (exists l', traverse f m = Ok l') \/ traverse f m = Err tt).
    { cbn zeta. induction m as [|[k v] m IHm]; cbn [traverse fst snd]; [eauto|].
      destruct (IH k) as [(s & ->)| ->]; cbn [bind]; [|auto]. destruct (IH v) as [(s' & ->)| ->]; cbn [bind]; [|auto].
      destruct IHm as [(l' & ->)| ->]; cbn [bind]; eauto. }
    cbn zeta in X. destruct X as [(l' & ->)| ->]; cbn [bind]; eauto.
Qed.

Lemma number_read q : fits q -> exists c, number_to_cbor q = Ok c /\ reads (VLit (LNum q)) c.
Proof.
  intros [(n & NZ & R & ->)|[NI FE]].
  - exists (CInt n). split; [apply number_to_cbor_small; lia|]. unfold reads. cbn [cbor_read].
    destruct (Z.leb_spec 0 n).
    + rewrite (proj2 (Z.ltb_lt n (2 ^ 64)) ltac:(lia)). eexists. split; [reflexivity|]. split; reflexivity.
    + rewrite (proj2 (Z.leb_le (- 2 ^ 63) n) ltac:(lia)). eexists. split; [reflexivity|]. split; reflexivity.
  - exists (CFloat q). split.
    + unfold number_to_cbor, as_integer. destruct (is_integer q) eqn:E; [|reflexivity]. exfalso. apply (NI (numer q)).
      unfold is_integer in E. apply Z.eqb_eq in E. now apply fraction_integer.
    + eexists. split; [reflexivity|]. split; [|reflexivity]. cbn [value_deserialize]. now rewrite FE.
Qed.

Lemma values_read v : value_wf v -> Numbers fits v -> exists c, value_to_cbor v = Ok c /\ reads v c.
Proof.
  intros W N. induction v as [l|m IH|l IH] using value_ind'.
  - destruct l; try (eexists; split; [reflexivity|]; eexists; split; [reflexivity|]; split; reflexivity).
    inversion_clear N as [? N'|? N'| |]; [|now destruct (N' n)]. now apply number_read.
  - inversion_clear W as [|? S W'|]. inversion_clear N as [| |? N'|].
    assert (X : exists m', Forall2 (fun e e' => (value_to_cbor (fst e) = Ok (fst e') /\ value_to_cbor (snd e) = Ok (snd e')) /\
                                      reads (fst e) (fst e') /\ reads (snd e) (snd e')) m m').
    { clear S. induction IH as [|[k v] m [Hk Hv] Hm IHm]; [exists []; constructor|].
      cbn [fst snd] in Hk, Hv. destruct (W' k v (or_introl eq_refl)) as [Wk Wv].
      destruct (N' k v (or_introl eq_refl)) as [Nk Nv].
      destruct (Hk Wk Nk) as (ck & K1 & K2). destruct (Hv Wv Nv) as (cv & V1 & V2).
      destruct IHm as (m' & F'); [intros; apply W'; now right|intros; apply N'; now right|].
      exists ((ck, cv) :: m'). constructor; [cbn [fst snd]; auto|exact F']. }
    destruct X as (m' & F2).
    assert (ND : NoDup (map fst m)) by now apply sorted_lt_NoDup.
    assert (ND' : NoDup (map fst m')).
    { clear - F2 ND. induction F2 as [|[k v] [ck cv] m m' [_ [Rk _]] F2 IH]; cbn [map fst] in *; [constructor|].
      inversion ND as [|? ? NI ND0]; subst. constructor; [|now apply IH].
      intro I. apply NI. apply in_map_iff in I as ([ck' cv'] & E & I). cbn [fst] in E. subst ck'.
      destruct (AbsProofs.Forall2_In_r _ _ _ _ F2 I) as ([k' v'] & I' & _ & Rk' & _). cbn [fst] in *.
      destruct Rk as (s & A & B & _), Rk' as (s' & A' & B' & _). assert (k' = k) by congruence. subst. apply in_map_iff. now exists (k, v'). }
    exists (CMap (bt_collect m')). split.
    + cbn [value_to_cbor].
      rewrite (proj2 (traverse_Ok _ m m')); [reflexivity|].
      eapply AbsMeaning.Forall2_impl; [|exact F2]. cbv beta. cbn [fst snd]. intros [k v] [ck cv] [[E1 E2] _]. cbn [fst snd] in *. now rewrite E1, E2.
    + destruct (Forall2_perm_r _ _ _ _ F2 (Permutation_sym (bt_collect_perm m' ND'))) as (m2 & P2 & F3).
      assert (X : exists l, traverse (fun kv => let* k := read (fst kv) in let* v := read (snd kv) in Ok (k, v)) (bt_collect m') = Ok l /\
                    traverse (fun kv => let* k := value_deserialize from_f64 (fst kv) in
                                        let* v := value_deserialize from_f64 (snd kv) in Ok (k, v)) l = Ok m2 /\
                    map (fun e => Nat.max (serde_depth (fst e)) (serde_depth (snd e))) l =
                    map (fun e => Nat.max (value_depth (fst e)) (value_depth (snd e))) m2).
      { clear - F3. induction F3 as [|[k v] [ck cv] m2 mc [_ [Rk Rv]] _ (l & L1 & L2 & L3)]; [exists []; repeat split|].
        cbn [fst snd] in *. destruct Rk as (sk & A & B & C), Rv as (sv & A' & B' & C').
        exists ((sk, sv) :: l). cbn [traverse fst snd map]. rewrite A. cbn [bind]. rewrite A'. cbn [bind]. rewrite L1, B. cbn [bind].
        rewrite B'. cbn [bind]. rewrite L2, L3, C, C'. repeat split. }
      destruct X as (l & L1 & L2 & L3). exists (SMap l). cbn [cbor_read value_deserialize serde_depth value_depth]. rewrite L1, L2, L3. cbn [bind].
      split; [reflexivity|]. split.
      * now rewrite (bt_collect_of_perm m2 m (Permutation_sym P2) S).
      * f_equal. apply list_max_perm, Permutation_map. now apply Permutation_sym.
  - inversion_clear W as [| |? W']. inversion_clear N as [| | |? N'].
    assert (X : exists l', traverse value_to_cbor l = Ok l' /\ Forall2 reads l l').
    { induction IH as [|v l Hv Hl IHl]; [exists []; split; [reflexivity|constructor]|].
      destruct (Hv (W' v (or_introl eq_refl)) (N' v (or_introl eq_refl))) as (c & C1 & C2).
      destruct IHl as (l' & L1 & L2); [intros; apply W'; now right|intros; apply N'; now right|].
      exists (c :: l'). cbn [traverse]. rewrite C1. cbn [bind]. rewrite L1. split; [reflexivity|now constructor]. }
    destruct X as (l' & L1 & L2). exists (CArray l'). cbn [value_to_cbor]. rewrite L1. split; [reflexivity|].
    assert (X : exists ss, traverse read l' = Ok ss /\ traverse (value_deserialize from_f64) ss = Ok l /\
                  map serde_depth ss = map value_depth l).
    { clear - L2. induction L2 as [|v c l l' (s & A & B & C) _ (ss & S1 & S2 & S3)]; [exists []; repeat split|].
      exists (s :: ss). cbn [traverse map]. rewrite A. cbn [bind]. rewrite S1, B. cbn [bind]. rewrite S2, S3, C. repeat split. }
    destruct X as (ss & S1 & S2 & S3). exists (SSeq ss). cbn [cbor_read value_deserialize serde_depth value_depth]. rewrite S1, S2, S3. repeat split.
Qed.
End Read.
