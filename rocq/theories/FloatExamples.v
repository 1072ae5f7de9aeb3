(** * Numbers and machine numbers: cases, refutations and assumptions (C114) *)

From Coq Require Import String List Bool ZArith QArith Qpower Qcanon Lia.
From Coq.Floats Require Import SpecFloat.
Import ListNotations.
From Verif Require Import Base BaseProofs Orders ValueModel NumberModel NumberProperties JsonModel JsonSpec JsonProperties CborReadSpec FloatModel FloatSpec FloatProperties.
Open Scope list_scope.
Open Scope Z_scope.

(** ** A conversion with these laws: the double that has the number, if any *)
Definition float_at (q : Qc) (e : Z) : spec_float :=
  match Qnum (Qred (this q * inject_Z 2 ^ (- e))) with
  | Z0 => S754_zero false
  | Zpos m => S754_finite false m e
  | Zneg m => S754_finite true m e
  end.
Definition exponents : list Z := map (fun i => Z.of_nat i - 1074) (seq 0 (Z.to_nat 2046)).
Definition is_float_of (q : Qc) (x : spec_float) : bool :=
  valid_binary 53 1024 x && match rational_from_float x with Some q' => Qc_eq_bool q' q | None => false end.
Definition float_in (es : list Z) (q : Qc) : spec_float :=
  match find (is_float_of q) (S754_zero false :: map (float_at q) es) with
  | Some x => x
  | None => S754_infinity false
  end.
Definition float_of : Qc -> spec_float := float_in exponents.

Lemma Qc_eq_bool_iff a b : Qc_eq_bool a b = true <-> a = b.
Proof. split; [apply Qc_eq_bool_correct|]. intros ->. unfold Qc_eq_bool. destruct (Qc_eq_dec b b); [reflexivity|contradiction]. Qed.
Lemma is_float_iff q x : is_float_of q x = true <-> is_f64 x /\ rational_from_float x = Some q.
Proof.
  unfold is_float_of, is_f64. rewrite andb_true_iff. destruct (rational_from_float x) as [q'|]; [|split; intros [_ H]; discriminate H].
  rewrite Qc_eq_bool_iff. split; intros [A B]; (split; [exact A|]); congruence.
Qed.
Lemma float_at_finite q s m e : rational_from_float (S754_finite s m e) = Some q -> float_at q e = S754_finite s m e.
Proof.
  intro E. cbn [rational_from_float] in E. apply Some_inj in E. unfold float_at.
  assert (K : (this q * inject_Z 2 ^ (- e) == inject_Z (if s then Zneg m else Zpos m))%Q).
  { rewrite <- E. cbn [this Q2Qc]. rewrite Qred_correct, <- Qmult_assoc, <- Qpower_plus by exact two_nz. rewrite Z.add_opp_diag_r. cbn [Qpower]. apply Qmult_1_r. }
  rewrite (Qred_complete _ _ K). unfold inject_Z. rewrite Qred_identity by (cbn; now rewrite Z.gcd_1_r). cbn [Qnum]. now destruct s.
Qed.
Lemma exponents_all e : -1074 <= e <= 971 -> In e exponents.
Proof. intro K. unfold exponents. apply in_map_iff. exists (Z.to_nat (e + 1074)). split; [lia|]. apply in_seq. lia. Qed.
Lemma float_in_laws es : (forall e, -1074 <= e <= 971 -> In e es) -> to_f64_laws (float_in es).
Proof.
  intro ALL.
  assert (F : forall q, (exists x, find (is_float_of q) (S754_zero false :: map (float_at q) es) = Some x /\ float_in es q = x /\ is_f64 x /\ rational_from_float x = Some q) \/
    (find (is_float_of q) (S754_zero false :: map (float_at q) es) = None /\ float_in es q = S754_infinity false)).
  { intro q. unfold float_in. destruct (find _ _) as [x|] eqn:E; [|now right]. left. exists x. pose proof (find_some _ _ E) as [_ T]. apply is_float_iff in T. tauto. }
  constructor.
  - intro q. destruct (F q) as [(x & _ & -> & V & _)|[_ ->]]; [exact V|reflexivity].
  - intros q K. destruct (F q) as [(x & _ & E & _ & R)|[_ E]]; rewrite E in K; [subst x; discriminate R|discriminate K].
  - intros q (x & V & R). destruct (F q) as [(y & _ & -> & _ & R')|[N _]]; [exact R'|]. exfalso.
    assert (I : In x (S754_zero false :: map (float_at q) es) \/ rational_from_float (S754_zero false) = Some q).
    { destruct x as [s|s| |s m e]; try discriminate R; [now right|]. left. right. apply in_map_iff. exists e. split; [now apply float_at_finite|].
      unfold is_f64 in V. cbn [valid_binary] in V. apply bounded_iff in V as [A B]. apply ALL.
      lia. }
    destruct I as [I|Z0].
    + pose proof (find_none _ _ N x I) as T. rewrite (proj2 (is_float_iff q x) (conj V R)) in T. discriminate T.
    + pose proof (find_none _ _ N (S754_zero false) (or_introl eq_refl)) as T. rewrite (proj2 (is_float_iff q (S754_zero false)) (conj (eq_refl : is_f64 (S754_zero false)) Z0)) in T. discriminate T.
  - unfold float_in. cbn [find]. rewrite (proj2 (is_float_iff (Q2Qc (inject_Z 0)) (S754_zero false)) (conj (eq_refl : is_f64 (S754_zero false)) eq_refl)). reflexivity.
Qed.
Lemma float_of_laws : to_f64_laws float_of.
Proof. exact (float_in_laws exponents exponents_all). Qed.

(** ** Cases *)
Definition three_quarters : Qc := Q2Qc (3 # 4).
Example three_quarters_float : representable 53 1024 three_quarters /\ rational_from_float (float_of three_quarters) = Some three_quarters.
Proof.
  assert (R : representable 53 1024 three_quarters) by (exists 3, (-2); split; [reflexivity|]; split; [lia|]; reflexivity).
  split; [exact R|]. apply (C114_exact float_of float_of_laws). exact R.
Qed.
Definition half_f32 : spec_float := S754_finite false (2 ^ 23)%positive (-24).
Example half_machine : is_f32 half_f32 /\ number_from_float half_f32 = Ok (Q2Qc (1 # 2)) /\ machine_number (Q2Qc (1 # 2)) /\ native_exact float_of rational_from_float (Q2Qc (1 # 2)).
Proof.
  assert (V : is_f32 half_f32) by (vm_compute; reflexivity). assert (E : number_from_float half_f32 = Ok (Q2Qc (1 # 2))).
  { unfold number_from_float, half_f32. cbn [rational_from_float]. f_equal. apply Qc_is_canon. reflexivity. }
  assert (M : machine_number (Q2Qc (1 # 2))) by (now apply (mn_f32 _ half_f32)). split; [exact V|]. split; [exact E|]. split; [exact M|].
  apply (C114_native float_of float_of_laws); [discriminate|exact M].
Qed.
Example numbers_survive : exists s,
  value_serialize float_of (VList [VLit (LNum three_quarters); VLit (LNum (number_from_integer (- 2 ^ 63))); VLit (LNum (number_from_integer (2 ^ 53 + 1)))]) = Ok s /\
  value_deserialize rational_from_float s = Ok (VList [VLit (LNum three_quarters); VLit (LNum (number_from_integer (- 2 ^ 63))); VLit (LNum (number_from_integer (2 ^ 53 + 1)))]).
Proof.
  apply (C114_serde_partial float_of float_of_laws).
  - constructor. intros v [<-|[<-|[<-|[]]]]; constructor.
  - apply nu_list. intros v [<-|[<-|[<-|[]]]]; apply nu_num; (split; [discriminate|]).
    + right. apply three_quarters_float.
    + left. exists (- 2 ^ 63). split; [unfold machine_integer; lia|reflexivity].
    + left. exists (2 ^ 53 + 1). split; [unfold machine_integer; lia|reflexivity].
Qed.

(** ** Refutations *)

(** Numbers are not all floats: a decimal as short as [0.1] does not go through a double, whatever the rounding. *)
Lemma power_mod_5 k : 0 <= k -> 2 ^ k mod 5 <> 0.
Proof.
  intros K H. enough (X : 2 ^ k mod 5 = 1 \/ 2 ^ k mod 5 = 2 \/ 2 ^ k mod 5 = 3 \/ 2 ^ k mod 5 = 4) by lia. clear H. revert k K. apply natlike_ind; [left; reflexivity|].
  intros k K IH. rewrite Z.pow_succ_r by exact K. rewrite Z.mul_mod by lia. destruct IH as [-> |[-> |[-> | ->]]]; cbn; auto.
Qed.
Theorem C114_decimal_refuted : ~ representable 53 1024 (Q2Qc (1 # 10)) /\
  forall to_f64, to_f64_laws to_f64 -> rational_from_float (to_f64 (Q2Qc (1 # 10))) <> Some (Q2Qc (1 # 10)).
Proof.
  assert (N : ~ representable 53 1024 (Q2Qc (1 # 10))).
  { intros (m & e & A & B & E). assert (K : (inject_Z 1 * inject_Z 2 ^ 0 == inject_Z (10 * m) * inject_Z 2 ^ e)%Q).
    { rewrite inject_Z_mult, <- Qmult_assoc, <- E. reflexivity. }
    destruct (Z_le_gt_dec e 0) as [L|L].
    - symmetry in K. apply same_number in K; [|exact L]. apply (power_mod_5 (0 - e)); [lia|]. rewrite Z.mul_1_l in K. rewrite <- K.
      replace (10 * m) with (2 * m * 5) by lia. apply Z.mod_mul. lia.
    - apply same_number in K; [|lia]. lia. }
  split; [exact N|]. intros to_f64 L E. apply N. now apply (C114_exact to_f64 L).
Qed.

(** The number zero panics when it is written. *)
Theorem C114_zero_refuted : machine_number (Q2Qc (inject_Z 0)) /\
  forall (to_f64 : Qc -> spec_float), exists w, value_serialize to_f64 (VLit (LNum (number_from_integer 0))) = Panic w.
Proof.
  split; [apply (mn_integer _ 0); [unfold machine_integer; lia|reflexivity]|]. intro to_f64. eexists. vm_compute. reflexivity.
Qed.

(** In CBOR, a double which is an integer out of 64 bits is written as a big number, which is not read back. *)
Theorem C114_cbor_refuted : exists q, machine_number q /\ q <> Q2Qc (inject_Z 0) /\ forall to_f64, to_f64_laws to_f64 -> ~ cbor_exact rational_from_float to_f64 q.
Proof.
  exists (Q2Qc (inject_Z (2 ^ 70))). split; [|split; [discriminate|]].
  - apply (mn_f64 _ (S754_finite false (2 ^ 52)%positive 18)); [vm_compute; reflexivity|]. unfold number_from_float. cbn [rational_from_float]. f_equal.
  - intros to_f64 L [(n & _ & R & E)|[N _]]; [|now elim (N (2 ^ 70))]. assert (E70 : 2 ^ 70 = n) by (apply inject_Z_injective; now apply Q2Qc_eq_iff). rewrite <- E70 in R. lia.
Qed.

Print Assumptions C114_from_float.
Print Assumptions C114_exact.
Print Assumptions C114_back.
Print Assumptions C114_native.
Print Assumptions C114_cbor_partial.
Print Assumptions C114_serde_partial.
Print Assumptions C114_decimal_refuted.
Print Assumptions C114_zero_refuted.
Print Assumptions C114_cbor_refuted.
