(** * Numbers and machine numbers (C114) *)

From Coq Require Import String List Bool ZArith QArith Qpower Qcanon Lia.
From Coq.Floats Require Import SpecFloat.
Import ListNotations.
From Verif Require Import Base BaseProofs Orders ValueModel ValueProofs NumberModel NumberSpec NumberProperties JsonModel JsonSpec JsonProperties AbsModel CliModel CborModel CborReadSpec
  FloatModel FloatSpec.
Open Scope Z_scope.

(** ** Powers of two *)
Lemma two_nz : ~ (inject_Z 2 == 0)%Q.
Proof. intro H. discriminate H. Qed.
Lemma pow_nz e : ~ (inject_Z 2 ^ e == 0)%Q.
Proof. apply Qpower_not_0. exact two_nz. Qed.
Lemma pow_Z k : 0 <= k -> (inject_Z 2 ^ k == inject_Z (2 ^ k))%Q.
Proof. intro H. rewrite Zpower_Qpower by exact H. reflexivity. Qed.
Lemma pow_split e k : 0 <= k -> (inject_Z 2 ^ e == inject_Z (2 ^ k) * inject_Z 2 ^ (e - k))%Q.
Proof. intro H. rewrite <- (pow_Z k H), <- Qpower_plus by exact two_nz. replace (k + (e - k)) with e by lia. reflexivity. Qed.

(** The same number with two exponents. *)
Lemma same_number m1 e1 m2 e2 : e1 <= e2 -> (inject_Z m1 * inject_Z 2 ^ e1 == inject_Z m2 * inject_Z 2 ^ e2)%Q -> m1 = m2 * 2 ^ (e2 - e1).
Proof.
  intros LE H. rewrite (pow_split e2 (e2 - e1)) in H by lia. replace (e2 - (e2 - e1)) with e1 in H by lia.
  rewrite Qmult_assoc, <- inject_Z_mult in H. apply Qmult_inj_r in H; [|apply pow_nz]. apply (proj1 (inject_Z_injective _ _)) in H. exact H.
Qed.

(** ** Digits *)
Lemma digits_size m : digits2_pos m = Pos.size m.
Proof. induction m as [m IH|m IH|]; cbn [digits2_pos Pos.size]; congruence. Qed.
Lemma digits_le m k : 0 <= k -> Zpos (digits2_pos m) <= k <-> Zpos m < 2 ^ k.
Proof.
  intro K. rewrite digits_size. pose proof (Pos.size_gt m) as G. pose proof (Pos.size_le m) as LE.
  apply Pos2Z.pos_lt_pos in G. apply Pos2Z.pos_le_pos in LE. rewrite Pos2Z.inj_pow in G, LE. rewrite (Pos2Z.inj_xO m) in LE.
  set (s := Zpos (Pos.size m)) in *. assert (S : 0 < s) by (unfold s; lia). split; intro H.
  - apply Z.lt_le_trans with (1 := G). apply Z.pow_le_mono_r; lia.
  - destruct (Z_le_gt_dec s k) as [L|L]; [exact L|]. exfalso. assert (2 ^ (k + 1) <= 2 ^ s) by (apply Z.pow_le_mono_r; lia).
    rewrite Z.pow_add_r in H0 by lia. lia.
Qed.
Lemma digits_shift m k : Zpos (digits2_pos (m * 2 ^ k)) = Zpos (digits2_pos m) + Zpos k.
Proof.
  rewrite digits_size, (digits_size m). induction k as [|k IH] using Pos.peano_ind.
  - change (2 ^ 1)%positive with 2%positive. rewrite Pos.mul_comm. change (2 * m)%positive with (xO m). cbn [Pos.size]. lia.
  - rewrite Pos.pow_succ_r. replace (m * (2 * 2 ^ k))%positive with (2 * (m * 2 ^ k))%positive by lia.
    change (2 * (m * 2 ^ k))%positive with (xO (m * 2 ^ k)). cbn [Pos.size]. lia.
Qed.
Lemma digits_shift_Z m k m' : 0 <= k -> Zpos m' = Zpos m * 2 ^ k -> Zpos (digits2_pos m') = Zpos (digits2_pos m) + k.
Proof.
  intros K E. destruct k as [|k|k]; [|..].
  - rewrite Z.pow_0_r, Z.mul_1_r in E. injection E as ->. lia.
  - assert (m' = m * 2 ^ k)%positive as -> by (apply Pos2Z.inj; rewrite Pos2Z.inj_mul, Pos2Z.inj_pow; exact E). apply digits_shift.
  - lia.
Qed.

Lemma Some_inj {A} (a b : A) : Some a = Some b -> a = b.
Proof. congruence. Qed.

(** ** Floats *)
Section Format.
Variables prec emax : Z.
Hypothesis PREC : 0 < prec.

Lemma bounded_iff m e : bounded prec emax m e = true <-> Z.max (Zpos (digits2_pos m) + e - prec) (3 - emax - prec) = e /\ e <= emax - prec.
Proof.
  unfold bounded, canonical_mantissa, fexp, emin. rewrite andb_true_iff, Z.leb_le. split; intros [A B]; (split; [|exact B]).
  - now apply Zeq_bool_eq.
  - apply Zeq_is_eq_bool. exact A.
Qed.

(** The numbers of the floats are the representable ones. *)
Lemma float_representable x q : valid_binary prec emax x = true -> rational_from_float x = Some q -> 3 - emax - prec <= emax - prec -> representable prec emax q.
Proof.
  intros V E R. destruct x as [s|s| |s m e]; try discriminate; cbn [rational_from_float] in E; injection E as <-.
  - exists 0, (emax - prec). split; [cbn; lia|]. split; [lia|]. cbn [this Q2Qc]. rewrite Qred_correct. unfold inject_Z at 2. now rewrite Qmult_0_l.
  - cbn [valid_binary] in V. apply bounded_iff in V as [A B]. exists (if s then Zneg m else Zpos m), e. split; [|split; [lia|]].
    + replace (Z.abs (if s then Zneg m else Zpos m)) with (Zpos m) by (now destruct s). apply digits_le; lia.
    + cbn [this Q2Qc]. now rewrite Qred_correct.
Qed.
Lemma representable_float q : representable prec emax q -> exists x, valid_binary prec emax x = true /\ rational_from_float x = Some q.
Proof.
  intros (m & e & A & B & E). destruct (Z.eq_dec m 0) as [->|NZ].
  - exists (S754_zero false). split; [reflexivity|]. cbn [rational_from_float]. f_equal. apply Qc_is_canon. cbn [this Q2Qc]. rewrite Qred_correct, E. unfold inject_Z at 2. now rewrite Qmult_0_l.
  - assert (P : exists p, Z.abs m = Zpos p) by (destruct m; [lia|cbn; eauto|cbn; eauto]). destruct P as [p P]. rewrite P in A. apply digits_le in A; [|lia].
    pose (k := Z.min (prec - Zpos (digits2_pos p)) (e - (3 - emax - prec))). assert (K : 0 <= k) by lia.
    assert (P' : exists p', Zpos p' = Zpos p * 2 ^ k).
    { assert (0 < Zpos p * 2 ^ k) by (apply Z.mul_pos_pos; [lia|apply Z.pow_pos_nonneg; lia]). exists (Z.to_pos (Zpos p * 2 ^ k)). now rewrite Z2Pos.id. }
    destruct P' as [p' P']. exists (S754_finite (m <? 0) p' (e - k)). split.
    + cbn [valid_binary]. apply bounded_iff. rewrite (digits_shift_Z p k p' K P'). lia.
    + cbn [rational_from_float]. f_equal. apply Qc_is_canon. cbn [this Q2Qc]. rewrite Qred_correct, E.
      rewrite (pow_split e k K), Qmult_assoc, <- inject_Z_mult. apply Qmult_comp; [|reflexivity].
      replace (if m <? 0 then Zneg p' else Zpos p') with (m * 2 ^ k); [reflexivity|].
      destruct (Z.ltb_spec m 0) as [L|L]; [rewrite Z.abs_neq in P by lia; rewrite <- Pos2Z.opp_pos, P'; lia|rewrite Z.abs_eq in P by lia; rewrite P', P; reflexivity].
Qed.

(** A float is determined by its number, but for the sign of zero. *)
Lemma float_unique x y q : valid_binary prec emax x = true -> valid_binary prec emax y = true ->
  rational_from_float x = Some q -> rational_from_float y = Some q -> x = y \/ exists s s', x = S754_zero s /\ y = S754_zero s'.
Proof.
  assert (NZ : forall s m e, ~ (inject_Z (if s : bool then Zneg m else Zpos m) * inject_Z 2 ^ e == 0)%Q).
  { intros s m e H. apply Qmult_integral in H as [H|H]; [destruct s; discriminate H|now apply pow_nz in H]. }
  intros V V' E E'. destruct x as [s|s| |s m e], y as [s'|s'| |s' m' e']; try discriminate; cbn [rational_from_float] in E, E'; injection E as <-; [right; eauto|apply Some_inj in E' ..].
  - exfalso. apply Q2Qc_eq_iff in E'. apply (NZ _ _ _ E').
  - exfalso. apply Q2Qc_eq_iff in E'. symmetry in E'. apply (NZ _ _ _ E').
  - left. apply Q2Qc_eq_iff in E'. cbn [valid_binary] in V, V'. apply bounded_iff in V as [A B]. apply bounded_iff in V' as [A' B'].
    assert (SAME : forall s m e s' m' e', e <= e' -> (inject_Z (if s : bool then Zneg m else Zpos m) * inject_Z 2 ^ e == inject_Z (if s' : bool then Zneg m' else Zpos m') * inject_Z 2 ^ e')%Q ->
      s = s' /\ Zpos m = Zpos m' * 2 ^ (e' - e)).
    { clear. intros s m e s' m' e' LE H. apply same_number in H; [|exact LE]. assert (0 < 2 ^ (e' - e)) by (apply Z.pow_pos_nonneg; lia).
      destruct s, s'; split; try reflexivity; try nia. }
    destruct (Z_le_gt_dec e e') as [LE|LE].
    + destruct (SAME _ _ _ _ _ _ LE (Qeq_sym _ _ E')) as [-> M]. pose proof (fun K => digits_shift_Z _ _ _ K M) as DG. specialize (DG ltac:(lia)). assert (e' = e) as -> by lia.
      rewrite Z.sub_diag, Z.pow_0_r, Z.mul_1_r in M. injection M as ->. reflexivity.
    + assert (LE' : e' <= e) by lia. destruct (SAME _ _ _ _ _ _ LE' E') as [-> M]. pose proof (fun K => digits_shift_Z _ _ _ K M) as DG. specialize (DG ltac:(lia)). assert (e' = e) as -> by lia.
      rewrite Z.sub_diag, Z.pow_0_r, Z.mul_1_r in M. injection M as ->. reflexivity.
Qed.
End Format.

Lemma single_double q : representable 24 128 q -> representable 53 1024 q.
Proof. intros (m & e & A & B & E). exists m, e. split; [|split; [lia|exact E]]. apply Z.lt_trans with (1 := A). reflexivity. Qed.
Lemma representable_self prec emax q q' : representable prec emax q -> (this q == this q')%Q -> representable prec emax q'.
Proof. intros (m & e & A & B & E) H. exists m, e. now rewrite <- H. Qed.

(** ** The conversions *)

(** From floats: refused exactly if infinite or not a number; the numbers are exactly those which are representable; two floats have the same number
    only if they are equal, or zero. *)
Theorem C114_from_float (double : bool) (valid := if double then is_f64 else is_f32) (repr := if double then representable 53 1024 else representable 24 128) :
  (forall x, (exists y, number_from_float x = Err y) <-> x = S754_nan \/ exists s, x = S754_infinity s) /\
  (forall q, repr q <-> exists x, valid x /\ number_from_float x = Ok q) /\
  (forall x y q, valid x -> valid y -> number_from_float x = Ok q -> number_from_float y = Ok q -> x = y \/ exists s s', x = S754_zero s /\ y = S754_zero s').
Proof.
  assert (OK : forall x q, number_from_float x = Ok q <-> rational_from_float x = Some q).
  { intros x q. unfold number_from_float. destruct (rational_from_float x); split; congruence. }
  split; [|split].
  - intro x. unfold number_from_float. destruct x as [s|s| |s m e]; cbn [rational_from_float]; split; intros H; eauto; try (destruct H as [y H]; discriminate H);
      destruct H as [H|[s' H]]; discriminate H.
  - intro q. unfold repr, valid. destruct double; (split; [intro H; apply representable_float in H as (x & V & E); [|lia]; exists x; rewrite OK; auto|
      intros (x & V & E); apply OK in E; eapply float_representable; [|exact V|exact E|]; lia]).
  - intros x y q V V' E E'. apply OK in E, E'. unfold valid in *. destruct double; (eapply float_unique; [exact V|exact V'|exact E|exact E']).
Qed.

Lemma Numbers_mono (P P' : Qc -> Prop) : (forall q, P q -> P' q) -> forall v, Numbers P v -> Numbers P' v.
Proof.
  intros H. induction v as [l|m IH|l IH] using value_ind'; intro N; inversion_clear N as [? N'|? N'|? N'|? N'].
  - apply nu_num. auto.
  - now apply nu_lit.
  - apply nu_map. intros k v I. destruct (N' k v I) as [A B]. rewrite Forall_forall in IH. destruct (IH (k, v) I). auto.
  - apply nu_list. intros v I. rewrite Forall_forall in IH. auto.
Qed.

Section Laws.
Variable to_f64 : Qc -> spec_float.
Hypothesis LAWS : to_f64_laws to_f64.

(** A number goes through a double unchanged exactly if it is representable. *)
Theorem C114_exact q : rational_from_float (to_f64 q) = Some q <-> representable 53 1024 q.
Proof.
  split.
  - intro E. eapply float_representable; [|apply (to_f64_valid _ LAWS q)|exact E|]; lia.
  - intro R. apply representable_float in R; [|lia]. now apply (to_f64_exact _ LAWS).
Qed.

(** A double goes through a number unchanged, but for the sign of zero. *)
Theorem C114_back x q : is_f64 x -> number_from_float x = Ok q -> to_f64 q = (match x with S754_zero _ => S754_zero false | _ => x end).
Proof.
  intros V E. assert (E' : rational_from_float x = Some q) by (unfold number_from_float in E; destruct (rational_from_float x); congruence).
  pose proof (to_f64_exact _ LAWS q (ex_intro _ x (conj V E'))) as T.
  destruct (float_unique 53 1024 (to_f64 q) x q (to_f64_valid _ LAWS q) V T E') as [EQ|(s & s' & A & ->)].
  - destruct x as [s| | |]; try exact EQ. cbn [rational_from_float] in E'. apply Some_inj in E'. subst q. apply (to_f64_zero _ LAWS).
  - cbn [rational_from_float] in E'. apply Some_inj in E'. subst q. apply (to_f64_zero _ LAWS).
Qed.

Lemma power_representable (q : Qc) : q = Q2Qc (inject_Z (- 2 ^ 63)) -> representable 53 1024 q.
Proof. intros ->. exists (-1), 63. split; [reflexivity|]. split; [lia|]. vm_compute. reflexivity. Qed.

(** The numbers of serde: the machine numbers, but zero. *)
Theorem C114_native q : q <> Q2Qc (inject_Z 0) -> machine_number q -> native_exact to_f64 rational_from_float q.
Proof.
  intros NZ M. split; [exact NZ|].
  assert (FL : forall x, number_from_float x = Ok q -> rational_from_float x = Some q) by (intros x E; unfold number_from_float in E; destruct (rational_from_float x); congruence).
  destruct M as [n R E|x V E|x V E].
  - destruct (Z.eq_dec n (- 2 ^ 63)) as [->|N]; [right; apply C114_exact; now apply power_representable|]. left. exists n. split; [unfold machine_integer in R; lia|exact E].
  - right. apply C114_exact, single_double. eapply float_representable; [|exact V|apply FL; exact E|]; lia.
  - right. apply C114_exact. eapply float_representable; [|exact V|apply FL; exact E|]; lia.
Qed.

(** In CBOR, the integers among them must fit in 64 bits. *)
Theorem C114_cbor_partial q : q <> Q2Qc (inject_Z 0) -> machine_number q ->
  (forall n, q = Q2Qc (inject_Z n) -> machine_integer n) -> cbor_exact rational_from_float to_f64 q.
Proof.
  intros NZ M F. assert (DEC : (exists n, q = Q2Qc (inject_Z n)) \/ forall n, q <> Q2Qc (inject_Z n)).
  { destruct (Pos.eq_dec (Qden (this q)) 1) as [D|D].
    - left. exists (Qnum (this q)). apply Qc_is_canon. cbn [this Q2Qc]. rewrite Qred_correct. destruct q as [[a b] C]. cbn in *. subst b. reflexivity.
    - right. intros n ->. apply D. cbn [this Q2Qc]. unfold inject_Z. rewrite (Qred_identity (n # 1)); [reflexivity|]. cbn. now rewrite Z.gcd_1_r. }
  destruct DEC as [[n E]|NI].
  - left. exists n. split; [intros ->; contradiction|]. split; [exact (F n E)|exact E].
  - right. split; [exact NI|]. destruct (C114_native q NZ M) as [_ [(n & _ & E)|E]]; [now elim (NI n)|exact E].
Qed.

(** A value whose numbers are representable, or integers of 64 bits, and not zero, goes through serde unchanged. *)
Theorem C114_serde_partial v : value_wf v ->
  Numbers (fun q => q <> Q2Qc (inject_Z 0) /\ ((exists n, machine_integer n /\ q = number_from_integer n) \/ representable 53 1024 q)) v ->
  exists s, value_serialize to_f64 v = Ok s /\ value_deserialize rational_from_float s = Ok v.
Proof.
  intros W N. apply C68_serde_round_trip_partial; [exact W|]. clear W. revert N. apply Numbers_mono. intros q (NZ & [(n & R & E)|R]).
  - apply C114_native; [exact NZ|]. now apply (mn_integer q n).
  - split; [exact NZ|]. right. now apply C114_exact.
Qed.
End Laws.
