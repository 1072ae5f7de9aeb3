(** * Numbers: lemmas *)

From Coq Require Import String Ascii List Bool Arith NArith ZArith QArith Qcanon Lia.
From Coq Require Decimal DecimalString DecimalPos DecimalZ.
Import ListNotations.
From Verif Require Import Base TermModel NumberModel NumberSpec.
Open Scope list_scope.
Local Open Scope Z_scope.

Lemma append_nil_r s : (s ++ "" = s)%string.
Proof. induction s; cbn; congruence. Qed.

Lemma append_assoc a b c : ((a ++ b) ++ c = a ++ (b ++ c))%string.
Proof. induction a; cbn; congruence. Qed.

(** ** Digits *)

Lemma value_app_one ds d : digits_value (ds ++ [d]) = 10 * digits_value ds + Z.of_nat d.
Proof.
  unfold digits_value. rewrite rev_app_distr. cbn [rev app digits_value_rev]. lia.
Qed.

Lemma value_app ds es :
  digits_value (ds ++ es) = digits_value ds * 10 ^ Z.of_nat (length es) + digits_value es.
Proof.
  induction es as [|e es IH] using rev_ind.
  - rewrite app_nil_r. cbn. lia.
  - rewrite app_assoc, !value_app_one, IH, app_length. cbn [length].
    replace (Z.of_nat (length es + 1)) with (Z.of_nat (length es) + 1) by lia.
    rewrite Z.pow_add_r, Z.pow_1_r by lia. ring.
Qed.

Lemma value_nonneg ds : 0 <= digits_value ds.
Proof. unfold digits_value. induction (rev ds); cbn [digits_value_rev]; lia. Qed.

Lemma value_zeros ds : Forall (fun d => d = 0)%nat ds -> digits_value ds = 0.
Proof.
  intros H. induction ds as [|d ds IH] using rev_ind; [reflexivity|].
  rewrite value_app_one. apply Forall_app in H as [H1 H2]. inversion_clear H2. rewrite IH by assumption. lia.
Qed.

Lemma fold_value (ds : list nat) v :
  fold_left (fun v d => 10 * v + d) (map Z.of_nat ds) v = v * 10 ^ Z.of_nat (length ds) + digits_value ds.
Proof.
  revert v. induction ds as [|d ds IH]; intros v.
  - cbn. lia.
  - cbn [map fold_left]. rewrite IH. change (d :: ds) with ([d] ++ ds). rewrite value_app, app_length.
    cbn [length]. replace (Z.of_nat (1 + length ds)) with (1 + Z.of_nat (length ds)) by lia.
    rewrite Z.pow_add_r, Z.pow_1_r by lia. change (digits_value [d]) with (Z.of_nat d + 10 * 0). ring.
Qed.

Lemma number_of_digits ds : number_of (map Z.of_nat ds) = digits_value ds.
Proof. unfold number_of. rewrite fold_value. lia. Qed.

Lemma text_app ds es : digits_text (ds ++ es) = (digits_text ds ++ digits_text es)%string.
Proof. induction ds; cbn; congruence. Qed.

Lemma digit_char_facts d : (d < 10)%nat -> is_digit (digit_char d) = true /\ digit_of (digit_char d) = Z.of_nat d.
Proof.
  intros H. do 10 (destruct d as [|d]; [split; reflexivity|]). lia.
Qed.

Definition no_digit (s : string) : Prop := match s with String c _ => is_digit c = false | _ => True end.

Lemma span_text ds s : digits ds -> no_digit s ->
  span_digits (digits_text ds ++ s) = (map Z.of_nat ds, s).
Proof.
  intros D N. induction D as [|d ds Hd D IH]; cbn [digits_text append span_digits map].
  - destruct s as [|c s]; cbn; [reflexivity|]. cbn in N. now rewrite N.
  - destruct (digit_char_facts d Hd) as [-> ->]. now rewrite IH.
Qed.

(** ** Printing of integers *)

Fixpoint uint_digits (u : Decimal.uint) : list nat :=
  match u with
  | Decimal.Nil => []
  | Decimal.D0 u => 0 :: uint_digits u
  | Decimal.D1 u => 1 :: uint_digits u
  | Decimal.D2 u => 2 :: uint_digits u
  | Decimal.D3 u => 3 :: uint_digits u
  | Decimal.D4 u => 4 :: uint_digits u
  | Decimal.D5 u => 5 :: uint_digits u
  | Decimal.D6 u => 6 :: uint_digits u
  | Decimal.D7 u => 7 :: uint_digits u
  | Decimal.D8 u => 8 :: uint_digits u
  | Decimal.D9 u => 9 :: uint_digits u
  end%nat.

Lemma uint_digits_ok u : digits (uint_digits u).
Proof. induction u; constructor; (lia || assumption). Qed.

Lemma uint_text u : DecimalString.NilEmpty.string_of_uint u = digits_text (uint_digits u).
Proof. induction u; cbn; congruence. Qed.

Lemma digits_value_cons d ds :
  digits_value (d :: ds) = Z.of_nat d * 10 ^ Z.of_nat (length ds) + digits_value ds.
Proof.
  change (d :: ds) with ([d] ++ ds). rewrite value_app. change (digits_value [d]) with (Z.of_nat d + 10 * 0). ring.
Qed.

Lemma of_uint_acc u acc :
  Zpos (Pos.of_uint_acc u acc) = Zpos acc * 10 ^ Z.of_nat (length (uint_digits u)) + digits_value (uint_digits u).
Proof.
  revert acc.
  assert (E : forall d n v a, 0 <= n -> a = 10 * Zpos v + Z.of_nat d ->
    a * 10 ^ n = Zpos v * 10 ^ (1 + n) + Z.of_nat d * 10 ^ n).
  { intros d n v a Hn ->. rewrite Z.pow_add_r, Z.pow_1_r by lia. ring. }
  induction u; intros acc; cbn [Pos.of_uint_acc uint_digits length];
    [cbn; lia| | | | | | | | | |];
    rewrite IHu, digits_value_cons, Nat2Z.inj_succ, <- Z.add_1_l;
    match goal with |- _ = _ + (Z.of_nat ?d * _ + _) => rewrite (E d _ acc) by lia end; lia.
Qed.

Lemma of_uint u : Z.of_N (Pos.of_uint u) = digits_value (uint_digits u).
Proof.
  assert (E : forall n, digits_value (0%nat :: n) = digits_value n) by (intros; rewrite digits_value_cons; lia).
  induction u; [reflexivity| | | | | | | | | |];
    [cbn [Pos.of_uint uint_digits]; rewrite E; assumption| | | | | | | | |];
    cbn [Pos.of_uint Z.of_N uint_digits];
    rewrite of_uint_acc, digits_value_cons; lia.
Qed.

Lemma integer_print_nonneg z : 0 <= z ->
  exists ds, digits ds /\ ds <> [] /\ integer_print z = digits_text ds /\ digits_value ds = z
    /\ (match ds with d :: _ :: _ => d <> 0%nat | _ => True end).
Proof.
  intros Hz. destruct z as [|p|p]; [|clear Hz|lia].
  - exists [0%nat]. repeat split; try discriminate. constructor; [lia|constructor].
  - exists (uint_digits (Pos.to_uint p)).
    assert (V : digits_value (uint_digits (Pos.to_uint p)) = Zpos p).
    { rewrite <- of_uint, DecimalPos.Unsigned.of_to. reflexivity. }
    assert (N : uint_digits (Pos.to_uint p) <> []).
    { intros C. rewrite C in V. discriminate. }
    repeat split.
    + apply uint_digits_ok.
    + exact N.
    + unfold integer_print. cbn [Z.to_int DecimalString.NilZero.string_of_int DecimalString.NilZero.string_of_uint].
      destruct (Pos.to_uint p) eqn:E; [now cbn in N| | | | | | | | | |]; rewrite <- E, <- uint_text; now rewrite E.
    + exact V.
    + pose proof (DecimalPos.Unsigned.to_uint_nonnil p) as NN.
      pose proof (DecimalPos.Unsigned.to_of (Pos.to_uint p)) as T.
      rewrite DecimalPos.Unsigned.of_to in T. cbn [N.to_uint] in T.
      assert (NZ : Pos.to_uint p = Decimal.nzhead (Pos.to_uint p)).
      { unfold Decimal.unorm in T. destruct (Decimal.nzhead (Pos.to_uint p)) eqn:E; try (now rewrite T).
        exfalso. rewrite T in V. discriminate. }
      destruct (uint_digits (Pos.to_uint p)) as [|d [|d' l]] eqn:E; trivial.
      intros ->. destruct (Pos.to_uint p) as [|u|u|u|u|u|u|u|u|u|u]; cbn in E; try discriminate.
      assert (L : forall u, Decimal.nzhead u <> Decimal.D0 (Decimal.nzhead u) /\
                    match Decimal.nzhead u with Decimal.D0 _ => False | _ => True end)
        by (intros v; split; [induction v; cbn; try discriminate; assumption|induction v; cbn; trivial]).
      destruct (L (Decimal.D0 u)) as [_ L2]. now rewrite <- NZ in L2.
Qed.

Lemma integer_print_digit z : 0 <= z < 10 -> integer_print z = digits_text [Z.to_nat z].
Proof.
  intros H. assert (z = 0 \/ z = 1 \/ z = 2 \/ z = 3 \/ z = 4 \/ z = 5 \/ z = 6 \/ z = 7 \/ z = 8 \/ z = 9) as K by lia.
  destruct K as [->|[->|[->|[->|[->|[->|[->|[->|[->| ->]]]]]]]]]; reflexivity.
Qed.

(** ** The long division *)

(** The remainder after [k] digits. *)
Definition remainder (d r : Z) (k : nat) : Z := (r * 10 ^ Z.of_nat k) mod d.

Lemma remainder_S d r k : d <> 0 -> remainder d r (S k) = (remainder d r k * 10) mod d.
Proof.
  intros Hd. unfold remainder. rewrite Z.mul_mod_idemp_l by assumption. f_equal.
  rewrite Nat2Z.inj_succ, Z.pow_succ_r by lia. lia.
Qed.

Lemma remainder_plus d r j k i : d <> 0 ->
  remainder d r j = remainder d r k -> remainder d r (j + i) = remainder d r (k + i).
Proof.
  intros Hd E. induction i as [|i IH]; [now rewrite !Nat.add_0_r|].
  rewrite !Nat.add_succ_r, !remainder_S by assumption. now rewrite IH.
Qed.

Section Loop.
Variables (d r0 : Z).
Hypothesis (Hd : 0 < d) (Hr0 : 0 <= r0 < d).

(** State of the loop after [k] turns. *)
Definition loop_state (k : nat) (rem : Z) (seen : list Z) (fraction : string) : Prop :=
  rem = remainder d r0 k /\
  (forall x, In x seen <-> exists j, (j < k)%nat /\ x = remainder d r0 j) /\
  length seen = k /\ NoDup seen /\
  (forall j, (j < k)%nat -> remainder d r0 j <> 0) /\
  exists ds, digits ds /\ length ds = k /\ fraction = digits_text ds /\
    r0 * 10 ^ Z.of_nat k = digits_value ds * d + rem.

Lemma remainder_bounds k : 0 <= remainder d r0 k < d.
Proof. apply Z.mod_pos_bound. lia. Qed.

Lemma loop_init : loop_state 0 r0 [] EmptyString.
Proof.
  split; [|split; [|split; [|split; [|split]]]].
  - unfold remainder. change (10 ^ Z.of_nat 0) with 1. rewrite Z.mul_1_r, Z.mod_small; lia.
  - intros x; split; [intros []|intros (j & Hj & _); lia].
  - reflexivity.
  - constructor.
  - intros; lia.
  - exists []. repeat split; try constructor. cbn. lia.
Qed.

Lemma loop_step k rem seen fraction :
  loop_state k rem seen fraction -> rem <> 0 -> ~ In rem seen ->
  loop_state (S k) (Z.rem (rem * 10) d) (rem :: seen) (fraction ++ integer_print (Z.quot (rem * 10) d)).
Proof.
  intros (Er & Hs & Hl & Hn & Hz & ds & D & Ld & Ef & Ev) N0 NI.
  pose proof (remainder_bounds k) as B. rewrite <- Er in B.
  rewrite Z.rem_mod_nonneg, Z.quot_div_nonneg by lia.
  assert (Q : 0 <= rem * 10 / d < 10).
  { split; [apply Z.div_pos; lia|apply Z.div_lt_upper_bound; lia]. }
  split; [|split; [|split; [|split; [|split]]]].
  - rewrite remainder_S by lia. now rewrite <- Er.
  - intros x. cbn [In]. rewrite Hs. split.
    + intros [<-|(j & Hj & ->)]; [exists k; split; [lia|assumption]|exists j; split; [lia|reflexivity]].
    + intros (j & Hj & ->). destruct (Nat.eq_dec j k) as [->|Nk]; [now left|].
      right. exists j; split; [lia|reflexivity].
  - cbn. now rewrite Hl.
  - now constructor.
  - intros j Hj. destruct (Nat.eq_dec j k) as [->|Nk]; [now rewrite <- Er|apply Hz; lia].
  - exists (ds ++ [Z.to_nat (rem * 10 / d)]). split; [|split; [|split]].
    + apply Forall_app; split; [assumption|constructor; [lia|constructor]].
    + rewrite app_length. cbn. lia.
    + rewrite Ef, text_app, integer_print_digit by lia. reflexivity.
    + rewrite value_app_one, Nat2Z.inj_succ, Z.pow_succ_r by lia.
      rewrite Z2Nat.id by lia.
      pose proof (Z.div_mod (rem * 10) d ltac:(lia)). lia.
Qed.

Lemma loop_spec fuel k rem seen fraction f r :
  loop_state k rem seen fraction -> decimal_loop fuel d rem seen fraction = Ok (f, r) ->
  exists k seen, loop_state k r seen f /\ (r = 0 \/ In r seen).
Proof.
  revert k rem seen fraction. induction fuel as [|fuel IH]; intros * I; cbn [decimal_loop]; [discriminate|].
  destruct (Z.eqb_spec rem 0) as [E|E]; cbn [orb].
  - intros [= <- <-]. eauto.
  - destruct (existsb (Z.eqb rem) seen) eqn:X.
    + intros [= <- <-]. apply existsb_exists in X as (x & Hx & Ex). apply Z.eqb_eq in Ex; subst x. eauto.
    + intros L. apply (IH (S k) _ _ _ (loop_step _ _ _ _ I E ltac:(intros C; cut (existsb (Z.eqb rem) seen = true); [congruence|apply existsb_exists; exists rem; split; [assumption|apply Z.eqb_refl]])) L).
Qed.

Lemma loop_seen_bound k rem seen fraction : loop_state k rem seen fraction -> (k < Z.to_nat d)%nat.
Proof.
  intros (_ & Hs & Hl & Hn & Hz & _).
  assert (length seen <= length (map (fun n => Z.of_nat n) (seq 1 (Z.to_nat d - 1))))%nat as B.
  { apply NoDup_incl_length; [assumption|]. intros x Hx. apply Hs in Hx as (j & Hj & ->).
    apply in_map_iff. exists (Z.to_nat (remainder d r0 j)).
    pose proof (remainder_bounds j). specialize (Hz j Hj). split; [lia|]. apply in_seq. lia. }
  rewrite map_length, seq_length in B. lia.
Qed.

Lemma loop_total fuel k rem seen fraction :
  loop_state k rem seen fraction -> (Z.to_nat d <= fuel + k)%nat ->
  exists f r, decimal_loop fuel d rem seen fraction = Ok (f, r).
Proof.
  revert k rem seen fraction. induction fuel as [|fuel IH]; intros * I L.
  - apply loop_seen_bound in I. lia.
  - cbn [decimal_loop]. destruct (Z.eqb_spec rem 0) as [E|E]; cbn [orb]; [eauto|].
    destruct (existsb (Z.eqb rem) seen) eqn:X; [eauto|].
    apply (IH (S k)); [|lia]. apply loop_step; [assumption|assumption|]. intros C.
    assert (existsb (Z.eqb rem) seen = true) by (apply existsb_exists; exists rem; split; [assumption|apply Z.eqb_refl]).
    congruence.
Qed.

(** A repeated remainder means that no remainder is ever zero. *)
Lemma loop_cyclic k r seen f : loop_state k r seen f -> In r seen -> forall m, remainder d r0 m <> 0.
Proof.
  intros (Er & Hs & _ & _ & Hz & _) Hr. apply Hs in Hr as (j & Hj & E). subst r.
  intros m. induction m as [m IH] using lt_wf_ind.
  destruct (Nat.lt_ge_cases m k) as [L|L]; [auto|].
  assert (X := remainder_plus d r0 k j (m - k) ltac:(lia) E).
  replace (k + (m - k))%nat with m in X by lia. rewrite X. apply IH. lia.
Qed.
End Loop.

(** ** Rationals *)

Lemma scaled_pos (k : nat) : 0 < 10 ^ Z.of_nat k.
Proof. apply Z.pow_pos_nonneg; lia. Qed.

(** [q = z / 10^k] in terms of the canonical fraction. *)
Lemma scaled_iff q z k : q = scaled z k <-> numer q * 10 ^ Z.of_nat k = z * denom q.
Proof.
  pose proof (scaled_pos k) as P. unfold scaled, numer, denom. split.
  - intros ->. unfold Q2Qc. cbn [this].
    pose proof (Qred_correct (z # Z.to_pos (10 ^ Z.of_nat k))) as E. unfold Qeq in E. cbn [Qnum Qden] in E.
    rewrite Z2Pos.id in E by lia. lia.
  - intros E. apply Qc_is_canon. unfold Q2Qc. cbn [this]. rewrite Qred_correct. unfold Qeq. cbn [Qnum Qden].
    rewrite Z2Pos.id by lia. lia.
Qed.

Lemma numer_opp q : numer (- q)%Qc = - numer q.
Proof.
  unfold numer. destruct q as [[n d] C]. unfold Qcopp, Q2Qc. cbn [this].
  assert (E : Qred (- (n # d))%Q = (- (n # d))%Q).
  { rewrite Qred_opp. cbn [this] in C. now rewrite C. }
  rewrite E. reflexivity.
Qed.

Lemma denom_opp q : denom (- q)%Qc = denom q.
Proof.
  unfold denom. destruct q as [[n d] C]. unfold Qcopp, Q2Qc. cbn [this].
  assert (E : Qred (- (n # d))%Q = (- (n # d))%Q).
  { rewrite Qred_opp. cbn [this] in C. now rewrite C. }
  rewrite E. reflexivity.
Qed.

Lemma opp_iff a b : a = (- b)%Qc <-> (- a)%Qc = b.
Proof. split; intros H; [rewrite H|rewrite <- H]; now rewrite Qcopp_involutive. Qed.

Lemma denom_pos q : 0 < denom q.
Proof. unfold denom. lia. Qed.

Lemma finite_iff q : Finite q <-> exists k, (numer q * 10 ^ Z.of_nat k) mod denom q = 0.
Proof.
  pose proof (denom_pos q). unfold Finite. split.
  - intros (k & z & E). apply scaled_iff in E. exists k. rewrite E. apply Z.mod_mul. lia.
  - intros (k & E). exists k, (numer q * 10 ^ Z.of_nat k / denom q). apply scaled_iff.
    apply Z.div_exact in E; lia.
Qed.

(** [remainder] of the magnitude. *)
Lemma abs_mod q k : (numer q * 10 ^ Z.of_nat k) mod denom q = 0 <->
  remainder (denom q) (Z.abs (numer q) mod denom q) k = 0.
Proof.
  pose proof (denom_pos q) as P. unfold remainder.
  rewrite Z.mul_mod_idemp_l by lia.
  rewrite !Z.mod_divide by lia.
  destruct (Z.abs_eq_or_opp (numer q)) as [->| ->]; [reflexivity|].
  rewrite Z.mul_opp_l. symmetry. apply Z.divide_opp_r.
Qed.

Lemma decimal_rem q :
  (if numer q <? 0 then - numer q else numer q) = Z.abs (numer q).
Proof. destruct (Z.ltb_spec (numer q) 0); lia. Qed.

Lemma decimal_rem_mod q : Z.rem (Z.abs (numer q)) (denom q) = Z.abs (numer q) mod denom q.
Proof. pose proof (denom_pos q). apply Z.rem_mod_nonneg; lia. Qed.

Theorem decimal_representation_total q fuel : (Z.to_nat (denom q) <= fuel)%nat ->
  exists o, decimal_representation fuel q = Ok o.
Proof.
  intros L. pose proof (denom_pos q) as P. unfold decimal_representation.
  rewrite decimal_rem, decimal_rem_mod.
  pose proof (Z.mod_pos_bound (Z.abs (numer q)) (denom q) P) as B.
  destruct (loop_total (denom q) _ P B fuel 0 _ _ _ (loop_init _ _ B)) as (f & r & E); [lia|].
  rewrite E. cbn [bind]. destruct (r =? 0); eauto.
Qed.

(** The text returned, whatever the sign. *)
Lemma decimal_shape q fuel o : decimal_representation fuel q = Ok o ->
  match o with
  | Some s => exists fp, digits fp /\
      s = ((if (numer q <? 0)%Z then "-" else "") ++ integer_print (Z.quot (numer q) (denom q)) ++
           match fp with [] => "" | _ => "." ++ digits_text fp end)%string /\
      Z.abs (numer q) * 10 ^ Z.of_nat (length fp) =
        (Z.abs (numer q) / denom q * 10 ^ Z.of_nat (length fp) + digits_value fp) * denom q /\
      digits_value fp < 10 ^ Z.of_nat (length fp)
  | None => ~ Finite q
  end.
Proof.
  pose proof (denom_pos q) as P. unfold decimal_representation.
  rewrite decimal_rem, decimal_rem_mod.
  pose proof (Z.mod_pos_bound (Z.abs (numer q)) (denom q) P) as B.
  set (r0 := Z.abs (numer q) mod denom q) in *.
  destruct (decimal_loop fuel (denom q) r0 [] "") as [[f r]|e|m|] eqn:E; cbn [bind]; try discriminate.
  destruct (loop_spec (denom q) r0 P _ _ _ _ _ _ _ (loop_init _ _ B) E) as (k & seen & I & C).
  destruct (Z.eqb_spec r 0) as [Er|Er].
  - intros [= <-]. destruct I as (_ & _ & _ & _ & _ & ds & D & Ld & Ef & Ev). exists ds. split; [assumption|].
    split; [|split].
    + destruct ds as [|x ds].
      * rewrite Ef. cbn [digits_text String.eqb]. now rewrite append_nil_r.
      * rewrite Ef. cbn [digits_text String.eqb]. now rewrite !append_assoc.
    + rewrite Ld. rewrite Er in Ev. unfold r0 in Ev.
      pose proof (Z.div_mod (Z.abs (numer q)) (denom q) ltac:(lia)) as DM.
      rewrite DM at 1. lia.
    + rewrite Ld. rewrite Er in Ev. pose proof (scaled_pos k). nia.
  - intros [= <-]. destruct C as [C|C]; [contradiction|].
    rewrite finite_iff. intros (m & Hm). apply abs_mod in Hm.
    exact (loop_cyclic _ _ P _ _ _ _ I C m Hm).
Qed.
