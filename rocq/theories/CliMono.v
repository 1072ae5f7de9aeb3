(** * The fuel only bounds the compilation of the files: what is loaded does not depend on it *)

From Coq Require Import String Ascii List Bool Arith NArith ZArith Qcanon Lia.
Import ListNotations.
From Verif Require Import Base BaseProofs Orders PatternModel ValueModel LayoutModel HydrateModel TermModel
  DehydrateModel JsonModel AutomatonModel AutomatonProofs AutomatonTerm RegexpModel AbsModel AbsJsonModel
  PreludeModel PreludeSpec PreludeProperties CliModel CliSpec CliProofs.
Open Scope list_scope.
Open Scope nat_scope.

Lemma explore_ext {A K B E} {CK : Cmp K} (key : A -> K) (visit visit' : A -> outcome E (list A * B)) :
  (forall a r, visit a = Ok r -> visit' a = Ok r) ->
  forall fuel stack visited r, explore key visit fuel stack visited = Ok r -> explore key visit' fuel stack visited = Ok r.
Proof.
  intros V. induction fuel as [|fuel IH]; intros stack visited r H; [discriminate H|]. cbn [explore] in *.
  destruct stack as [|a stack]; [exact H|]. destruct (bt_get (key a) visited); [auto|].
  apply bind_Ok in H as ([l b] & Hv & H). rewrite (V _ _ Hv). cbn [bind]. auto.
Qed.

Lemma determinize_mono {Q} {CQ : Cmp Q} {LQ : CmpLaws Q} (a : nfa Q) f f' d : f <= f' -> determinize f a = Ok d -> determinize f' a = Ok d.
Proof.
  intros L H. unfold determinize in *. apply bind_Ok in H as (i & Hi & H). rewrite (mono_closure a f f' _ _ L Hi). cbn [bind].
  apply bind_Ok in H as (v & Hv & H).
  assert (Hv' : explore (fun s => s)
    (fun s => let* m := determinize_transitions_for f' a s in Ok (map snd m, (existsb (fun q => mem q (n_final a)) s, m))) f' [i] [] = Ok v).
  { eapply explore_ext; [|eapply explore_mono; [exact L|exact Hv]]. intros s r Hs. cbv beta in *.
    apply bind_Ok in Hs as (m & Hm & Hs). unfold determinize_transitions_for in *. apply bind_Ok in Hm as (m0 & Hm0 & Hm).
    rewrite (mono_states a f f' _ L _ _ Hm0). cbn [bind]. injection Hm as <-. exact Hs. }
  rewrite Hv'. exact H.
Qed.

Lemma compile_mono {R E} f f' (p : prelayout R) l : f <= f' -> compile (E := E) f p = Ok l -> compile (E := E) f' p = Ok l.
Proof.
  intros L. assert (K : forall e d, compile_regexp (E := E) f e = Ok d -> compile_regexp (E := E) f' e = Ok d).
  { intros e d H. unfold compile_regexp in *. destruct (re_build f e) as [x| | |] eqn:B; try discriminate H.
    assert (B' : re_build f' e = Ok x); [|now rewrite B'].
    unfold re_build in *. apply bind_Ok in B as (y & D & B). now rewrite (determinize_mono _ _ _ _ L D). }
  assert (K' : forall pat d, compile_pattern (E := E) f pat = Ok d -> compile_pattern (E := E) f' pat = Ok d).
  { intros [e|] d H; [|exact H]. cbn [compile_pattern] in *. apply bind_Ok in H as (x & Hx & H). now rewrite (K _ _ Hx). }
  destruct p as [l0|pat h res dt|h res pat|ls|ls]; cbn [compile]; intro H; try exact H;
    apply bind_Ok in H as (x & Hx & H); now rewrite (K' _ _ Hx).
Qed.

Lemma builder_build_mono {R E} {CR : Cmp R} f f' (b : @builder R) m : f <= f' ->
  builder_build (E := E) f b = Ok m -> builder_build (E := E) f' b = Ok m.
Proof.
  intros L. unfold builder_build. generalize (@nil (R * layout R)) as m0. induction b as [|[id p] b IH]; intros m0 H; [exact H|].
  cbn [builder_build_into] in *. apply bind_Ok in H as (l & C & H). rewrite (compile_mono _ _ _ _ L C). cbn [bind]. auto.
Qed.

Section Mono.
Context {TS : TextSyntax} {IS : IriSyntax} {AE : AbsExternal} {F : Type} {FM : Formats F}.

Lemma load_layout_mono f f' source m n x : f <= f' -> load_layout f source m n = Ok x -> load_layout f' source m n = Ok x.
Proof.
  intros L H. unfold load_layout in *. destruct (json_parse source) as [j|]; [|discriminate H].
  apply bind_Ok in H as (l & R & H). rewrite R. cbn [bind].
  destruct (build_with_context term_context l (n, [])) as [o s]. apply bind_Ok in H as (r & O & H). rewrite O. cbn [bind].
  apply bind_Ok in H as (new & B & H). now rewrite (builder_build_mono _ _ _ _ L B).
Qed.

Variable file : string -> option string.
Lemma load_all_mono f f' names : f <= f' -> forall m n x, load_all file f names m n = Ok x -> load_all file f' names m n = Ok x.
Proof.
  intro L. induction names as [|name names IH]; intros m n x H; [exact H|]. cbn [load_all] in *.
  apply bind_Ok in H as (s & S & H). rewrite S. cbn [bind]. apply bind_Ok in H as ([[r m1] n1] & E & H).
  rewrite (load_layout_mono _ _ _ _ _ _ L E). cbn [bind]. apply bind_Ok in H as ([[rs m2] n2] & E' & H). now rewrite (IH _ _ _ E').
Qed.

Lemma prelude_mono (ap : bool) (json_float : string -> option F) (from_f64 : F -> option Qc) fuel : preset_syntax ->
  prelude_registry ap json_float from_f64 fuel = prelude_registry ap json_float from_f64 0.
Proof.
  intro PS. destruct (C82_prelude ap json_float from_f64 0 PS) as (m & E & _).
  assert (E' : prelude_build ap json_float from_f64 fuel = Ok m).
  { unfold prelude_build in *. apply bind_Ok in E as (b & B & E). rewrite B. cbn [bind]. eapply builder_build_mono; [|exact E]. lia. }
  unfold prelude_registry, prelude_get. now rewrite E, E'.
Qed.
End Mono.
