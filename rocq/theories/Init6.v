(** C71: the directed tests with WRITE_INIT come to an end. *)
From Coq Require Import Arith NArith List Bool Lia.
From Verif Require Import Bits Params ParamsProofs Msg Rtl Mem Spec System Traffic Hide Harness LiveSpec Live InitSpec Init3 Init4 Init5 ConformData Conform Directed.
Import ListNotations.
Open Scope N_scope.

Theorem init_tests_finish : forall t, In t all_tests -> p_assoc (t_p t) = 1 -> In T_INIT (map (fun x => cq_type (fst x)) (t_msgs t)) ->
  let p := t_p t in let total := length (t_msgs t) in
  forall s0 is is2, init_run p s0 (is ++ is2) ->
  (exists rest, map fst (t_msgs t) = accepted (trace_of p s0 (is ++ is2)) ++ rest) ->
  (total * (2 * N.to_nat (5 * total_lines p + 3) + 1) <= offer_cycles total [] (trace_of p s0 is))%nat ->
  (2 * N.to_nat (5 * total_lines p + 3) <= productive_cycles (trace_of p s0 is) (trace_of p (fst (run p s0 is)) is2))%nat ->
  responses (trace_of p s0 (is ++ is2)) = map snd (t_msgs t).
Proof.
  intros t I A1 H p total s0 is is2 R AC O C.
  destruct (init_tests_pass t I A1 H s0 (is ++ is2) R AC) as (rest & E). fold p in E.
  assert (WF : wf_params p).
  { pose proof init_tests_good as F. rewrite forallb_forall in F. specialize (F t I).
    assert (HI : has_init t = true).
    { unfold has_init. apply existsb_exists. apply in_map_iff in H. destruct H as (x & X & IX). exists x. split; auto. apply N.eqb_eq. auto. }
    rewrite A1, HI in F. cbn [N.eqb Pos.eqb andb implb] in F. apply andb_prop in F. destruct F as [WF F]. apply wf_paramsb_ok in WF. exact WF. }
  pose proof (ini_completes p WF A1 total is is2 s0 R O C) as L.
  assert (LL : length (map snd (t_msgs t)) = (length (responses (trace_of p s0 (is ++ is2))) + length rest)%nat) by (rewrite E; apply app_length).
  rewrite map_length in LL. fold total in LL. destruct rest; [rewrite app_nil_r in E; auto | cbn [length] in LL; lia].
Qed.
