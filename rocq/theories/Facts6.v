(** Never both ready in one cycle: no progress (C16). *)
From Coq Require Import NArith List Bool Lia.
From Verif Require Import Bits Params Msg Units Rtl Mem Spec System SysProofs SysFacts Facts1.
Import ListNotations.
Open Scope N_scope.

Lemma not_both_out : forall p s i, i_resp_rdy i && i_mreq_rdy i = false ->
  o_resp (output p s i) = None /\ o_mreq (output p s i) = None.
Proof.
  intros p s i H. unfold output, memreq_en, resp_en, cs2. cbn [o_mreq o_resp].
  replace (negb (i_mreq_rdy i) || negb (i_resp_rdy i)) with true
    by (destruct (i_mreq_rdy i), (i_resp_rdy i); auto; discriminate).
  destruct (t2 s); auto.
Qed.

Lemma not_both_run : forall p is s, Forall (fun i => i_resp_rdy i && i_mreq_rdy i = false) is ->
  responses (trace_of p s is) = [] /\ memreqs (trace_of p s is) = [].
Proof.
  intros p is. induction is as [|i is IH]; intros s F; auto. inversion F as [|? ? H1 H2]; subst.
  rewrite trace_cons. change ((i, output p s i) :: trace_of p (next p s i) is) with ([(i, output p s i)] ++ trace_of p (next p s i) is).
  rewrite responses_app, memreqs_app. destruct (IH (next p s i) H2) as [E1 E2]. rewrite E1, E2.
  destruct (not_both_out p s i H1) as [E3 E4]. unfold responses, memreqs. cbn [flat_map fst snd]. rewrite E3, E4. auto.
Qed.

(** In one cycle only the sink is ready, in the next only memory; memory sends
    nothing and no request is offered. *)
Definition alternate : list inp :=
  [mkInp false creq0 true false false mresp0; mkInp false creq0 false true false mresp0].
Fixpoint alternating (n : nat) : list inp :=
  match n with O => [] | S n => alternate ++ alternating n end.

Lemma mem_trace_snoc : forall p m rq rs t m' rq' rs' i o, mem_trace p m rq rs t m' rq' rs' ->
  i_mresp_en i = false -> mem_trace p m rq rs (t ++ [(i, o)]) m' (rq' ++ opt_list (o_mreq o)) rs'.
Proof.
  intros p m rq rs t m' rq' rs' i o H NE. induction H; cbn [app].
  - apply mt_quiet; auto. constructor.
  - apply mt_exec; auto.
  - apply mt_quiet; auto.
  - eapply mt_answer; eauto.
Qed.

Lemma sys_stuck_snoc : forall p s0 is i m0 m rq rs, sys_run p s0 is m0 m rq rs ->
  i_req_en i = false -> i_mresp_en i = false -> i_resp_rdy i && i_mreq_rdy i = false ->
  sys_run p s0 (is ++ [i]) m0 m rq rs.
Proof.
  intros p s0 is i m0 m rq rs (R & C & M) NE NM NB. split; auto. rewrite trace_snoc. split.
  - apply Forall_app. split; auto. constructor; auto. cbn [fst]. rewrite NE. discriminate.
  - destruct (not_both_out p (fst (run p s0 is)) i NB) as [_ E].
    pose proof (mem_trace_snoc _ _ _ _ _ _ _ _ i (output p (fst (run p s0 is)) i) M NM) as T.
    rewrite E in T. cbn [opt_list] in T. rewrite app_nil_r in T. auto.
Qed.

Theorem sys_alternating : forall p n s0 is m0 m rq rs, sys_run p s0 is m0 m rq rs ->
  sys_run p s0 (is ++ alternating n) m0 m rq rs /\
  responses (trace_of p s0 (is ++ alternating n)) = responses (trace_of p s0 is) /\
  memreqs (trace_of p s0 (is ++ alternating n)) = memreqs (trace_of p s0 is).
Proof.
  intros p n s0 is m0 m rq rs R. split.
  - revert is R. induction n as [|n IH]; intros is R; cbn [alternating].
    + rewrite app_nil_r. auto.
    + rewrite app_assoc. apply IH. unfold alternate. change [mkInp false creq0 true false false mresp0; mkInp false creq0 false true false mresp0]
        with ([mkInp false creq0 true false false mresp0] ++ [mkInp false creq0 false true false mresp0]).
      rewrite app_assoc. apply sys_stuck_snoc; auto. apply sys_stuck_snoc; auto.
  - rewrite trace_app, responses_app, memreqs_app.
    assert (F : Forall (fun i => i_resp_rdy i && i_mreq_rdy i = false) (alternating n)).
    { induction n; cbn [alternating alternate app]; repeat constructor; auto. }
    destruct (not_both_run p _ (fst (run p s0 is)) F) as [-> ->]. rewrite !app_nil_r. auto.
Qed.

(** The same for an arbitrary environment that is never ready on both sides:
    whatever is accepted, answered by memory or offered, nothing comes out. *)
Theorem sys_never_both : forall p s0 is is2, 
  Forall (fun i => i_resp_rdy i && i_mreq_rdy i = false) is2 ->
  responses (trace_of p s0 (is ++ is2)) = responses (trace_of p s0 is) /\
  memreqs (trace_of p s0 (is ++ is2)) = memreqs (trace_of p s0 is).
Proof.
  intros p s0 is is2 F. rewrite trace_app, responses_app, memreqs_app.
  destruct (not_both_run p _ (fst (run p s0 is)) F) as [-> ->]. rewrite !app_nil_r. auto.
Qed.
