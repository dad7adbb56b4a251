(** Lemmas behind the property files: data, echo, protocol, in-flight bounds,
    initialisation, memory traffic. *)
From Coq Require Import Arith NArith List Bool Lia.
From Verif Require Import Bits Params Msg Units Rtl Mem Spec System Tl ParamsProofs RtlLemmas RefineInv RefineStall RefineProofs
  ViewDefs ViewProofs SysProofs SysFacts.
Import ListNotations.
Open Scope N_scope.

Lemma Forall2_len : forall A B (R : A -> B -> Prop) l l', Forall2 R l l' -> length l = length l'.
Proof. induction 1; cbn; auto. Qed.

Section F.
Variable p : params.
Hypothesis W : wf_params p.

(** What is known at any time: a history of completed requests, plus at most one
    request in progress. *)
Lemma J_hist : forall m0 a m rq rs A E S, J p m0 a m rq rs A E S ->
  exists A0 c mb Q pd, hist p m0 A0 c mb (E ++ pd) Q /\ pd = a_pend a /\ c = a_c a /\
    ((A = A0 /\ a_cur a = None /\ rq = [] /\ rs = [] /\ m = mb /\ Forall2 qmatch Q S) \/
     (exists r ex qs todo out l, A = A0 ++ [r] /\ wf_req p r /\ a_cur a = Some (mkCur r todo out l) /\
        tl_reqs p c r = ex ++ qs ++ todo /\ m = fst (mem_run p mb ex) /\ (pd = [] \/ ex ++ qs = []) /\
        (length out <= length (ex ++ qs))%nat /\ length qs = length rq /\
        Forall2 qmatch (Q ++ map (pair r) (ex ++ qs)) S)).
Proof.
  intros m0 a m rq rs A E S H. inversion H; subst; clear H.
  - do 5 eexists. split; [eauto|]. split; auto. split; auto. left. cbn. repeat split; auto.
  - do 5 eexists. split; [eauto|]. split; auto. split; auto. right.
    exists r, ex, qs, todo, out, (last_data got). cbn [a_cur a_c].
    split; [auto|]. split; [auto|]. split; [auto|]. split; [auto|]. split; [auto|]. split; [auto|]. split; [|split; [|auto]].
    + match goal with Z : exists ms, _ |- _ => destruct Z as (ms & -> & LM) end.
      rewrite !app_length.
      match goal with Z : snd (mem_run p mb ex) = _ |- _ => pose proof (f_equal (@length _) Z) as L1 end.
      match goal with F : Forall2 rsim _ _ |- _ => pose proof (Forall2_len _ _ _ _ _ F) as L2 end.
      match goal with F : Forall2 (mreq_match r) _ _ |- _ => pose proof (Forall2_len _ _ _ _ _ F) as L3 end.
      assert (LE : forall l m, length (snd (mem_run p m l)) = length l).
      { induction l as [|q l IH]; intros mm; auto. cbn [mem_run]. destruct (mem_exec p mm q) as [m1 x].
        specialize (IH m1). destruct (mem_run p m1 l). cbn in *. lia. }
      rewrite LE, app_length in L1. lia.
    + match goal with G : Forall2 (mreq_match r) _ _ |- _ => exact (Forall2_len _ _ _ _ _ G) end.
Qed.

(** *** C01, C02 *)
Theorem sys_flat : forall s0 is m0 m rq rs, sys_run p s0 is m0 m rq rs ->
  let tr := trace_of p s0 is in
  exists rest, flat_data p m0 (accepted tr) = map cr_data (responses tr) ++ rest.
Proof.
  intros s0 is m0 m rq rs R tr. destruct (sys_state p W _ _ _ _ _ _ R) as (a & ST).
  destruct (stok_J p _ _ _ _ _ _ _ _ ST) as [JJ _].
  destruct (J_hist _ _ _ _ _ _ _ _ JJ) as (A0 & c & mb & Q & pd & H & _ & _ & C).
  destruct (hist_flat p W _ _ _ _ _ _ H) as (_ & _ & D). rewrite map_app in D.
  destruct C as [(E & _) | (r & ex & qs & todo & out & l & E & _)]; fold tr in E; rewrite E.
  - exists (map cr_data pd). auto.
  - rewrite flat_data_app, <- D. rewrite <- app_assoc. eauto.
Qed.

Theorem sys_echo : forall s0 is m0 m rq rs, sys_run p s0 is m0 m rq rs ->
  let tr := trace_of p s0 is in
  exists rest, map echo (accepted tr) = map echo_y (responses tr) ++ rest.
Proof.
  intros s0 is m0 m rq rs R tr. destruct (sys_state p W _ _ _ _ _ _ R) as (a & ST).
  destruct (stok_J p _ _ _ _ _ _ _ _ ST) as [JJ _].
  destruct (J_hist _ _ _ _ _ _ _ _ JJ) as (A0 & c & mb & Q & pd & H & _ & _ & C).
  pose proof (hist_echo p _ _ _ _ _ _ H) as D. rewrite map_app in D.
  destruct C as [(E & _) | (r & ex & qs & todo & out & l & E & _)]; fold tr in E; rewrite E.
  - exists (map echo_y pd). auto.
  - rewrite map_app, <- D. rewrite <- app_assoc. eauto.
Qed.

Lemma flat_zero : forall A m k r d, nth_error A k = Some r -> nth_error (flat_data p m A) k = Some d ->
  cq_type r = T_WRITE \/ cq_type r = T_INV \/ cq_type r = T_FLUSH -> d = 0.
Proof.
  induction A as [|x A IH]; intros m k r d H1 H2 T; destruct k; cbn in *; try discriminate.
  - inversion H1; inversion H2; subst. unfold flat_exec.
    destruct T as [-> | [-> | ->]]; auto.
  - eauto.
Qed.

Theorem sys_zero : forall s0 is m0 m rq rs, sys_run p s0 is m0 m rq rs ->
  Forall (fun y => cr_type y = T_WRITE \/ cr_type y = T_INV \/ cr_type y = T_FLUSH -> cr_data y = 0)
         (responses (trace_of p s0 is)).
Proof.
  intros s0 is m0 m rq rs R. destruct (sys_flat _ _ _ _ _ _ R) as (r1 & F). destruct (sys_echo _ _ _ _ _ _ R) as (r2 & G).
  apply Forall_forall. intros y IN T. apply In_nth_error in IN. destruct IN as (k & K).
  assert (K1 : nth_error (map echo (accepted (trace_of p s0 is))) k = Some (echo_y y)).
  { rewrite G, nth_error_app1, nth_error_map, K; auto. rewrite map_length. apply nth_error_Some. congruence. }
  assert (K2 : nth_error (flat_data p m0 (accepted (trace_of p s0 is))) k = Some (cr_data y)).
  { rewrite F, nth_error_app1, nth_error_map, K; auto. rewrite map_length. apply nth_error_Some. congruence. }
  rewrite nth_error_map in K1. destruct (nth_error (accepted (trace_of p s0 is)) k) as [r|] eqn:KR; [|discriminate].
  cbn in K1. inversion K1. eapply flat_zero; eauto. congruence.
Qed.

(** *** C10 *)
Theorem out_protocol : forall s i, let o := output p s i in
  (o_mreq o <> None -> i_mreq_rdy i = true) /\ (o_resp o <> None -> i_resp_rdy i = true) /\
  (o_mreq o = None \/ o_resp o = None).
Proof.
  intros s i. unfold output, memreq_en, resp_en, cs2. cbn [o_mreq o_resp].
  destruct (i_mreq_rdy i), (i_resp_rdy i), (t2 s); cbn; repeat split; try congruence; auto;
    destruct (ev2 s); cbn; try congruence; auto; destruct (hit2 s); cbn; try congruence; auto.
Qed.

(** *** C11 *)
Lemma ol_le : forall A (o : option A), (length (ol o) <= 1)%nat.
Proof. destruct o; cbn; lia. Qed.

Lemma phase_pend : forall s a, phase p s a ->
  (length (a_pend a) + (match a_cur a with Some _ => 1 | None => 0 end) <= 2)%nat.
Proof.
  intros s a P. destruct P as [P | r P | r P | r P | r P | r k P | r P | r P | r k P | r k P | r k P].
  - rewrite (id_cur _ _ _ P), (id_pend _ _ _ P), app_length. pose proof (ol_le _ (resp2 p s)). pose proof (ol_le _ (resp1 p s)). lia.
  - rewrite (rq_pend _ _ _ _ P), (rq_cur _ _ _ _ P). pose proof (ol_le _ (resp2 p s)). lia.
  - rewrite (ev_pend _ _ _ _ P), (ev_cur _ _ _ _ P). cbn. lia.
  - rewrite (wt_pend _ _ _ _ P). cbn. destruct (a_cur a); lia.
  - rewrite (rf_pend _ _ _ _ P). cbn. destruct (a_cur a); lia.
  - rewrite (iv_pend _ _ _ _ _ P). pose proof (ol_le _ (resp2 p s)). destruct (a_cur a); lia.
  - rewrite (il_pend _ _ _ _ P). pose proof (ol_le _ (resp2 p s)). destruct (a_cur a); lia.
  - rewrite (fs_pend _ _ _ _ P). pose proof (ol_le _ (resp2 p s)). destruct (a_cur a); lia.
  - destruct P. rewrite (fl_pend _ _ _ _ _ _ fr_c). pose proof (ol_le _ (resp2 p s)). destruct (a_cur a); lia.
  - destruct P. rewrite (fl_pend _ _ _ _ _ _ fw_c). pose proof (ol_le _ (resp2 p s)). destruct (a_cur a); lia.
  - destruct P. rewrite (fl_pend _ _ _ _ _ _ fx_c). pose proof (ol_le _ (resp2 p s)). destruct (a_cur a); lia.
Qed.

Theorem sys_inflight : forall s0 is m0 m rq rs, sys_run p s0 is m0 m rq rs ->
  let tr := trace_of p s0 is in (length (responses tr) <= length (accepted tr) <= length (responses tr) + 2)%nat.
Proof.
  intros s0 is m0 m rq rs R tr. destruct (sys_state p W _ _ _ _ _ _ R) as (a & ST).
  destruct (stok_J p _ _ _ _ _ _ _ _ ST) as [JJ _].
  assert (PP : (length (a_pend a) + (match a_cur a with Some _ => 1 | None => 0 end) <= 2)%nat).
  { inversion ST; subst; [cbn; lia | eapply phase_pend; eauto]. }
  destruct (J_hist _ _ _ _ _ _ _ _ JJ) as (A0 & c & mb & Q & pd & H & PD & _ & C).
  pose proof (hist_length p _ _ _ _ _ _ H) as L. rewrite app_length in L. subst pd. fold tr in L, C |- *.
  destruct C as [(E & E2 & _) | (r & ex & qs & todo & out & l & E & _ & E2 & _)]; rewrite E, E2 in *.
  - lia.
  - rewrite app_length. cbn. lia.
Qed.

(** A machine with nothing left to send. *)
Definition spent (a : ast) : Prop :=
  match a_cur a with None => True | Some u => u_todo u = [] /\ u_out u = [] end.

Lemma recv_det : forall a x a1 a2, a_recv a x a1 -> a_recv a x a2 -> a1 = a2.
Proof. intros a x a1 a2 H1 H2. inversion H1; subst. inversion H2; subst. auto. Qed.
Lemma send_det : forall a x a1 a2, a_send a x a1 -> a_send a x a2 -> a1 = a2.
Proof. intros a x a1 a2 H1 H2. inversion H1; subst. inversion H2; subst. auto. Qed.
Lemma emit_det : forall a x a1 a2, a_emit a x a1 -> a_emit a x a2 -> a1 = a2.
Proof. intros a x a1 a2 H1 H2. inversion H1; subst. inversion H2; subst. auto. Qed.

Definition with_req (i : inp) (r : creq) : inp :=
  mkInp true r (i_resp_rdy i) (i_mreq_rdy i) (i_mresp_en i) (i_mresp i).

(** When the cache says ready, the request being served (if any) needs nothing more. *)
Lemma rdy_spent : forall s a i a', phase p s a -> legal p s (a_outst a) i ->
  o_req_rdy (output p s i) = true -> acyc p a i (output p s i) a' ->
  a_outst a' = [] /\ (i_req_en i = false -> spent a') /\ o_mreq (output p s i) = None.
Proof.
  intros s a i a' PH LG RD AC.
  set (r := mkCReq T_INV 0 0 0 0). set (i' := with_req i r).
  assert (LG' : legal p s (a_outst a) i').
  { constructor.
    - intros _. split; [exact RD | unfold wf_type; auto].
    - intros ME. apply (lg_resp _ _ _ _ LG ME). }
  destruct (step_sim p W s a i' PH LG') as (b & (b1 & b2 & b3 & R1 & S1 & D1 & C1) & _).
  destruct AC as (a1 & a2 & a3 & R2 & S2 & D2 & C2).
  assert (E1 : a1 = b1).
  { unfold o_recv in R1, R2. cbn [i' with_req i_mresp_en i_mresp] in R1.
    destruct (i_mresp_en i); [eapply recv_det; eauto | congruence]. }
  subst b1.
  assert (E2 : a2 = b2).
  { assert (OE : output p s i' = output p s i) by reflexivity. rewrite OE in S1.
    unfold o_send in S1, S2. destruct (o_mreq (output p s i)), (o_resp (output p s i));
      try contradiction; [eapply send_det | eapply emit_det | congruence]; eauto. }
  subst b2. unfold o_acc in C1. cbn [i' with_req i_req_en i_req] in C1.
  assert (SP2 : spent a2).
  { inversion C1; subst. destruct D1 as [D1 | D1].
    - inversion D1; subst. unfold spent. cbn. auto.
    - subst a2. unfold spent. cbn. auto. }
  assert (SP3 : spent a3).
  { destruct D2 as [D2 | ->]; auto. inversion D2; subst. unfold spent. cbn. auto. }
  assert (O3 : a_outst a3 = []).
  { unfold a_outst. unfold spent in SP3. destruct (a_cur a3); [tauto | auto]. }
  split; [|split].
  - unfold o_acc in C2. destruct (i_req_en i).
    + inversion C2; subst. auto.
    + subst; auto.
  - intros NE. unfold o_acc in C2. rewrite NE in C2. subst; auto.
  - unfold o_send in S2. destruct (o_mreq (output p s i)) as [q|]; auto.
    destruct (o_resp (output p s i)); [contradiction|]. inversion S2; subst.
    unfold spent in SP2. cbn in SP2. destruct SP2 as [_ X]. destruct out; discriminate.
Qed.

Lemma spent_quiet : forall a i o a', acyc p a i o a' -> spent a -> o_mreq o = None.
Proof.
  intros a i o a' (a1 & a2 & a3 & R & S & D & C) SP. unfold o_send in S.
  destruct (o_mreq o) as [q|]; auto. destruct (o_resp o); [contradiction|]. exfalso.
  assert (SP1 : spent a1).
  { unfold o_recv in R. destruct (i_mresp_en i); [|subst; auto]. inversion R; subst. unfold spent in SP. cbn in SP.
    destruct SP; discriminate. }
  inversion S; subst. unfold spent in SP1. cbn in SP1. destruct SP1; discriminate.
Qed.
Lemma spent_next : forall a i o a', acyc p a i o a' -> spent a -> i_req_en i = false -> spent a'.
Proof.
  intros a i o a' AC SP NE. pose proof (spent_quiet _ _ _ _ AC SP) as NM. destruct AC as (a1 & a2 & a3 & R & S & D & C).
  unfold o_acc in C. rewrite NE in C. subst a'.
  assert (SP1 : spent a1).
  { unfold o_recv in R. destruct (i_mresp_en i); [|subst; auto]. inversion R; subst. unfold spent in SP. cbn in SP.
    destruct SP; discriminate. }
  assert (SP2 : spent a2).
  { unfold o_send in S. rewrite NM in S. destruct (o_resp o); [inversion S; subst; auto | subst; auto]. }
  destruct D as [D | ->]; auto. inversion D; subst. unfold spent. cbn. auto.
Qed.

Theorem sys_ready : forall s0 is i m0 m rq rs, sys_run p s0 (is ++ [i]) m0 m rq rs ->
  o_req_rdy (output p (fst (run p s0 is)) i) = true ->
  outstanding (trace_of p s0 (is ++ [i])) = [] /\ o_mreq (output p (fst (run p s0 is)) i) = None.
Proof.
  intros s0 is i m0 m rq rs R RD.
  destruct (sys_cycle p W _ _ _ _ _ _ _ R) as (m1 & rq1 & rs1 & a & a' & R1 & ST & LG & AC & ST' & MT1).
  destruct (stok_J p _ _ _ _ _ _ _ _ ST') as [_ ->].
  inversion ST; subst.
  - destruct (init_step p W _ _ _ H0 LG) as (O & _). rewrite O in RD. discriminate.
  - destruct (rdy_spent _ _ _ _ H LG RD AC) as (A & _ & B). auto.
Qed.


(** spent survives along any run in which nothing is accepted *)
Lemma spent_run : forall is2 s a, phase p s a -> spent a -> legal_run p s (a_outst a) is2 ->
  accepted (trace_of p s is2) = [] -> memreqs (trace_of p s is2) = [].
Proof.
  induction is2 as [|i is2 IH]; intros s a PH SP LR NA; auto.
  destruct LR as [L1 L2]. rewrite trace_cons in *.
  assert (NE : i_req_en i = false).
  { unfold accepted in NA. cbn [flat_map fst snd] in NA. destruct (i_req_en i); [discriminate | auto]. }
  destruct (step_sim p W s a i PH L1) as (a' & AC & PH').
  pose proof (spent_quiet _ _ _ _ AC SP) as NM. pose proof (spent_next _ _ _ _ AC SP NE) as SP'.
  unfold memreqs. cbn [flat_map fst snd]. rewrite NM. cbn [opt_list app]. apply IH with a'; auto.
  - rewrite (acyc_outst p _ _ _ _ AC). auto.
  - unfold accepted in NA |- *. cbn [flat_map fst snd] in NA. rewrite NE in NA. auto.
Qed.

Lemma legal_run_app : forall is1 is2 s out, legal_run p s out (is1 ++ is2) ->
  legal_run p s out is1 /\ legal_run p (fst (run p s is1)) (outs p s out is1) is2.
Proof.
  induction is1 as [|j is1 IH]; intros is2 s out H; cbn [app legal_run outs] in *.
  - split; [exact I | auto].
  - destruct H as [H1 H2]. destruct (IH _ _ _ H2) as [A B]. split; auto.
    cbn [run step]. destruct (run p (next p s j) is1) as [s2 os] eqn:EE. auto.
Qed.

Theorem sys_ready_quiet : forall s0 is i is2 m0 m rq rs, sys_run p s0 (is ++ i :: is2) m0 m rq rs ->
  let s := fst (run p s0 is) in
  o_req_rdy (output p s i) = true -> accepted (trace_of p s (i :: is2)) = [] ->
  memreqs (trace_of p s (i :: is2)) = [].
Proof.
  intros s0 is i is2 m0 m rq rs R s RD NA.
  replace (is ++ i :: is2) with ((is ++ [i]) ++ is2) in R by (rewrite <- app_assoc; auto).
  pose proof (sys_legal0 p _ _ _ _ _ _ R) as LR. apply legal_run_app in LR. destruct LR as [_ LR].
  destruct (sys_app _ _ _ _ _ _ _ _ R) as (m1 & rq1 & rs1 & R1 & _ & _).
  rewrite <- (sys_outs p _ _ _ _ _ _ R1) in LR.
  destruct (sys_cycle p W _ _ _ _ _ _ _ R1) as (m2 & rq2 & rs2 & a & a' & R2 & ST & LG & AC & ST' & MT1).
  fold s in ST, LG, AC, ST', NA |- *.
  rewrite trace_cons in NA |- *. unfold accepted in NA. cbn [flat_map fst snd] in NA.
  assert (NE : i_req_en i = false) by (destruct (i_req_en i); [discriminate | auto]).
  destruct (stok_J p _ _ _ _ _ _ _ _ ST') as [_ OT]. rewrite OT in LR. rewrite run_snoc in LR. fold s in LR.
  inversion ST as [c0 k CS PI NK A1 A2 A3 A4 EM EQ ES EA | a0 PH NK JA OA EA]; subst.
  - destruct (init_step p W _ _ _ PI LG) as (O & _). rewrite O in RD. discriminate.
  - destruct (rdy_spent _ _ _ _ PH LG RD AC) as (_ & SP & NM).
    unfold memreqs. cbn [flat_map fst snd]. rewrite NM. cbn [opt_list app].
    inversion ST' as [c0 k CS PI NK' A1 A2 A3 A4 EM EQ ES EA | a1 PH' NK' JA' OA' EA]; subst.
    + exfalso. pose proof (total_ge2 p W). lia.
    + eapply spent_run; eauto. rewrite NE in NA. auto.
Qed.

Theorem sys_ready_all : forall s0 is i is2 m0 m rq rs, sys_run p s0 (is ++ i :: is2) m0 m rq rs ->
  let s := fst (run p s0 is) in
  o_req_rdy (output p s i) = true -> accepted (trace_of p s (i :: is2)) = [] ->
  outstanding (trace_of p s0 (is ++ [i])) = [] /\ memreqs (trace_of p s (i :: is2)) = [].
Proof.
  intros s0 is i is2 m0 m rq rs R s RD NA. split; [|eapply sys_ready_quiet; eauto].
  replace (is ++ i :: is2) with ((is ++ [i]) ++ is2) in R by (rewrite <- app_assoc; auto).
  destruct (sys_app _ _ _ _ _ _ _ _ R) as (m1 & rq1 & rs1 & R1 & _ & _).
  eapply sys_ready; eauto.
Qed.

End F.
