(** C67 for whole runs. *)
From Coq Require Import NArith List Bool Lia.
From Verif Require Import Bits Params Msg Units Rtl Mem Spec System RefineInv RefineProofs SysProofs SysFacts Tl Hide Proto Idle Idle2 UnusedSpec Unused.
Import ListNotations.
Open Scope N_scope.

Section U2.
Variable p : params.
Hypothesis W : wf_params p.

Lemma client_wf : forall s0 is, client_ok p (trace_of p s0 is) -> Forall (fun i => i_req_en i = true -> wf_req p (i_req i)) is.
Proof.
  unfold client_ok, trace_of. intros s0 is. revert s0. induction is as [|i is IH]; intros s0 H; auto.
  specialize (IH (next p s0 i)). cbn [run step] in H. destruct (run p (next p s0 i) is) as [u os]. cbn [snd combine] in *.
  inversion H as [|? ? H1 H2]; subst. constructor; auto. cbn [fst snd] in H1. intros Q. apply H1; auto.
Qed.

Theorem unused_ports : forall s0 is is', proto_run p s0 is -> Forall2 (use_in p) is is' ->
  map (bare_out p) (snd (run p s0 is')) = map (bare_out p) (snd (run p s0 is)).
Proof.
  intros s0 is is' P F. destruct (proto_legal p is s0 P) as [L _]. destruct P as (R & CO & _).
  pose (a := mkA (mkC (fun _ _ => 0) (fun _ => 0) (fun _ => 0)) None []).
  refine (proj1 (use_run p W is is' s0 s0 a (reset_ieq p s0 R) _ L (client_wf _ _ CO) F)).
  right. split; auto. eexists. apply reset_init; auto.
Qed.

Lemma use_traces : forall is is' os os', Forall2 (use_in p) is is' -> map (bare_out p) os' = map (bare_out p) os -> length os = length is ->
  let tr := combine is os in let tr' := combine is' os' in
  Forall2 (same_use p) (accepted tr) (accepted tr') /\ map (bare_resp p) (responses tr') = map (bare_resp p) (responses tr) /\
  map bare_mreq (memreqs tr') = map bare_mreq (memreqs tr) /\
  map mr_type (memresps tr') = map mr_type (memresps tr) /\ map o_req_rdy os' = map o_req_rdy os.
Proof.
  induction is as [|i is IH]; intros is' os os' F E LN; inversion F as [|? i' ? is2 F1 F2]; subst.
  - destruct os; [|discriminate LN]. destruct os'; [|discriminate E]. cbn. auto.
  - destruct os as [|o os]; [discriminate LN|]. destruct os' as [|o' os']; [discriminate E|].
    cbn [map] in E. assert (E1 : bare_out p o' = bare_out p o) by exact (f_equal (hd (bare_out p o)) E).
    assert (E2 : map (bare_out p) os' = map (bare_out p) os) by exact (f_equal (@tl _) E).
    injection LN as LN. destruct (IH is2 os os' F2 E2 LN) as (H1 & H2 & H3 & H4 & H5).
    assert (O1 : option_map (bare_resp p) (o_resp o') = option_map (bare_resp p) (o_resp o)) by exact (f_equal o_resp E1).
    assert (O2 : option_map bare_mreq (o_mreq o') = option_map bare_mreq (o_mreq o)) by exact (f_equal o_mreq E1).
    assert (O3 : o_req_rdy o' = o_req_rdy o) by exact (f_equal o_req_rdy E1).
    destruct F1. cbv zeta in *. unfold accepted, responses, memreqs, memresps in *. cbn [combine flat_map fst snd map].
    rewrite !map_app, H2, H3, H4, H5, O3, ui_en, ui_men. repeat split.
    + apply Forall2_app; auto. destruct (i_req_en i); auto.
    + f_equal. destruct (o_resp o), (o_resp o'); cbn in *; congruence.
    + f_equal. destruct (o_mreq o), (o_mreq o'); cbn in *; congruence.
    + f_equal. destruct (i_mresp_en i); auto. cbn [map]. destruct (ui_mresp eq_refl) as [-> _]. auto.
Qed.

Lemma bare_outst : forall tr tr', map bare_mreq (memreqs tr') = map bare_mreq (memreqs tr) ->
  map mr_type (memresps tr') = map mr_type (memresps tr) -> map bare_mreq (outstanding tr') = map bare_mreq (outstanding tr).
Proof.
  intros tr tr' H1 H2. unfold outstanding. apply (f_equal (@length _)) in H2. rewrite !map_length in H2.
  rewrite <- !skipn_map, H1, H2. auto.
Qed.

Theorem use_proto : forall is is' s0, proto_run p s0 is -> Forall2 (use_in p) is is' ->
  Forall (fun i => i_req_en i = true -> wf_req p (i_req i)) is' -> proto_run p s0 is'.
Proof.
  induction is as [|i is IH] using rev_ind; intros is' s0 P F WF.
  - inversion F; subst. auto.
  - apply Forall2_app_inv_l in F. destruct F as (is1 & l & F1 & F2 & ->). inversion F2 as [|? i' ? ? E F3]; subst. inversion F3; subst. clear F2 F3.
    apply Forall_app in WF. destruct WF as [WF1 WF2]. inversion WF2 as [|? ? WF3 _]; subst.
    pose proof (proto_app p s0 is [i] P) as P0. pose proof (IH is1 s0 P0 F1 WF1) as P1.
    pose proof (unused_ports s0 (is ++ [i]) (is1 ++ [i']) P (Forall2_app F1 (Forall2_cons _ _ E (Forall2_nil _)))) as OU.
    destruct (use_traces is is1 _ _ F1 (unused_ports s0 is is1 P0 F1) (run_length p is s0)) as (_ & _ & H3 & H4 & _).
    pose proof (bare_outst _ _ H3 H4) as HO. fold (trace_of p s0 is) (trace_of p s0 is1) in HO.
    destruct P as (R & C & A). destruct P1 as (_ & C1 & A1). rewrite trace_snoc in C, A.
    apply Forall_app in C. destruct C as [_ C]. inversion C as [|? ? C2 _]; subst. cbn [fst snd] in C2.
    split; auto. rewrite trace_snoc. split.
    + apply Forall_app. split; auto. constructor; auto. cbn [fst snd]. intros Q. split; auto. rewrite (ui_en _ _ _ E) in Q.
      destruct (C2 Q) as [C3 _].
      rewrite !run_app in OU. cbn [run step fst snd] in OU.
      assert (X : bare_out p (output p (fst (run p s0 is1)) i') = bare_out p (output p (fst (run p s0 is)) i)).
      { rewrite !map_app in OU. apply app_split in OU; [|rewrite !map_length, !run_length; clear -F1; induction F1; cbn; auto].
        destruct OU as [_ OU]. exact (f_equal (hd (bare_out p (output p (fst (run p s0 is)) i))) OU). }
      assert (Y : o_req_rdy (output p (fst (run p s0 is1)) i') = o_req_rdy (output p (fst (run p s0 is)) i)) by exact (f_equal o_req_rdy X).
      rewrite Y. auto.
    + apply typed_snoc; auto. cbn [fst]. intros Q. rewrite (ui_men _ _ _ E) in Q. destruct (ui_mresp _ _ _ E Q) as [-> _].
      destruct (A (trace_of p s0 is) _ [] eq_refl Q) as (q & l & O & T). cbn [fst] in T. rewrite O in HO.
      destruct (outstanding (trace_of p s0 is1)) as [|q' l']; [discriminate HO|].
      assert (Z : mq_type q' = mq_type q) by exact (f_equal (fun l => mq_type (hd q l)) HO).
      exists q', l'. split; auto. rewrite T. auto.
Qed.

(** memory looks at neither the opaque field nor the data of a READ *)
Lemma bare_exec : forall m q q', bare_mreq q' = bare_mreq q -> fst (mem_exec p m q') = fst (mem_exec p m q).
Proof.
  intros m q q' H.
  assert (T : mq_type q' = mq_type q) by exact (f_equal mq_type H).
  assert (A : mq_addr q' = mq_addr q) by exact (f_equal mq_addr H).
  assert (L : mq_len q' = mq_len q) by exact (f_equal mq_len H).
  assert (M : mq_mask q' = mq_mask q) by exact (f_equal mq_mask H).
  pose proof (f_equal mq_data H) as D. cbn [bare_mreq mq_data] in D. rewrite T in D.
  unfold mem_exec. rewrite T, A, M. destruct (mq_type q =? T_READ); [auto|]. rewrite D. destruct (mq_type q =? T_WRITE); auto.
Qed.
Lemma bare_mem : forall l l' m, map bare_mreq l' = map bare_mreq l -> fst (mem_run p m l') = fst (mem_run p m l).
Proof.
  induction l as [|q l IH]; intros l' m H; destruct l' as [|q' l']; try discriminate H; auto.
  cbn [map] in H. assert (H1 : bare_mreq q' = bare_mreq q) by exact (f_equal (hd (bare_mreq q)) H).
  assert (H2 : map bare_mreq l' = map bare_mreq l) by exact (f_equal (@tl _) H).
  pose proof (bare_exec m _ _ H1) as X. cbn [mem_run]. destruct (mem_exec p m q) as [m1 x], (mem_exec p m q') as [m1' x']. cbn [fst] in X. subst m1'.
  specialize (IH l' m1 H2). destruct (mem_run p m1 l), (mem_run p m1 l'). exact IH.
Qed.

Theorem use_same : forall s0 is is' m0, proto_run p s0 is -> Forall2 (use_in p) is is' ->
  Forall (fun i => i_req_en i = true -> wf_req p (i_req i)) is' ->
  let tr := trace_of p s0 is in let tr' := trace_of p s0 is' in
  proto_run p s0 is' /\ Forall2 (same_use p) (accepted tr) (accepted tr') /\
  map (bare_resp p) (responses tr') = map (bare_resp p) (responses tr) /\
  (exists rest, map echo (accepted tr') = map echo_y (responses tr') ++ rest) /\
  map bare_mreq (memreqs tr') = map bare_mreq (memreqs tr) /\
  fst (mem_run p m0 (memreqs tr')) = fst (mem_run p m0 (memreqs tr)).
Proof.
  intros s0 is is' m0 P F WF tr tr'. pose proof (use_proto is is' s0 P F WF) as P'.
  destruct (use_traces is is' _ _ F (unused_ports s0 is is' P F) (run_length p is s0)) as (H1 & H2 & H3 & _ & _).
  fold (trace_of p s0 is) (trace_of p s0 is') in *. fold tr tr' in H1, H2, H3.
  split; [auto|]. split; [auto|]. split; [auto|]. split; [apply proto_echo; auto|]. split; [auto|]. apply bare_mem; auto.
Qed.
End U2.
