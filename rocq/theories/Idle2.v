(** C55 and C56 for whole runs. *)
From Coq Require Import NArith List Bool Lia.
From Verif Require Import Bits Params Msg Units Rtl Mem Spec System RefineInv RefineProofs SysProofs SysFacts Tl Hide Proto IdleSpec Idle.
Import ListNotations.
Open Scope N_scope.

Section I2.
Variable p : params.
Hypothesis W : wf_params p.

Lemma legal_run_snoc : forall is s out i, legal_run p s out is -> legal p (fst (run p s is)) (outs p s out is) i -> legal_run p s out (is ++ [i]).
Proof.
  induction is as [|j is IH]; intros s out i H1 H2; cbn [app legal_run outs run fst] in *; auto.
  destruct H1 as [H1 H3]. split; auto. apply IH; auto. cbn [run step] in H2. destruct (run p (next p s j) is) as [s2 os]. exact H2.
Qed.

Lemma proto_legal : forall is s0, proto_run p s0 is -> legal_run p s0 [] is /\ outs p s0 [] is = outstanding (trace_of p s0 is).
Proof.
  induction is as [|i is IH] using rev_ind; intros s0 P; [split; [exact I | auto]|].
  destruct (IH s0 (proto_app p s0 is [i] P)) as [L O]. destruct (proto_app p s0 is [i] P) as (_ & _ & A0).
  destruct P as (R & C & A). rewrite trace_snoc in C, A. unfold client_ok in C. apply Forall_app in C. destruct C as [_ C]. inversion C as [|? ? C1 _]; subst.
  cbn [fst snd] in C1.
  assert (LG : legal p (fst (run p s0 is)) (outs p s0 [] is) i).
  { constructor.
    - intros Q. destruct (C1 Q) as [C2 C3]. split; auto. eapply wf_req_type; eauto.
    - intros Q. rewrite O. exact (A (trace_of p s0 is) _ [] eq_refl Q). }
  split; [apply legal_run_snoc; auto|].
  rewrite outs_snoc, trace_snoc, outstanding_next, O; auto.
  - apply typed_le; auto.
  - intros Q. destruct (lg_resp _ _ _ _ LG Q) as (q & l & E & _). rewrite O in E. rewrite E. discriminate.
Qed.

Theorem idle_ports : forall s0 is is', proto_run p s0 is -> Forall2 idle_eq is is' ->
  map drop_out (snd (run p s0 is')) = map drop_out (snd (run p s0 is)).
Proof.
  intros s0 is is' P F. destruct (proto_legal is s0 P) as [L _]. destruct P as (R & _).
  pose (a := mkA (mkC (fun _ _ => 0) (fun _ => 0) (fun _ => 0)) None []).
  refine (proj1 (idle_run p W is is' s0 s0 a (reset_ieq p s0 R) _ L F)).
  right. split; auto. eexists. apply reset_init; auto.
Qed.

Definition drop_io (io : inp * outp) : outp := drop_out (snd io).

Lemma idle_traces : forall is is' os os', Forall2 idle_eq is is' -> map drop_out os' = map drop_out os -> length os = length is ->
  let tr := combine is os in let tr' := combine is' os' in
  accepted tr' = accepted tr /\ responses tr' = responses tr /\ map drop_wopq (memreqs tr') = map drop_wopq (memreqs tr) /\
  map mr_type (memresps tr') = map mr_type (memresps tr) /\ map o_req_rdy os' = map o_req_rdy os.
Proof.
  induction is as [|i is IH]; intros is' os os' F E LN; inversion F as [|? i' ? is2 F1 F2]; subst.
  - destruct os; [|discriminate LN]. destruct os'; [|discriminate E]. cbn. auto.
  - destruct os as [|o os]; [discriminate LN|]. destruct os' as [|o' os']; [discriminate E|].
    cbn [map] in E. assert (E1 : drop_out o' = drop_out o) by exact (f_equal (hd (drop_out o)) E).
    assert (E2 : map drop_out os' = map drop_out os) by exact (f_equal (@tl _) E).
    injection LN as LN. destruct (IH is2 os os' F2 E2 LN) as (H1 & H2 & H3 & H4 & H5).
    assert (O1 : o_resp o' = o_resp o) by exact (f_equal o_resp E1).
    assert (O2 : option_map drop_wopq (o_mreq o') = option_map drop_wopq (o_mreq o)) by exact (f_equal o_mreq E1).
    assert (O3 : o_req_rdy o' = o_req_rdy o) by exact (f_equal o_req_rdy E1).
    destruct F1. cbv zeta in *. unfold accepted, responses, memreqs, memresps in *. cbn [combine flat_map fst snd map].
    rewrite !map_app, H1, H2, H3, H4, H5, O1, O3, ie_en, ie_men. repeat split.
    + destruct (i_req_en i); auto. rewrite ie_req by auto. auto.
    + f_equal. destruct (o_mreq o), (o_mreq o'); cbn in *; congruence.
    + f_equal. destruct (i_mresp_en i); auto. cbn [map]. destruct (ie_mresp eq_refl) as [-> _]. auto.
Qed.

Lemma run_length : forall is s, length (snd (run p s is)) = length is.
Proof.
  induction is as [|i is IH]; intros s; auto. cbn [run step]. specialize (IH (next p s i)).
  destruct (run p (next p s i) is) as [u os]. cbn [snd length] in *. auto.
Qed.

Theorem idle_same : forall s0 is is', proto_run p s0 is -> Forall2 idle_eq is is' ->
  let tr := trace_of p s0 is in let tr' := trace_of p s0 is' in
  accepted tr' = accepted tr /\ responses tr' = responses tr /\ map drop_wopq (memreqs tr') = map drop_wopq (memreqs tr) /\
  map o_req_rdy (map snd tr') = map o_req_rdy (map snd tr).
Proof.
  intros s0 is is' P F tr tr'.
  destruct (idle_traces is is' _ _ F (idle_ports s0 is is' P F) (run_length is s0)) as (H1 & H2 & H3 & _ & H5).
  split; [auto|split; [auto|split; [auto|]]].
  assert (G : forall A B (l : list A) (l' : list B), length l = length l' -> map snd (combine l l') = l').
  { intros A B. induction l; destruct l'; intros Q; try discriminate Q; auto. cbn. f_equal. auto. }
  unfold tr, tr', trace_of. rewrite !G by (rewrite run_length; auto). auto.
Qed.

Lemma drop_outst : forall tr tr', map drop_wopq (memreqs tr') = map drop_wopq (memreqs tr) ->
  map mr_type (memresps tr') = map mr_type (memresps tr) -> map drop_wopq (outstanding tr') = map drop_wopq (outstanding tr).
Proof.
  intros tr tr' H1 H2. unfold outstanding. apply (f_equal (@length _)) in H2. rewrite !map_length in H2.
  rewrite <- !skipn_map, H1, H2. auto.
Qed.

Theorem idle_proto : forall is is' s0, proto_run p s0 is -> Forall2 idle_eq is is' -> proto_run p s0 is'.
Proof.
  induction is as [|i is IH] using rev_ind; intros is' s0 P F.
  - inversion F; subst. auto.
  - apply Forall2_app_inv_l in F. destruct F as (is1 & l & F1 & F2 & ->). inversion F2 as [|? i' ? ? E F3]; subst. inversion F3; subst. clear F2 F3.
    pose proof (proto_app p s0 is [i] P) as P0. pose proof (IH is1 s0 P0 F1) as P1.
    pose proof (idle_ports s0 (is ++ [i]) (is1 ++ [i']) P (Forall2_app F1 (Forall2_cons _ _ E (Forall2_nil _)))) as OU.
    destruct (idle_traces is is1 _ _ F1 (idle_ports s0 is is1 P0 F1) (run_length is s0)) as (_ & _ & H3 & H4 & _).
    pose proof (drop_outst _ _ H3 H4) as HO. fold (trace_of p s0 is) (trace_of p s0 is1) in HO.
    destruct P as (R & C & A). destruct P1 as (_ & C1 & A1). rewrite trace_snoc in C, A.
    apply Forall_app in C. destruct C as [_ C]. inversion C as [|? ? C2 _]; subst. cbn [fst snd] in C2.
    split; auto. rewrite trace_snoc. split.
    + apply Forall_app. split; auto. constructor; auto. cbn [fst snd]. intros Q. rewrite (ie_en _ _ E) in Q.
      rewrite (ie_req _ _ E Q). destruct (C2 Q) as [C3 C4]. split; auto.
      rewrite !run_app in OU. cbn [run step fst snd] in OU.
      assert (X : drop_out (output p (fst (run p s0 is1)) i') = drop_out (output p (fst (run p s0 is)) i)).
      { destruct (proto_legal is s0 P0) as [L O]. 
        rewrite !map_app in OU. apply app_split in OU; [|rewrite !map_length, !run_length; clear -F1; induction F1; cbn; auto].
        destruct OU as [_ OU]. exact (f_equal (hd (drop_out (output p (fst (run p s0 is)) i))) OU). }
      assert (Y : o_req_rdy (output p (fst (run p s0 is1)) i') = o_req_rdy (output p (fst (run p s0 is)) i)) by exact (f_equal o_req_rdy X).
      rewrite Y. auto.
    + apply typed_snoc; auto. cbn [fst]. intros Q. rewrite (ie_men _ _ E) in Q. destruct (ie_mresp _ _ E Q) as [-> _].
      destruct (A (trace_of p s0 is) _ [] eq_refl Q) as (q & l & O & T). cbn [fst] in T. rewrite O in HO.
      destruct (outstanding (trace_of p s0 is1)) as [|q' l']; [discriminate HO|].
      assert (Z : mq_type q' = mq_type q) by exact (f_equal (fun l => mq_type (hd q l)) HO).
      exists q', l'. split; auto. rewrite T. auto.
Qed.

(** Outputs depend on the state and the two ready inputs only. *)
Theorem comb_ports : forall s i i', i_resp_rdy i' = i_resp_rdy i -> i_mreq_rdy i' = i_mreq_rdy i -> output p s i' = output p s i.
Proof.
  intros s i i' H1 H2.
  assert (C2 : cs2 s i' = cs2 s i) by (unfold cs2; rewrite H1, H2; auto).
  assert (S : stall01 p s i' = stall01 p s i) by (unfold stall01, ostall2; rewrite C2; auto).
  unfold output, req_rdy, mshr_full, alloc_en, resp_en, memreq_en, memreq_out, resp_out, memreq_type, rdmux2, cs2_mtype, cs2_rdmux, cs2_dsize.
  rewrite C2, S. auto.
Qed.
End I2.

Theorem comb_run : forall p s0 is i i', i_resp_rdy i' = i_resp_rdy i -> i_mreq_rdy i' = i_mreq_rdy i ->
  snd (run p s0 (is ++ [i'])) = snd (run p s0 (is ++ [i])).
Proof.
  intros p s0 is i i' H1 H2. rewrite !run_app. cbn [run step fst snd]. rewrite (comb_ports p _ i i' H1 H2). auto.
Qed.

Theorem sends_ready : forall p s0 is i,
  let o := last (snd (run p s0 (is ++ [i]))) (mkOut false None None) in
  o_resp o <> None \/ o_mreq o <> None -> i_resp_rdy i = true /\ i_mreq_rdy i = true.
Proof.
  intros p s0 is i. rewrite run_app. cbn [run step fst snd]. rewrite last_last. cbv zeta.
  set (s := fst (run p s0 is)). unfold output, resp_en, memreq_en, cs2. cbn [o_resp o_mreq].
  destruct (i_resp_rdy i), (i_mreq_rdy i); cbn [negb orb]; auto; intros H; exfalso;
  destruct (t2 s); cbn [fst snd] in H; destruct H as [H | H]; apply H; auto.
Qed.

(** A cycle in which nobody sends the cache anything. *)
Lemma proto_quiet : forall p s0 is i, proto_run p s0 is -> i_req_en i = false -> i_mresp_en i = false -> proto_run p s0 (is ++ [i]).
Proof.
  intros p s0 is i (R & C & A) H1 H2. split; auto. rewrite trace_snoc. split.
  - apply Forall_app. split; auto. constructor; auto. cbn [fst]. rewrite H1. discriminate.
  - apply typed_snoc; auto. cbn [fst]. rewrite H2. discriminate.
Qed.
