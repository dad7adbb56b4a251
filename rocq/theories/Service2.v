(** C54, lifted to caches over memories with arbitrary data, and to caches that share a memory. *)
From Coq Require Import NArith PeanoNat List Bool Lia.
From Verif Require Import Bits Params Msg Units Rtl Mem Tl ParamsProofs RtlLemmas RefineInv RefineStall RefineReq
  RefineProofs Spec System Traffic MultiSys MultiFacts SysProofs SysFacts Facts1 Facts2 Facts3 Progress Hide Obliv Proto Live TimeSpec Service.
Import ListNotations.
Open Scope N_scope.

Section P.
Variable p : params.
Hypothesis W : wf_params p.

Lemma service_mono : forall r n m, (n <= m)%nat -> (service p r n <= service p r m)%nat.
Proof.
  intros r n m H. unfold service. destruct (cq_type r =? T_INV); [lia|]. destruct (cq_type r =? T_FLUSH); [lia|].
  destruct n, m; try lia; destruct (is_amo (cq_type r)); lia.
Qed.
Lemma service_type : forall r r' n, cq_type r' = cq_type r -> service p r' n = service p r n.
Proof. intros r r' n E. unfold service. rewrite E. auto. Qed.
Lemma traffic_type : forall r r', cq_type r' = cq_type r -> max_traffic p r' = max_traffic p r.
Proof. intros r r' E. unfold max_traffic. rewrite E. auto. Qed.

(** A run over any memory looks like one over the ideal memory. *)
Lemma lift2m : forall m0 s0 is i is2, proto_run p s0 ((is ++ [i]) ++ is2) -> exists is' i' is2' m rq,
  sys_run p s0 ((is' ++ [i']) ++ is2') m0 m rq [] /\ hide_in i' = hide_in i /\
  map hide_in is' = map hide_in is /\ map hide_in is2' = map hide_in is2 /\
  let tr1 := trace_of p s0 (is ++ [i]) in let tr2 := trace_of p (fst (run p s0 (is ++ [i]))) is2 in
  let tr1' := trace_of p s0 (is' ++ [i']) in let tr2' := trace_of p (fst (run p s0 (is' ++ [i']))) is2' in
  map hide_io tr1' = map hide_io tr1 /\ map hide_io tr2' = map hide_io tr2 /\ accepted tr1' = accepted tr1.
Proof.
  intros m0 s0 is i is2 P. destruct (proto_lift p _ s0 m0 P) as (x & m & S & E & EA).
  rewrite map_app in E. apply map_eq_app in E. destruct E as (x1 & x2 & -> & E1 & E2).
  rewrite map_app in E1. cbn [map] in E1. apply map_eq_app in E1. destruct E1 as (y1 & y2 & -> & E3 & E4).
  destruct y2 as [|i' [|? ?]]; try discriminate E4. cbn [map] in E4.
  assert (E5 : hide_in i' = hide_in i) by exact (f_equal (hd (hide_in i)) E4).
  exists y1, i', x2, m. eexists. split; [exact S|]. split; auto. split; auto. split; auto.
  cbv zeta. assert (EE : map hide_in (y1 ++ [i']) = map hide_in (is ++ [i])) by (rewrite !map_app, E3; cbn [map]; rewrite E5; auto).
  pose proof (hide_trace p _ _ s0 EE) as HT. split; auto.
  assert (EF : map hide_in ((y1 ++ [i']) ++ x2) = map hide_in ((is ++ [i]) ++ is2)) by (rewrite (map_app _ (y1 ++ [i'])), EE, E2, <- map_app; auto).
  pose proof (hide_trace p _ _ s0 EF) as HF. rewrite (trace_app p (y1 ++ [i'])), (trace_app p (is ++ [i])), !map_app in HF.
  assert (LT : length (accepted (trace_of p s0 (y1 ++ [i']))) = length (accepted (trace_of p s0 (is ++ [i])))) by apply (hide_resps _ _ HT).
  rewrite !(trace_app p (_ ++ _)), !accepted_app in EA. apply app_split in EA; [|exact LT].
  apply app_split in HF; [split; [apply HF | apply EA]|]. change (length (map hide_io (trace_of p s0 (y1 ++ [i']))) = length (map hide_io (trace_of p s0 (is ++ [i])))). rewrite HT. auto.
Qed.

Lemma lift2 : forall s0 is i is2, proto_run p s0 ((is ++ [i]) ++ is2) -> exists is' i' is2' m rq,
  sys_run p s0 ((is' ++ [i']) ++ is2') (fun _ => 0) m rq [] /\ hide_in i' = hide_in i /\
  map hide_in is' = map hide_in is /\ map hide_in is2' = map hide_in is2 /\
  let tr1 := trace_of p s0 (is ++ [i]) in let tr2 := trace_of p (fst (run p s0 (is ++ [i]))) is2 in
  let tr1' := trace_of p s0 (is' ++ [i']) in let tr2' := trace_of p (fst (run p s0 (is' ++ [i']))) is2' in
  map hide_io tr1' = map hide_io tr1 /\ map hide_io tr2' = map hide_io tr2.
Proof.
  intros s0 is i is2 P. destruct (lift2m (fun _ => 0) _ _ _ _ P) as (is' & i' & is2' & m & rq & S & H1 & H2 & H3 & H4 & H5 & _).
  exists is', i', is2', m, rq. cbv zeta. repeat (split; [assumption|]). assumption.
Qed.
Lemma hide_len : forall tr tr', map hide_io tr' = map hide_io tr ->
  length (responses tr') = length (responses tr) /\ length (accepted tr') = length (accepted tr) /\
  length (memreqs tr') = length (memreqs tr).
Proof.
  intros tr tr' E. destruct (hide_resps _ _ E) as (H1 & H2 & _ & H4).
  apply (f_equal (@length _)) in H1. apply (f_equal (@length _)) in H2. rewrite !map_length in H1, H2. auto.
Qed.
Lemma hide_inE : forall i i', hide_in i' = hide_in i -> i_req_en i' = i_req_en i /\ cq_type (i_req i') = cq_type (i_req i) /\
  i_resp_rdy i' && i_mreq_rdy i' = i_resp_rdy i && i_mreq_rdy i.
Proof. intros i i' H. inversion H. auto. Qed.

Theorem proto_service_bound : forall is2 is i s0, proto_run p s0 ((is ++ [i]) ++ is2) -> i_req_en i = true ->
  let tr1 := trace_of p s0 (is ++ [i]) in let tr2 := trace_of p (fst (run p s0 (is ++ [i]))) is2 in
  (service p (i_req i) (length (memreqs tr2)) <= productive_cycles tr1 tr2)%nat ->
  (length (accepted tr1) <= length (responses (tr1 ++ tr2)))%nat.
Proof.
  intros is2 is i s0 P RE tr1 tr2 H.
  destruct (lift2 _ _ _ _ P) as (is' & i' & is2' & m & rq & S & HI & _ & _ & H1 & H2). fold tr1 tr2 in H1, H2.
  destruct (hide_inE _ _ HI) as (EN & ET & _). rewrite RE in EN.
  pose proof (service_bound p W _ _ _ _ _ _ _ _ S EN) as B. cbv zeta in B.
  destruct (hide_len _ _ H1) as (_ & A1 & _). destruct (hide_len _ _ H2) as (R2 & _ & M2). destruct (hide_len _ _ H1) as (R1 & _).
  rewrite !responses_app, !app_length in *. rewrite A1, R1, R2, M2, (service_type (i_req i)) in B by auto.
  rewrite (hide_productive _ _ _ _ H1 H2) in B. auto.
Qed.

Theorem proto_service_traffic : forall is2 is i s0, proto_run p s0 ((is ++ [i]) ++ is2) -> i_req_en i = true ->
  let tr1 := trace_of p s0 (is ++ [i]) in let tr2 := trace_of p (fst (run p s0 (is ++ [i]))) is2 in
  (length (responses (tr1 ++ tr2)) < length (accepted tr1))%nat ->
  (length (memreqs tr2) <= max_traffic p (i_req i))%nat.
Proof.
  intros is2 is i s0 P RE tr1 tr2 H.
  destruct (lift2 _ _ _ _ P) as (is' & i' & is2' & m & rq & S & HI & _ & _ & H1 & H2). fold tr1 tr2 in H1, H2.
  destruct (hide_inE _ _ HI) as (EN & ET & _). rewrite RE in EN.
  pose proof (service_traffic p W _ _ _ _ _ _ _ _ S EN) as B. cbv zeta in B.
  destruct (hide_len _ _ H1) as (_ & A1 & _). destruct (hide_len _ _ H2) as (R2 & _ & M2). destruct (hide_len _ _ H1) as (R1 & _).
  rewrite !responses_app, !app_length in *. rewrite A1, R1, R2, M2, (traffic_type (i_req i)) in B by auto. auto.
Qed.

Lemma proto_exact_gen : forall m0 is2 is i j s0, proto_run p s0 ((is ++ [i]) ++ is2 ++ [j]) -> i_req_en i = true ->
  let tr1 := trace_of p s0 (is ++ [i]) in let s1 := fst (run p s0 (is ++ [i])) in
  let tr2 := trace_of p s1 (is2 ++ [j]) in
  Forall (fun i => i_resp_rdy i && i_mreq_rdy i = true) (is2 ++ [j]) ->
  (length (responses (tr1 ++ trace_of p s1 is2)) < length (accepted tr1))%nat ->
  (length (accepted tr1) <= length (responses (tr1 ++ tr2)))%nat ->
  productive_cycles tr1 tr2 = service p (i_req i) (length (memreqs tr2)) /\
  exists G g, traffic p none lru_empty m0 (accepted tr1) (G ++ [g]) /\ map hide_mreq (concat G) = map hide_mreq (memreqs tr1) /\
    length (memreqs tr2) = length g.
Proof.
  intros m0 is2 is i j s0 P RE tr1 s1 tr2 F UN AN.
  destruct (lift2m m0 _ _ _ _ P) as (is' & i' & x & m & rq & S & HI & E1 & E2 & H1 & H2 & AC). fold tr1 s1 tr2 in H1, H2, AC.
  rewrite map_app in E2. cbn [map] in E2. apply map_eq_app in E2. destruct E2 as (is2' & y & -> & E2 & E3).
  destruct y as [|j' [|? ?]]; try discriminate E3. 
  destruct (hide_inE _ _ HI) as (EN & ET & _). rewrite RE in EN.
  pose proof (service_exact p W _ _ _ _ _ _ _ _ _ S EN) as B. cbv zeta in B.
  destruct (hide_len _ _ H1) as (R1 & A1 & _). destruct (hide_len _ _ H2) as (R2 & _ & M2).
  assert (H3 : map hide_io (trace_of p (fst (run p s0 (is' ++ [i']))) is2') = map hide_io (trace_of p s1 is2)).
  { pose proof H2 as HH. unfold tr2 in HH. rewrite !trace_app, !map_app in HH.
    apply app_split in HH; [apply HH|]. rewrite !map_length, !trace_length. apply (f_equal (@length _)) in E2. rewrite !map_length in E2. auto. }
  destruct (hide_len _ _ H3) as (R3 & _).
  rewrite !responses_app, !app_length in *. rewrite A1, R1, R2, R3, M2, (service_type (i_req i)), (hide_productive _ _ _ _ H1 H2) in B by auto.
  assert (F' : Forall (fun i => i_resp_rdy i && i_mreq_rdy i = true) (is2' ++ [j'])).
  { assert (EE : map hide_in (is2' ++ [j']) = map hide_in (is2 ++ [j])) by (rewrite !map_app, E2; cbn [map]; rewrite <- E3; auto).
    clear - F EE. revert EE F. generalize (is2' ++ [j']) as l', (is2 ++ [j]) as l.
    intros l'. induction l' as [|a l' IH]; intros [|b l] E F; try discriminate E; auto.
    inversion F; subst. constructor; [|apply (IH l); auto; exact (f_equal (@tl _) E)].
    assert (hide_in a = hide_in b) by exact (f_equal (hd (hide_in b)) E). destruct (hide_inE _ _ H) as (_ & _ & X). rewrite X. auto. }
  destruct (B F' UN AN) as (B1 & m1 & rq1 & rs1 & a1 & ST & CU & LN). split; auto.
  destruct (accept_traffic p W _ _ _ _ _ _ _ _ _ ST CU) as (A0 & G & _ & TG & CG). rewrite AC in TG.
  exists G, (tl_reqs p (a_c a1) (i_req i')). split; auto. split; auto. rewrite CG. apply (hide_resps _ _ H1).
Qed.
Theorem proto_service_exact : forall is2 is i j s0, proto_run p s0 ((is ++ [i]) ++ is2 ++ [j]) -> i_req_en i = true ->
  let tr1 := trace_of p s0 (is ++ [i]) in let s1 := fst (run p s0 (is ++ [i])) in
  let tr2 := trace_of p s1 (is2 ++ [j]) in
  Forall (fun i => i_resp_rdy i && i_mreq_rdy i = true) (is2 ++ [j]) ->
  (length (responses (tr1 ++ trace_of p s1 is2)) < length (accepted tr1))%nat ->
  (length (accepted tr1) <= length (responses (tr1 ++ tr2)))%nat ->
  productive_cycles tr1 tr2 = service p (i_req i) (length (memreqs tr2)).
Proof. intros is2 is i j s0 P RE tr1 s1 tr2 F UN AN. apply (proto_exact_gen (fun _ => 0) _ _ _ _ _ P RE F UN AN). Qed.
Theorem proto_predicted : forall m0 is2 is i j s0, proto_run p s0 ((is ++ [i]) ++ is2 ++ [j]) -> i_req_en i = true ->
  let tr1 := trace_of p s0 (is ++ [i]) in let s1 := fst (run p s0 (is ++ [i])) in
  let tr2 := trace_of p s1 (is2 ++ [j]) in
  Forall (fun i => i_resp_rdy i && i_mreq_rdy i = true) (is2 ++ [j]) ->
  (length (responses (tr1 ++ trace_of p s1 is2)) < length (accepted tr1))%nat ->
  (length (accepted tr1) <= length (responses (tr1 ++ tr2)))%nat ->
  exists G g, traffic p (fun _ => false) lru_empty m0 (accepted tr1) (G ++ [g]) /\ map hide_mreq (concat G) = map hide_mreq (memreqs tr1) /\
    productive_cycles tr1 tr2 = service p (i_req i) (length g).
Proof.
  intros m0 is2 is i j s0 P RE tr1 s1 tr2 F UN AN. destruct (proto_exact_gen m0 _ _ _ _ _ P RE F UN AN) as (E & G & g & TG & CG & LN).
  fold tr1 s1 tr2 in E, TG, CG, LN. exists G, g. split; auto. split; auto. rewrite <- LN. auto.
Qed.
(** READ and WRITE take two cycles exactly if the line is resident. *)
Theorem proto_hit_two : forall is2 is i j s0, proto_run p s0 ((is ++ [i]) ++ is2 ++ [j]) -> i_req_en i = true -> rw_req (i_req i) = true ->
  let tr1 := trace_of p s0 (is ++ [i]) in let s1 := fst (run p s0 (is ++ [i])) in
  let tr2 := trace_of p s1 (is2 ++ [j]) in
  Forall (fun i => i_resp_rdy i && i_mreq_rdy i = true) (is2 ++ [j]) ->
  (length (responses (tr1 ++ trace_of p s1 is2)) < length (accepted tr1))%nat ->
  (length (accepted tr1) <= length (responses (tr1 ++ tr2)))%nat ->
  let l := line_of p (cq_addr (i_req i)) in let resident := lru_run p lru_empty (accepted (trace_of p s0 is)) (l mod nblocks p) in
  (In l resident -> productive_cycles tr1 tr2 = 2%nat) /\ (~ In l resident -> productive_cycles tr1 tr2 = 7%nat \/ productive_cycles tr1 tr2 = 8%nat).
Proof.
  intros is2 is i j s0 P RE RW tr1 s1 tr2 F UN AN l res.
  destruct (proto_predicted (fun _ => 0) _ _ _ _ _ P RE F UN AN) as (G & g & TG & _ & E). fold tr1 s1 tr2 in TG, E.
  assert (AC : accepted tr1 = accepted (trace_of p s0 is) ++ [i_req i]).
  { unfold tr1. rewrite trace_snoc, accepted_app. unfold accepted at 2. cbn [flat_map fst]. rewrite RE. auto. }
  rewrite AC in TG. assert (LN : length (accepted (trace_of p s0 is)) = length G).
  { apply (traf_len p) in TG. rewrite !app_length in TG. cbn [length] in TG. lia. }
  apply (traf_snoc p _ _ _ _ _ _ _ LN) in TG. destruct TG as [_ TG]. unfold req_traffic in TG. rewrite RW in TG. fold l in TG. fold res in TG.
  assert (SV : forall n, service p (i_req i) n = match n with O => 2 | S _ => 6 + n end%nat).
  { intros n. unfold service, rw_req in *. 
    destruct (N.eqb_spec (cq_type (i_req i)) T_READ) as [X|X]; [rewrite X; destruct n; reflexivity|]. 
    destruct (N.eqb_spec (cq_type (i_req i)) T_WRITE) as [Y|Y]; [rewrite Y; destruct n; reflexivity|]. discriminate. }
  rewrite SV in E. clear - E TG. clearbody l res. set (pc := productive_cycles tr1 tr2) in *. clearbody pc. destruct (in_dec N.eq_dec l res) as [IN|NI].
  - subst g. cbn in E. split; [auto|contradiction].
  - destruct TG as (wb & q & -> & _ & L1 & _). rewrite app_length in E. cbn [length] in E.
    split; [contradiction|]. intros _. destruct wb as [|? [|? ?]]; cbn [length Nat.add] in *; [left|right|]; lia.
Qed.

Lemma accept_outst : forall is i s0, proto_run p s0 (is ++ [i]) -> i_req_en i = true -> outstanding (trace_of p s0 (is ++ [i])) = [].
Proof.
  intros is i s0 P RE. rewrite <- (app_nil_r (is ++ [i])) in P.
  destruct (lift2 _ _ _ _ P) as (is' & i' & x & m & rq & S & HI & E1 & E2 & H1 & _). destruct x; [|discriminate E2].
  rewrite app_nil_r in S. destruct (hide_inE _ _ HI) as (EN & _). rewrite RE in EN.
  destruct (accept_lft p W _ _ _ _ _ _ _ S EN) as (a & ST & _ & [(_ & todo & out & l & CU & _ & LO & _) | [(L & CU & _) | (L & _)]]).
  - destruct (stok_J p _ _ _ _ _ _ _ _ ST) as [_ OT]. rewrite (outst_cur _ _ _ _ _ CU) in OT.
    assert (O0 : out = []) by (destruct out; auto; cbn in LO; lia). rewrite O0 in OT.
    pose proof (hide_outst _ _ H1) as HO. rewrite OT in HO. destruct (outstanding (trace_of p s0 (is ++ [i]))); auto. discriminate HO.
  - destruct (stok_J p _ _ _ _ _ _ _ _ ST) as [_ OT]. unfold a_outst in OT. rewrite CU in OT.
    pose proof (hide_outst _ _ H1) as HO. rewrite OT in HO. destruct (outstanding (trace_of p s0 (is ++ [i]))); auto. discriminate HO.
  - lia.
Qed.

Lemma ready_trace : forall is2 s, Forall (fun i => i_resp_rdy i && i_mreq_rdy i = true) is2 ->
  Forall (fun io => i_resp_rdy (fst io) && i_mreq_rdy (fst io) = true) (trace_of p s is2).
Proof. intros is2 s F. revert s. induction F as [|i is2 H F IH]; intros s; [constructor|]. rewrite trace_cons. constructor; auto. Qed.

Lemma proto_waits : forall L is2 is i s0, proto_run p s0 ((is ++ [i]) ++ is2) -> i_req_en i = true ->
  let tr1 := trace_of p s0 (is ++ [i]) in let tr2 := trace_of p (fst (run p s0 (is ++ [i]))) is2 in
  Forall (fun i => i_resp_rdy i && i_mreq_rdy i = true) is2 -> answers_within L tr1 tr2 ->
  (length is2 <= productive_cycles tr1 tr2 + L * length (memreqs tr2))%nat.
Proof.
  intros L is2 is i s0 P RE tr1 tr2 F AW.
  destruct P as (R & C & A). 
  assert (A1 : forall a b, trace_of p s0 ((is ++ [i]) ++ is2) = a ++ b -> answers_typed a).
  { intros a b E t1 io t2 E'. apply (A t1 io (t2 ++ b)). rewrite E, E', <- app_assoc. auto. }
  assert (O1 : outstanding tr1 = []).
  { apply accept_outst; auto. split; auto. rewrite trace_app in C. apply Forall_app in C. split; [apply C|].
    eapply A1. apply trace_app. }
  pose proof (waits L tr1 tr2 AW) as WA. rewrite O1 in WA. cbn [length Nat.add] in WA. unfold tr2 in WA at 3. rewrite trace_length in WA.
  apply WA; [|apply ready_trace; auto].
  intros a b E. apply typed_le. apply (A1 _ b). rewrite trace_app. fold tr1 tr2. rewrite E, app_assoc. auto.
Qed.

(** An upper bound, for a memory that never makes the cache wait more than [L] cycles. *)
Theorem proto_latency : forall L is2 is i s0, proto_run p s0 ((is ++ [i]) ++ is2) -> i_req_en i = true ->
  let tr1 := trace_of p s0 (is ++ [i]) in let tr2 := trace_of p (fst (run p s0 (is ++ [i]))) is2 in
  Forall (fun i => i_resp_rdy i && i_mreq_rdy i = true) is2 -> answers_within L tr1 tr2 ->
  (service p (i_req i) (length (memreqs tr2)) + L * length (memreqs tr2) <= length is2)%nat ->
  (length (accepted tr1) <= length (responses (tr1 ++ tr2)))%nat.
Proof.
  intros L is2 is i s0 P RE tr1 tr2 F AW LE. apply proto_service_bound; auto. fold tr1 tr2.
  pose proof (proto_waits L is2 is i s0 P RE F AW). fold tr1 tr2 in H. lia.
Qed.
Theorem proto_worst : forall L is2 is i s0, proto_run p s0 ((is ++ [i]) ++ is2) -> i_req_en i = true ->
  let tr1 := trace_of p s0 (is ++ [i]) in let tr2 := trace_of p (fst (run p s0 (is ++ [i]))) is2 in
  Forall (fun i => i_resp_rdy i && i_mreq_rdy i = true) is2 -> answers_within L tr1 tr2 ->
  (service p (i_req i) (max_traffic p (i_req i)) + L * max_traffic p (i_req i) <= length is2)%nat ->
  (length (accepted tr1) <= length (responses (tr1 ++ tr2)))%nat.
Proof.
  intros L is2 is i s0 P RE tr1 tr2 F AW LE.
  destruct (Nat.le_gt_cases (length (accepted tr1)) (length (responses (tr1 ++ tr2)))) as [|GT]; auto.
  pose proof (proto_service_traffic _ _ _ _ P RE GT) as MT. fold tr2 in MT.
  eapply proto_latency; eauto. fold tr2. pose proof (service_mono (i_req i) _ _ MT). nia.
Qed.
(** Exactly, for a memory that answers each request in the next cycle. *)
Theorem proto_exact : forall is2 is i j s0, proto_run p s0 ((is ++ [i]) ++ is2 ++ [j]) -> i_req_en i = true ->
  let tr1 := trace_of p s0 (is ++ [i]) in let s1 := fst (run p s0 (is ++ [i])) in
  let tr2 := trace_of p s1 (is2 ++ [j]) in
  Forall (fun i => i_resp_rdy i && i_mreq_rdy i = true) (is2 ++ [j]) -> answers_within 0 tr1 tr2 ->
  (length (responses (tr1 ++ trace_of p s1 is2)) < length (accepted tr1))%nat ->
  (length (accepted tr1) <= length (responses (tr1 ++ tr2)))%nat ->
  length (is2 ++ [j]) = service p (i_req i) (length (memreqs tr2)).
Proof.
  intros is2 is i j s0 P RE tr1 s1 tr2 F AW UN AN.
  pose proof (proto_service_exact _ _ _ _ _ P RE F UN AN) as E. fold tr1 s1 tr2 in E.
  pose proof (proto_waits 0 _ _ _ _ P RE F AW) as H. fold tr1 s1 tr2 in H.
  pose proof (productive_le tr2 tr1) as PL. unfold tr2 in PL at 2. rewrite trace_length in PL. lia.
Qed.

End P.

(** *** Several caches *)
Section PM.
Variable p : params.
Variable sz : nat -> N * N.
Variable n : nat.
Hypothesis W : wf_caches p sz n.
Notation pp := (sized p sz).
Lemma multi_split : forall s0 m0 ts1 ts2 m rq rs i t, clients p sz n s0 ((ts1 ++ [t]) ++ ts2) ->
  mmem p n m0 no_reqs no_resps ((ts1 ++ [t]) ++ ts2) m rq rs -> (i < n)%nat ->
  let is := map fst (proj i ts1) in let is2 := map fst (proj i ts2) in
  proto_run (pp i) (s0 i) ((is ++ [fst (t i)]) ++ is2) /\
  trace_of (pp i) (s0 i) (is ++ [fst (t i)]) = proj i (ts1 ++ [t]) /\
  trace_of (pp i) (fst (run (pp i) (s0 i) (is ++ [fst (t i)]))) is2 = proj i ts2.
Proof.
  intros s0 m0 ts1 ts2 m rq rs i t C M I is is2. pose proof (multi_proto p _ _ _ _ _ _ _ _ _ C M I) as P.
  destruct (proj_split p _ _ _ _ _ _ C I) as [E1 E2]. 
  assert (X : map fst (proj i (ts1 ++ [t])) = is ++ [fst (t i)]) by (rewrite proj_app, map_app; auto).
  rewrite X in E1, E2. rewrite proj_app, map_app, X in P. auto.
Qed.

Theorem multi_service_bound : forall s0 m0 ts1 ts2 m rq rs i t, clients p sz n s0 ((ts1 ++ [t]) ++ ts2) ->
  mmem p n m0 no_reqs no_resps ((ts1 ++ [t]) ++ ts2) m rq rs -> (i < n)%nat -> i_req_en (fst (t i)) = true ->
  let tr1 := proj i (ts1 ++ [t]) in let tr2 := proj i ts2 in
  (service (pp i) (i_req (fst (t i))) (length (memreqs tr2)) <= productive_cycles tr1 tr2)%nat ->
  (length (accepted tr1) <= length (responses (tr1 ++ tr2)))%nat.
Proof.
  intros s0 m0 ts1 ts2 m rq rs i t C M I RE tr1 tr2 H. destruct (multi_split _ _ _ _ _ _ _ _ _ C M I) as (P & E1 & E2).
  pose proof (proto_service_bound (pp i) (W i I) _ _ _ _ P RE) as B. cbv zeta in B. rewrite E1, E2 in B. auto.
Qed.
Theorem multi_worst : forall L s0 m0 ts1 ts2 m rq rs i t, clients p sz n s0 ((ts1 ++ [t]) ++ ts2) ->
  mmem p n m0 no_reqs no_resps ((ts1 ++ [t]) ++ ts2) m rq rs -> (i < n)%nat -> i_req_en (fst (t i)) = true ->
  let tr1 := proj i (ts1 ++ [t]) in let tr2 := proj i ts2 in
  Forall (fun io => i_resp_rdy (fst io) && i_mreq_rdy (fst io) = true) tr2 -> answers_within L tr1 tr2 ->
  (service (pp i) (i_req (fst (t i))) (max_traffic (pp i) (i_req (fst (t i)))) + L * max_traffic (pp i) (i_req (fst (t i))) <= length ts2)%nat ->
  (length (accepted tr1) <= length (responses (tr1 ++ tr2)))%nat.
Proof.
  intros L s0 m0 ts1 ts2 m rq rs i t C M I RE tr1 tr2 F AW H. destruct (multi_split _ _ _ _ _ _ _ _ _ C M I) as (P & E1 & E2).
  pose proof (proto_worst (pp i) (W i I) L _ _ _ _ P RE) as B. cbv zeta in B. rewrite E1, E2 in B. apply B; auto.
  - clear - F. unfold tr2 in F. induction F; constructor; auto.
  - rewrite map_length. unfold proj. rewrite map_length. auto.
Qed.
End PM.
