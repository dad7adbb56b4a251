(** A cache over a memory about whose data nothing is known: only that it answers
    each request once, in order, with an answer of the request's type. *)
From Coq Require Import Arith NArith List Bool Lia.
From Verif Require Import Bits Params Msg Units Rtl Mem Spec System Traffic RefineInv RefineProofs SysProofs SysFacts Facts1 Facts2 Facts3 Progress
  MultiSys MultiFacts Hide Obliv.
Import ListNotations.
Open Scope N_scope.

Definition hide_io (io : inp * outp) : inp * outp := (hide_in (fst io), hide_out (snd io)).

Lemma hide_trace : forall p is is' s, map hide_in is' = map hide_in is ->
  map hide_io (trace_of p s is') = map hide_io (trace_of p s is).
Proof.
  intros p is is' s E. unfold trace_of.
  destruct (oblivious p is is' s s (ctl_refl s) E) as [H _].
  assert (G : forall A B (f : A -> A) (g : B -> B) l l', map (fun x => (f (fst x), g (snd x))) (combine l l') = combine (map f l) (map g l')).
  { intros A B f g. induction l; destruct l'; cbn; auto. f_equal. auto. }
  unfold hide_io. rewrite !G, E, H. auto.
Qed.

Lemma hide_resps : forall tr tr', map hide_io tr' = map hide_io tr ->
  map hide_cresp (responses tr') = map hide_cresp (responses tr) /\
  map hide_mreq (memreqs tr') = map hide_mreq (memreqs tr) /\
  length (memresps tr') = length (memresps tr) /\ length (accepted tr') = length (accepted tr).
Proof.
  induction tr as [|[i o] tr IH]; intros [|[i' o'] tr'] E; try discriminate E; auto.
  assert (E2 : map hide_io tr' = map hide_io tr) by exact (f_equal (@tl _) E).
  assert (E1 : hide_io (i', o') = hide_io (i, o)) by exact (f_equal (hd (hide_io (i, o))) E).
  destruct (IH tr' E2) as (H1 & H2 & H3 & H4).
  assert (EI : hide_in i' = hide_in i) by exact (f_equal fst E1).
  assert (EO : hide_out o' = hide_out o) by exact (f_equal snd E1).
  destruct (in_eq _ _ EI) as (I1 & I2 & I3 & I4 & _).
  assert (O1 : option_map hide_cresp (o_resp o') = option_map hide_cresp (o_resp o)) by exact (f_equal o_resp EO).
  assert (O2 : option_map hide_mreq (o_mreq o') = option_map hide_mreq (o_mreq o)) by exact (f_equal o_mreq EO).
  unfold responses, memreqs, memresps, accepted in *. cbn [flat_map fst snd]. rewrite !map_app, !app_length, H1, H2, H3, H4, I1, I4.
  repeat split.
  - f_equal. destruct (o_resp o), (o_resp o'); cbn in *; congruence.
  - f_equal. destruct (o_mreq o), (o_mreq o'); cbn in *; congruence.
  - f_equal. destruct (i_mresp_en i); auto.
  - f_equal. destruct (i_req_en i); auto.
Qed.

Lemma skipn_map : forall A B (f : A -> B) n l, skipn n (map f l) = map f (skipn n l).
Proof. intros A B f. induction n; destruct l; cbn; auto. Qed.

Lemma hide_outst : forall tr tr', map hide_io tr' = map hide_io tr ->
  map hide_mreq (outstanding tr') = map hide_mreq (outstanding tr).
Proof.
  intros tr tr' E. destruct (hide_resps _ _ E) as (_ & H2 & H3 & _). unfold outstanding.
  rewrite <- !skipn_map, H2, H3. auto.
Qed.

Lemma app_split : forall A (a b c d : list A), length a = length c -> a ++ b = c ++ d -> a = c /\ b = d.
Proof.
  intros A. induction a as [|x a IH]; intros b [|y c] d L E; try discriminate L; auto.
  injection L as L. injection E as -> E. destruct (IH _ _ _ L E). subst. auto.
Qed.
Lemma mem_trace_join : forall p m rq rs t m1 rq1 rs1, mem_trace p m rq rs t m1 rq1 rs1 ->
  forall t' m2 rq2 rs2, mem_trace p m1 rq1 rs1 t' m2 rq2 rs2 -> mem_trace p m rq rs (t ++ t') m2 rq2 rs2.
Proof.
  induction 1; intros; cbn [app]; auto.
  - apply mt_exec. auto.
  - apply mt_quiet; auto.
  - eapply mt_answer; eauto.
Qed.

Section P.
Variable p : params.
Hypothesis W : wf_params p.

Lemma proto_app : forall s0 is is2, proto_run p s0 (is ++ is2) -> proto_run p s0 is.
Proof.
  intros s0 is is2 (R & C & A). rewrite trace_app in C, A. apply Forall_app in C.
  split; [auto|split; [apply C|]]. intros t1 io t2 E. apply (A t1 io (t2 ++ trace_of p (fst (run p s0 is)) is2)).
  rewrite E, <- app_assoc. auto.
Qed.

Theorem proto_lift : forall is s0 m0, proto_run p s0 is ->
  exists is' m, sys_run p s0 is' m0 m (outstanding (trace_of p s0 is')) [] /\
    map hide_in is' = map hide_in is /\ accepted (trace_of p s0 is') = accepted (trace_of p s0 is).
Proof.
  induction is as [|i is IH] using rev_ind; intros s0 m0 P.
  - exists [], m0. split; [|auto]. destruct P as (R & C & A). split; auto. split; auto. constructor.
  - pose proof (proto_app _ _ _ P) as P0. destruct P as (R & C & A).
    destruct (IH s0 m0 P0) as (is' & m & S & E & AC).
    pose proof (hide_trace p _ _ s0 E) as HT. pose proof (hide_outst _ _ HT) as HO.
    pose proof (sys_resps_le p _ _ _ _ _ _ S) as LE.
    destruct (oblivious p _ _ s0 s0 (ctl_refl s0) E) as [_ CE].
    set (s := fst (run p s0 is)) in *. set (s' := fst (run p s0 is')) in *.
    rewrite trace_snoc in C, A. fold s in C, A. apply Forall_app in C. destruct C as [_ C]. inversion C as [|? ? C1 _]; subst.
    cbn [fst snd] in C1.
    set (x := match outstanding (trace_of p s0 is') with q :: _ => snd (mem_exec p m q) | [] => mresp0 end).
    set (i' := mkInp (i_req_en i) (i_req i) (i_resp_rdy i) (i_mreq_rdy i) (i_mresp_en i)
                 (if i_mresp_en i then x else i_mresp i)).
    assert (ANS : i_mresp_en i = true -> exists q l, outstanding (trace_of p s0 is') = q :: l /\ mr_type (i_mresp i) = mq_type q).
    { intros ME. destruct (A (trace_of p s0 is) (i, output p s i) [] eq_refl ME) as (q & l & OQ & TY).
      rewrite OQ in HO. destruct (outstanding (trace_of p s0 is')) as [|q' l']; [discriminate HO|].
      exists q', l'. split; auto. cbn [fst] in TY. rewrite TY. cbn [map] in HO. inversion HO. auto. }
    assert (HI : hide_in i' = hide_in i).
    { unfold hide_in, i'. cbn [i_req_en i_req i_resp_rdy i_mreq_rdy i_mresp_en i_mresp]. f_equal.
      destruct (i_mresp_en i) eqn:ME; auto. destruct (ANS eq_refl) as (q & l & OQ & TY).
      unfold x, hide_mresp. rewrite OQ, TY, mem_exec_type. auto. }
    pose proof (obl_out p s s' i i' CE HI) as HOUT.
    destruct S as (SR & SC & SM).
    assert (SNOC : trace_of p s0 (is' ++ [i']) = trace_of p s0 is' ++ [(i', output p s' i')]) by (rewrite trace_snoc; auto).
    exists (is' ++ [i']), (if i_mresp_en i then match outstanding (trace_of p s0 is') with q :: _ => fst (mem_exec p m q) | [] => m end else m).
    split; [|split].
    + split; auto. split.
      * rewrite SNOC. apply Forall_app. split; auto. constructor; auto. cbn [fst snd i' i_req_en i_req]. intros RE.
        destruct (C1 RE) as [C2 C3]. split; auto.
        assert (Q : o_req_rdy (output p s' i') = o_req_rdy (output p s i)) by exact (f_equal o_req_rdy HOUT). rewrite Q. auto.
      * rewrite SNOC. eapply mem_trace_join; eauto. rewrite outstanding_next; auto.
        2:{ cbn [i' i_mresp_en]. intros ME. destruct (ANS ME) as (q & l & -> & _). discriminate. }
        unfold outst_next. cbn [i' i_mresp_en]. rewrite ol_opt.
        destruct (i_mresp_en i) eqn:ME.
        -- destruct (ANS eq_refl) as (q & l & OQ & TY). unfold x. rewrite OQ. cbn [List.tl].
           apply mt_exec. cbn [app]. eapply mt_answer; [auto | | constructor]. cbn [i' i_mresp]. unfold i', x. cbn [i_mresp]. rewrite OQ. auto.
        -- apply mt_quiet; [auto|constructor].
    + rewrite !map_app, E. cbn [map]. rewrite HI. auto.
    + rewrite SNOC, trace_snoc, !accepted_app, AC. fold s. f_equal.
Qed.

(** *** Consequences *)
(** Everything but data transfers from runs with the ideal memory. *)
Lemma proto_same : forall is s0 m0, proto_run p s0 is -> exists is' m,
  sys_run p s0 is' m0 m (outstanding (trace_of p s0 is')) [] /\
  let tr := trace_of p s0 is in let tr' := trace_of p s0 is' in
  map hide_io tr' = map hide_io tr /\ accepted tr' = accepted tr /\
  map hide_cresp (responses tr') = map hide_cresp (responses tr) /\ map hide_mreq (memreqs tr') = map hide_mreq (memreqs tr) /\
  map hide_mreq (outstanding tr') = map hide_mreq (outstanding tr).
Proof.
  intros is s0 m0 P. destruct (proto_lift is s0 m0 P) as (is' & m & S & E & AC). exists is', m. split; auto.
  pose proof (hide_trace p _ _ s0 E) as HT. destruct (hide_resps _ _ HT) as (H1 & H2 & _). pose proof (hide_outst _ _ HT). repeat split; auto.
Qed.

Lemma map_hide : forall A B (h : A -> A) (f : A -> B) l l', (forall x, f (h x) = f x) -> map h l' = map h l -> map f l' = map f l.
Proof.
  intros A B h f l l' H E. apply (f_equal (map f)) in E. rewrite !map_map in E.
  rewrite <- (map_ext _ _ H l), <- (map_ext _ _ H l'). auto.
Qed.

Theorem proto_echo : forall s0 is, proto_run p s0 is ->
  let tr := trace_of p s0 is in
  exists rest, map echo (accepted tr) = map echo_y (responses tr) ++ rest.
Proof.
  intros s0 is P tr. destruct (proto_same is s0 (fun _ => 0) P) as (is' & m & S & _ & AC & HR & _).
  destruct (sys_echo p W _ _ _ _ _ _ S) as (rest & E). exists rest. fold tr in AC, HR. rewrite <- AC, E. f_equal.
  apply (map_hide _ _ hide_cresp); auto.
Qed.

Theorem proto_tests : forall s0 is, proto_run p s0 is ->
  let tr := trace_of p s0 is in
  exists rest, lru_tests p lru_empty (accepted tr) = map cr_test (responses tr) ++ rest.
Proof.
  intros s0 is P tr. destruct (proto_same is s0 (fun _ => 0) P) as (is' & m & S & _ & AC & HR & _).
  destruct (sys_tests p W _ _ _ _ _ _ S) as (rest & E). exists rest. fold tr in AC, HR. rewrite <- AC, E. f_equal.
  apply (map_hide _ _ hide_cresp); auto.
Qed.

Theorem proto_inflight : forall s0 is, proto_run p s0 is ->
  let tr := trace_of p s0 is in (length (responses tr) <= length (accepted tr) <= length (responses tr) + 2)%nat.
Proof.
  intros s0 is P tr. destruct (proto_same is s0 (fun _ => 0) P) as (is' & m & S & _ & AC & HR & _).
  pose proof (sys_inflight p W _ _ _ _ _ _ S) as H. cbv zeta in H. apply (f_equal (@length _)) in HR. rewrite !map_length in HR.
  fold tr in AC, HR. rewrite AC, HR in H. auto.
Qed.

Theorem proto_outst : forall s0 is, proto_run p s0 is ->
  let tr := trace_of p s0 is in
  (length (outstanding tr) <= 2)%nat /\ (length (nonwrites (outstanding tr)) <= 1)%nat.
Proof.
  intros s0 is P tr. destruct (proto_same is s0 (fun _ => 0) P) as (is' & m & S & _ & AC & _ & _ & HO).
  pose proof (sys_outst p W _ _ _ _ _ _ S) as H. cbv zeta in H. destruct H as (H1 & H2 & _).
  assert (G : forall l l', map hide_mreq l' = map hide_mreq l -> length l' = length l /\ length (nonwrites l') = length (nonwrites l)).
  { induction l as [|q l IH]; intros [|q' l'] E; try discriminate E; auto. inversion E as [[E1 E2 E3 E4 E5 E6]]. destruct (IH l' E6) as [I1 I2].
    unfold nonwrites in *. cbn [filter length]. rewrite E1. destruct (negb _); cbn [length]; auto. }
  destruct (G _ _ HO) as [G1 G2]. rewrite G1, G2 in *. auto.
Qed.

Theorem proto_shape : forall s0 is, proto_run p s0 is ->
  let tr := trace_of p s0 is in
  Forall (fun q => ((mq_type q = T_READ \/ mq_type q = T_WRITE /\ mq_mask q <> 0 /\ mq_mask q < 2 ^ (p_clw p / 32)) /\
     mq_addr q mod (p_clw p / 8) = 0 /\ mq_addr q < 2 ^ p_abw p /\ mq_len q = 0) \/
   (exists r, In r (accepted tr) /\ is_amo (mq_type q) = true /\ mq_type q = cq_type r /\ mq_addr q = cq_addr r /\
      mq_opq q = cq_opq r /\ mq_len q = 4)) (memreqs tr).
Proof.
  intros s0 is P tr. destruct (proto_same is s0 (fun _ => 0) P) as (is' & m & S & _ & AC & _ & HM & _).
  pose proof (sys_shape p W _ _ _ _ _ _ S) as H. fold tr in AC, HM. rewrite AC in H.
  revert H HM. generalize (accepted tr). generalize (memreqs (trace_of p s0 is')) (memreqs tr).
  induction l as [|q' l' IH]; intros [|q l] A H HM; try discriminate HM; auto. inversion H as [|? ? H1 H2]; subst.
  inversion HM as [[E1 E2 E3 E4 E5 E6]]. constructor; [|apply IH; auto].
  rewrite <- E1, <- E2, <- E3, <- E4, <- E5. destruct H1 as [H1 | (r & H1 & H3 & H4 & H5 & H6 & H7 & _)]; [left; auto|].
  right. exists r. auto 10.
Qed.

Theorem proto_traffic : forall s0 is m0, proto_run p s0 is ->
  let tr := trace_of p s0 is in
  exists G, traffic p none lru_empty m0 (accepted tr) G /\
    (exists rest, map hide_mreq (concat G) = map hide_mreq (memreqs tr) ++ rest) /\
    (exists mid, map hide_mreq (memreqs tr) = map hide_mreq (concat (firstn (length (responses tr)) G)) ++ mid).
Proof.
  intros s0 is m0 P tr. destruct (proto_same is s0 m0 P) as (is' & m & S & _ & AC & HR & HM & _).
  destruct (sys_traffic p W _ _ _ _ _ _ S) as (G & T & (rest & E1) & (mid & E2)). apply (f_equal (@length _)) in HR. rewrite !map_length in HR.
  fold tr in AC, HR, HM. rewrite AC in T. rewrite HR in E2. exists G. split; auto. split.
  - exists (map hide_mreq rest). rewrite E1, map_app, HM. auto.
  - exists (map hide_mreq mid). rewrite <- HM, E2, map_app. auto.
Qed.

Lemma hide_productive : forall t t' t0 t0', map hide_io t0' = map hide_io t0 -> map hide_io t' = map hide_io t ->
  productive_cycles t0' t' = productive_cycles t0 t.
Proof.
  induction t as [|io t IH]; intros [|io' t'] t0 t0' E0 E; try discriminate E; auto.
  assert (E2 : map hide_io t' = map hide_io t) by exact (f_equal (@tl _) E).
  assert (E1 : hide_io io' = hide_io io) by exact (f_equal (hd (hide_io io)) E).
  cbn [productive_cycles]. rewrite (IH t' (t0 ++ [io]) (t0' ++ [io'])); auto.
  2:{ rewrite !map_app, E0. cbn [map]. rewrite E1. auto. }
  assert (EI : hide_in (fst io') = hide_in (fst io)) by exact (f_equal fst E1).
  destruct (in_eq _ _ EI) as (I1 & I2 & I3 & I4 & _). pose proof (hide_outst _ _ E0) as HO.
  unfold productive. rewrite I2, I3, I4. destruct (outstanding t0), (outstanding t0'); try discriminate HO; auto.
Qed.

Theorem proto_progress : forall is is2 s0, proto_run p s0 (is ++ is2) ->
  let tr := trace_of p s0 is in
  (2 * N.to_nat (5 * total_lines p + 3) <= productive_cycles tr (trace_of p (fst (run p s0 is)) is2))%nat ->
  (length (accepted tr) <= length (responses (trace_of p s0 (is ++ is2))))%nat.
Proof.
  intros is is2 s0 P tr PC. destruct (proto_same (is ++ is2) s0 (fun _ => 0) P) as (is' & m & S & HT & AC & HR & _).
  assert (L : length is' = length (is ++ is2)).
  { apply (f_equal (@length _)) in HT. rewrite !map_length, !trace_length in HT. auto. }
  set (n := length is). rewrite <- (firstn_skipn n is') in S, HT, AC, HR. set (a := firstn n is') in *. set (b := skipn n is') in *.
  assert (LA : length a = length is) by (unfold a, n; rewrite firstn_length; rewrite app_length in L; lia).
  rewrite !trace_app, !map_app in HT.
  assert (HA : map hide_io (trace_of p s0 a) = map hide_io tr /\
               map hide_io (trace_of p (fst (run p s0 a)) b) = map hide_io (trace_of p (fst (run p s0 is)) is2)).
  { apply app_split; [unfold tr; rewrite !map_length, !trace_length; auto | exact HT]. }
  destruct HA as [HA HB].
  pose proof (sys_progress p W _ _ _ _ _ _ _ S) as H. cbv zeta in H. rewrite (hide_productive _ _ _ _ HA HB) in H. specialize (H PC).
  destruct (hide_resps _ _ HA) as (_ & _ & _ & LAC). rewrite LAC in H. fold tr in H.
  apply (f_equal (@length _)) in HR. rewrite !map_length in HR. rewrite HR in H. auto.
Qed.

Theorem proto_progress_latency : forall L is is2 s0, proto_run p s0 (is ++ is2) ->
  let tr := trace_of p s0 is in let tr2 := trace_of p (fst (run p s0 is)) is2 in
  Forall (fun i => i_resp_rdy i && i_mreq_rdy i = true) is2 -> answers_within L tr tr2 ->
  (2 * N.to_nat (5 * total_lines p + 3) * (L + 1) <= length is2)%nat ->
  (length (accepted tr) <= length (responses (trace_of p s0 (is ++ is2))))%nat.
Proof.
  intros L is is2 s0 R tr tr2 F AW LE. eapply proto_progress; eauto.
  apply (latency_count L); auto.
  - clear -F. generalize (fst (run p s0 is)). induction F as [|i is2 H F IH]; intros s; [constructor|].
    rewrite trace_cons. constructor; auto.
  - rewrite trace_length. replace (S L) with (L + 1)%nat by lia. auto.
Qed.

(** *** Every cache among several is such a cache, whatever the others do *)
Lemma typed_snoc : forall tr io, answers_typed tr ->
  (i_mresp_en (fst io) = true -> exists q l, outstanding tr = q :: l /\ mr_type (i_mresp (fst io)) = mq_type q) ->
  answers_typed (tr ++ [io]).
Proof.
  intros tr io A H t1 io' t2 E ME. destruct t2 as [|x t2] using rev_ind.
  - apply app_inj_tail in E. destruct E as [-> ->]. auto.
  - rewrite app_comm_cons, app_assoc in E. apply app_inj_tail in E. destruct E as [E _]. eapply A; eauto.
Qed.

Lemma typed_le : forall tr, answers_typed tr -> (length (memresps tr) <= length (memreqs tr))%nat.
Proof.
  induction tr as [|io tr IH] using rev_ind; intros A; auto.
  assert (A' : answers_typed tr).
  { intros t1 x t2 E. apply (A t1 x (t2 ++ [io])). rewrite E, <- app_assoc. auto. }
  specialize (IH A'). rewrite memresps_app, memreqs_app, !app_length. unfold memresps at 2, memreqs at 2. cbn [flat_map].
  rewrite !app_nil_r. destruct (i_mresp_en (fst io)) eqn:ME; [|cbn [length]; lia].
  destruct (A tr io [] eq_refl ME) as (q & l & O & _). unfold outstanding in O.
  assert (length (skipn (length (memresps tr)) (memreqs tr)) = S (length l)) by (rewrite O; auto).
  rewrite skipn_length in H. cbn [length]. lia.
Qed.

Lemma multi_typed : forall n m0 ts m rq rs, mmem p n m0 no_reqs no_resps ts m rq rs ->
  forall i, (i < n)%nat -> answers_typed (proj i ts) /\
    exists ms, outstanding (proj i ts) = ms ++ rq i /\ Forall2 (fun x q => mr_type x = mq_type q) (rs i) ms.
Proof.
  intros n m0 ts m rq rs H. induction H as [|ts m rq rs j q l H IH L E | ts m rq rs t H IH D]; intros i I.
  - split; [intros t1 io t2 E; destruct t1; discriminate E|]. exists []. split; [auto | constructor].
  - destruct (IH i I) as (LG & ms & OU & F). split; auto. unfold setq. destruct (Nat.eqb_spec i j) as [->|NE].
    + exists (ms ++ [q]). rewrite OU, E, <- app_assoc. split; auto. apply Forall2_app; auto. constructor; auto. apply mem_exec_type.
    + exists ms. auto.
  - destruct (IH i I) as (LG & ms & OU & F). rewrite proj_app. cbn [proj map].
    assert (X : i_mresp_en (fst (t i)) = true -> exists q l, outstanding (proj i ts) = q :: l /\ mr_type (i_mresp (fst (t i))) = mq_type q).
    { intros ME. destruct (D i I ME) as (l & RS). rewrite RS in F. inversion F as [|? q0 ? ms' F3 F4]; subst. rewrite OU.
      exists q0, (ms' ++ rq i). auto. }
    split; [apply typed_snoc; auto|].
    destruct (t i) as [x o] eqn:TI. cbn [fst snd] in *.
    rewrite outstanding_next; [|apply typed_le; auto|].
    2:{ intros ME. destruct (X ME) as (q & l & -> & _). discriminate. }
    unfold outst_next. rewrite ol_opt. destruct (i_mresp_en x) eqn:ME.
    + destruct (D i I) as (l & RS). { rewrite TI. auto. }
      rewrite RS in F |- *. cbn [List.tl]. inversion F as [|? q0 ? ms' F3 F4]; subst. rewrite OU.
      exists ms'. cbn [app List.tl]. rewrite <- app_assoc. auto.
    + exists ms. rewrite OU, <- app_assoc. auto.
Qed.

(** A run with the ideal memory is such a run, and remains one when other data are answered. *)
Theorem sys_proto : forall is s0 m0 m rq rs, sys_run p s0 is m0 m rq rs -> proto_run p s0 is.
Proof.
  induction is as [|i is IH] using rev_ind; intros s0 m0 m rq rs R.
  - destruct R as (R & C & _). split; auto. split; auto. intros [|? t1] io t2 E; discriminate E.
  - pose proof R as (R0 & C & _). split; auto. split; auto. rewrite trace_snoc.
    destruct (sys_app p _ _ _ _ _ _ _ R) as (m1 & rq1 & rs1 & R1 & _).
    destruct (legal_snoc p _ _ _ _ (sys_legal0 p _ _ _ _ _ _ R)) as [_ LG].
    apply typed_snoc; [eapply IH; eauto|]. cbn [fst]. intros ME. rewrite (sys_outs p _ _ _ _ _ _ R1). apply (lg_resp _ _ _ _ LG ME).
Qed.

Definition redata (f : mresp -> N) (i : inp) : inp :=
  mkInp (i_req_en i) (i_req i) (i_resp_rdy i) (i_mreq_rdy i) (i_mresp_en i)
    (mkMResp (mr_type (i_mresp i)) (mr_opq (i_mresp i)) (mr_len (i_mresp i)) (f (i_mresp i))).
Theorem redata_run : forall f is s0, proto_run p s0 is -> proto_run p s0 (map (redata f) is).
Proof.
  intros f is s0 P. induction is as [|i is IH] using rev_ind; auto. specialize (IH (proto_app _ _ _ P)).
  destruct P as (R & C & A), IH as (_ & C' & A'). split; auto. rewrite map_app. cbn [map].
  assert (E : map hide_in (map (redata f) is) = map hide_in is) by (rewrite map_map; apply map_ext; auto).
  destruct (oblivious p _ _ s0 s0 (ctl_refl s0) E) as [_ CE].
  pose proof (hide_outst _ _ (hide_trace p _ _ s0 E)) as HO.
  pose proof (obl_out p _ _ i (redata f i) CE eq_refl) as OUT.
  rewrite trace_snoc in C, A. apply Forall_app in C. destruct C as [_ C]. inversion C as [|? ? C1 _]; subst. cbn [fst snd] in C1.
  assert (Q : o_req_rdy (output p (fst (run p s0 (map (redata f) is))) (redata f i)) = o_req_rdy (output p (fst (run p s0 is)) i)) by exact (f_equal o_req_rdy OUT).
  rewrite trace_snoc. split.
  - apply Forall_app. split; auto. constructor; auto. cbn [fst snd redata i_req_en i_req]. rewrite Q. auto.
  - apply typed_snoc; auto. cbn [fst redata i_mresp_en i_mresp mr_type]. intros ME.
    destruct (A _ (i, output p (fst (run p s0 is)) i) [] eq_refl ME) as (q & l & OQ & TY). rewrite OQ in HO.
    destruct (outstanding (trace_of p s0 (map (redata f) is))) as [|q' l']; [discriminate HO|]. exists q', l'. split; auto.
    cbn [fst] in TY. rewrite TY. inversion HO; auto.
Qed.

End P.

Section PM.
Variable p : params.
Variable sz : nat -> N * N.
Variable n : nat.
Hypothesis W : wf_caches p sz n.
Notation pp := (sized p sz).

Theorem multi_proto : forall s0 m0 ts m rq rs i, clients p sz n s0 ts -> mmem p n m0 no_reqs no_resps ts m rq rs -> (i < n)%nat ->
  proto_run (pp i) (s0 i) (map fst (proj i ts)).
Proof.
  intros s0 m0 ts m rq rs i C M I. destruct (C i I) as (C1 & C2 & C3). destruct (multi_typed p n m0 _ _ _ _ M i I) as [A _].
  split; auto. rewrite <- C2. auto.
Qed.

Lemma proj_split : forall s0 ts1 ts2 i, clients p sz n s0 (ts1 ++ ts2) -> (i < n)%nat ->
  trace_of (pp i) (s0 i) (map fst (proj i ts1)) = proj i ts1 /\
  trace_of (pp i) (fst (run (pp i) (s0 i) (map fst (proj i ts1)))) (map fst (proj i ts2)) = proj i ts2.
Proof.
  intros s0 ts1 ts2 i C I. destruct (C i I) as (_ & C2 & _). rewrite proj_app, map_app, trace_app in C2. symmetry in C2.
  apply app_split in C2; auto. rewrite trace_length, map_length. auto.
Qed.
Theorem multi_progress : forall s0 m0 ts1 ts2 m rq rs i, clients p sz n s0 (ts1 ++ ts2) ->
  mmem p n m0 no_reqs no_resps (ts1 ++ ts2) m rq rs -> (i < n)%nat ->
  (2 * N.to_nat (5 * total_lines (pp i) + 3) <= productive_cycles (proj i ts1) (proj i ts2))%nat ->
  (length (accepted (proj i ts1)) <= length (responses (proj i (ts1 ++ ts2))))%nat.
Proof.
  intros s0 m0 ts1 ts2 m rq rs i C M I PC. pose proof (multi_proto _ _ _ _ _ _ _ C M I) as P.
  destruct (proj_split _ _ _ _ C I) as [E1 E2]. destruct (C i I) as (_ & E & _). rewrite proj_app, map_app in P, E.
  pose proof (proto_progress (pp i) (W i I) _ _ _ P) as H. cbv zeta in H. rewrite E1, E2, <- E, <- proj_app in H. auto.
Qed.
Theorem multi_latency : forall L s0 m0 ts1 ts2 m rq rs i, clients p sz n s0 (ts1 ++ ts2) ->
  mmem p n m0 no_reqs no_resps (ts1 ++ ts2) m rq rs -> (i < n)%nat ->
  Forall (fun io => i_resp_rdy (fst io) && i_mreq_rdy (fst io) = true) (proj i ts2) -> answers_within L (proj i ts1) (proj i ts2) ->
  (2 * N.to_nat (5 * total_lines (pp i) + 3) * (L + 1) <= length ts2)%nat ->
  (length (accepted (proj i ts1)) <= length (responses (proj i (ts1 ++ ts2))))%nat.
Proof.
  intros L s0 m0 ts1 ts2 m rq rs i C M I F AW LE. eapply multi_progress; eauto.
  apply (latency_count L); auto. unfold proj. rewrite map_length. replace (S L) with (L + 1)%nat by lia. auto.
Qed.

End PM.
