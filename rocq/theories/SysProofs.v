(** From the ports to a history of completed transactions. *)
From Coq Require Import Arith NArith List Bool Lia.
From Verif Require Import Bits Params Msg Units Rtl Mem Spec System Tl ParamsProofs RefineInv RefineProofs ViewDefs ViewProofs.
Import ListNotations.
Open Scope N_scope.

Lemma ol_opt : forall A (o : option A), ol o = opt_list o.
Proof. destruct o; auto. Qed.

Lemma run_length : forall p is s, length (snd (run p s is)) = length is.
Proof.
  induction is as [|i is IH]; intros s; auto. cbn [run step].
  specialize (IH (next p s i)). destruct (run p (next p s i) is). cbn in *. lia.
Qed.
Lemma trace_cons : forall p s i is, trace_of p s (i :: is) = (i, output p s i) :: trace_of p (next p s i) is.
Proof.
  intros. unfold trace_of. cbn [run step]. destruct (run p (next p s i) is) as [s2 os]. auto.
Qed.

Lemma mem_exec_type : forall p m q, mr_type (snd (mem_exec p m q)) = mq_type q.
Proof.
  intros. unfold mem_exec. destruct (mq_type q =? T_READ); auto. destruct (mq_type q =? T_WRITE); auto.
Qed.

Lemma wf_req_type : forall p r, wf_req p r -> wf_type (cq_type r).
Proof.
  intros p r (_ & _ & [(-> & _) | H]); unfold wf_type; auto.
  destruct H as [(-> & _) | [(A & _) | [-> | ->]]]; auto.
  right; right; left. unfold is_amo, T_AMO_ADD, T_AMO_XOR, T_INV in *.
  destruct (N.leb_spec 3 (cq_type r)), (N.ltb_spec (cq_type r) 14); auto; lia.
Qed.

Section S.
Variable p : params.
Hypothesis W : wf_params p.

(** a client and a memory as above form a legal environment *)
Lemma sys_legal : forall m rq rs tr m' rq' rs', mem_trace p m rq rs tr m' rq' rs' ->
  forall is s out, tr = trace_of p s is -> client_ok p tr ->
  (exists ms, out = ms ++ rq /\ Forall2 (fun x q => mr_type x = mq_type q) rs ms) ->
  legal_run p s out is.
Proof.
  induction 1 as [m rq rs | m q rq rs tr m' rq' rs' MT IH | m rq rs i o tr m' rq' rs' NE MT IH
                  | m rq x rs i o tr m' rq' rs' NE EX MT IH]; intros is s out TR CL (ms & OUT & F).
  - destruct is as [|i is]; [exact I|]. rewrite trace_cons in TR. discriminate.
  - apply IH; auto. exists (ms ++ [q]). rewrite <- app_assoc. split; auto.
    apply Forall2_app; auto. constructor; auto. apply mem_exec_type.
  - destruct is as [|i' is]; [discriminate|]. rewrite trace_cons in TR. inversion TR; subst; clear TR.
    inversion CL as [|? ? CL1 CL2]; subst. cbn [legal_run]. split.
    + constructor; [|congruence]. intros E. destruct (CL1 E) as [C1 C2]. split; auto. eapply wf_req_type; eauto.
    + apply IH; auto. unfold outst_next. rewrite NE. exists ms. rewrite ol_opt, app_assoc. auto.
  - destruct is as [|i' is]; [discriminate|]. rewrite trace_cons in TR. inversion TR; subst; clear TR.
    inversion CL as [|? ? CL1 CL2]; subst. inversion F as [|? q ? ms' F1 F2]; subst. cbn [legal_run]. split.
    + constructor.
      * intros E. destruct (CL1 E) as [C1 C2]. split; auto. eapply wf_req_type; eauto.
      * intros _. exists q, (ms' ++ rq). auto.
    + apply IH; auto. unfold outst_next. rewrite NE. exists ms'. rewrite ol_opt. cbn [tl app]. rewrite app_assoc. auto.
Qed.

(** Histories of completed requests: requests, cache and memory contents,
    responses, memory requests (each with the request that caused it). *)
Inductive hist (m0 : mem) : list creq -> cst -> mem -> list cresp -> list (creq * mreq) -> Prop :=
| h_nil : forall c, clean_start p c -> hist m0 [] c m0 [] []
| h_step : forall A c m Y Q r, hist m0 A c m Y Q -> wf_req p r ->
    hist m0 (A ++ [r])
      (fst (tl_fin p c r (last_data (snd (mem_run p m (tl_reqs p c r))))))
      (fst (mem_run p m (tl_reqs p c r)))
      (Y ++ [snd (tl_fin p c r (last_data (snd (mem_run p m (tl_reqs p c r)))))])
      (Q ++ map (pair r) (tl_reqs p c r)).

Definition qmatch (e : creq * mreq) (q : mreq) : Prop := mreq_match (fst e) (snd e) q.
Definition rsim (x x' : mresp) : Prop := mr_type x = mr_type x' /\ mr_data x = mr_data x'.

Lemma mem_exec_sim : forall m r e q, mreq_match r e q ->
  fst (mem_exec p m e) = fst (mem_exec p m q) /\ rsim (snd (mem_exec p m e)) (snd (mem_exec p m q)).
Proof.
  intros m r e q (E1 & E2 & E3 & E4 & E5 & _). unfold mem_exec, rsim. rewrite E1, E2, E3, E4, E5.
  destruct (mq_type q =? T_READ); auto. destruct (mq_type q =? T_WRITE); auto.
Qed.

Lemma mem_run_app : forall qs qs' m,
  mem_run p m (qs ++ qs') =
  (fst (mem_run p (fst (mem_run p m qs)) qs'), snd (mem_run p m qs) ++ snd (mem_run p (fst (mem_run p m qs)) qs')).
Proof.
  induction qs as [|q qs IH]; intros qs' m; cbn [app mem_run].
  - cbn. destruct (mem_run p m qs'); auto.
  - destruct (mem_exec p m q) as [m1 x]. rewrite IH. destruct (mem_run p m1 qs) as [m2 xs]. cbn [fst snd app]. auto.
Qed.

Lemma last_data_app : forall xs ys d, fold_left (fun _ x => mr_data x) (xs ++ ys) d =
  fold_left (fun _ x => mr_data x) ys (fold_left (fun _ x => mr_data x) xs d).
Proof. intros. apply fold_left_app. Qed.

(** Histories up to any of the pending responses: memory has not changed since. *)
Definition pendok (m0 : mem) (E pd : list cresp) (A : list creq) (m : mem) (Q : list (creq * mreq)) : Prop :=
  forall n, (length E < n <= length E + length pd)%nat ->
    exists c1, hist m0 (firstn n A) c1 m (firstn n (E ++ pd)) Q.

Lemma hist_length : forall m0 A c m Y Q, hist m0 A c m Y Q -> length Y = length A.
Proof. induction 1; auto. rewrite !app_length. cbn. lia. Qed.

(** State of the machine, of memory, and what happened so far. *)
Inductive J (m0 : mem) : ast -> mem -> list mreq -> list mresp ->
                         list creq -> list cresp -> list mreq -> Prop :=
| J_idle : forall c pd m A E Q S, hist m0 A c m (E ++ pd) Q -> Forall2 qmatch Q S -> pendok m0 E pd A m Q ->
    J m0 (mkA c None pd) m [] [] A E S
| J_busy : forall c r todo out l pd m rq rs A E Q S mb ex qs got xs,
    hist m0 A c mb (E ++ pd) Q -> wf_req p r ->
    tl_reqs p c r = ex ++ qs ++ todo ->
    m = fst (mem_run p mb ex) -> snd (mem_run p mb ex) = got ++ xs -> Forall2 rsim xs rs ->
    Forall2 (mreq_match r) qs rq -> l = last_data got ->
    (exists ms, out = ms ++ rq /\ length ms = length rs) ->
    Forall2 qmatch (Q ++ map (pair r) (ex ++ qs)) S ->
    pendok m0 E pd A mb Q -> (pd = [] \/ ex ++ qs = []) ->
    J m0 (mkA c (Some (mkCur r todo out l)) pd) m rq rs (A ++ [r]) E S.

Lemma J_exec : forall m0 a m q rq rs A E S, J m0 a m (q :: rq) rs A E S ->
  J m0 a (fst (mem_exec p m q)) rq (rs ++ [snd (mem_exec p m q)]) A E S.
Proof.
  intros m0 a m q rq rs A E S H. inversion H; subst; clear H.
  inversion H6 as [|e ? qs' ? M1 M2]; subst; clear H6.
  destruct (mem_exec_sim (fst (mem_run p mb ex)) r e q M1) as [S1 S2].
  destruct H8 as (ms & -> & LM).
  eapply J_busy with (ex := ex ++ [e]) (qs := qs') (got := got)
     (xs := xs ++ [snd (mem_exec p (fst (mem_run p mb ex)) e)]); eauto.
  - rewrite H2. rewrite <- app_assoc. auto.
  - rewrite mem_run_app. cbn [fst mem_run]. rewrite <- S1.
    destruct (mem_exec p (fst (mem_run p mb ex)) e); auto.
  - rewrite mem_run_app. cbn [snd]. rewrite H4. cbn [mem_run].
    destruct (mem_exec p (fst (mem_run p mb ex)) e) as [mz xz] eqn:EX. cbn [fst snd]. rewrite app_assoc. auto.
  - apply Forall2_app; auto.
  - exists (ms ++ [q]). rewrite <- app_assoc. split; auto. rewrite !app_length. cbn. lia.
  - rewrite <- app_assoc. auto.
  - rewrite <- app_assoc. auto.
Qed.

Lemma J_recv : forall m0 a m rq x rs A E S a', J m0 a m rq (x :: rs) A E S -> a_recv a x a' ->
  J m0 a' m rq rs A E S.
Proof.
  intros m0 a m rq x rs A E S a' H R. inversion R; subst. inversion H; subst; clear H.
  match goal with F : Forall2 rsim ?xs (x :: rs) |- _ => inversion F as [|x' ? xs' ? M1 M2]; subst; clear F end.
  match goal with Z : exists ms, _ |- _ => destruct Z as (ms & MS & LM) end.
  destruct ms as [|mz ms]; [discriminate|]. cbn [app] in MS. inversion MS; subst.
  eapply J_busy with (got := got ++ [x']) (xs := xs'); eauto.
  - rewrite <- app_assoc. auto.
  - unfold last_data. rewrite fold_left_app. cbn. symmetry. apply M1.
Qed.

Lemma J_send : forall m0 a m rq rs A E S q a', J m0 a m rq rs A E S -> a_send a q a' ->
  J m0 a' m (rq ++ [q]) rs A E (S ++ [q]).
Proof.
  intros m0 a m rq rs A E S q a' H R. inversion R; subst. inversion H; subst; clear H.
  match goal with Z : exists ms, _ |- _ => destruct Z as (ms & -> & LM) end.
  eapply J_busy with (ex := ex) (qs := qs ++ [e]); eauto.
  - match goal with Z : tl_reqs p c r = _ |- _ => rewrite Z end. rewrite <- !app_assoc. auto.
  - apply Forall2_app; auto.
  - exists ms. rewrite app_assoc. auto.
  - rewrite (app_assoc ex), map_app, app_assoc. apply Forall2_app; auto. constructor; auto.
Qed.

Lemma pendok_emit : forall m0 E y pd A m Q, pendok m0 E (y :: pd) A m Q -> pendok m0 (E ++ [y]) pd A m Q.
Proof.
  intros m0 E y pd A m Q H n. rewrite app_length, <- app_assoc. cbn [length app]. intros L.
  apply H. cbn [length]. lia.
Qed.

Lemma J_emit : forall m0 a m rq rs A E S y a', J m0 a m rq rs A E S -> a_emit a y a' ->
  J m0 a' m rq rs A (E ++ [y]) S.
Proof.
  intros m0 a m rq rs A E S y a' H R. inversion R; subst. inversion H; subst; clear H.
  - eapply J_idle; eauto using pendok_emit. rewrite <- app_assoc. auto.
  - eapply J_busy; eauto using pendok_emit.
    + rewrite <- app_assoc. auto.
    + match goal with Z : _ \/ ex ++ qs = [] |- _ => destruct Z; [discriminate | auto] end.
Qed.

Lemma J_done : forall m0 a m rq rs A E S a', J m0 a m rq rs A E S -> a_done p a a' ->
  J m0 a' m rq rs A E S.
Proof.
  intros m0 a m rq rs A E S a' H R. inversion R; subst. inversion H; subst; clear H.
  match goal with Z : exists ms, _ |- _ => destruct Z as (ms & MS & LM) end.
  symmetry in MS. apply app_eq_nil in MS. destruct MS; subst.
  destruct rs; [|discriminate].
  match goal with F : Forall2 rsim xs [] |- _ => inversion F; subst; clear F end.
  match goal with F : Forall2 (mreq_match r) qs [] |- _ => inversion F; subst; clear F end.
  rewrite !app_nil_r in *.
  match goal with Z : tl_reqs p c r = _ |- _ => rename Z into TR end.
  match goal with Z : snd (mem_run p mb ex) = _ |- _ => rename Z into SN end.
  rewrite <- TR in *.
  assert (LD : last_data got = last_data (snd (mem_run p mb (tl_reqs p c r)))) by (rewrite SN; auto).
  rewrite LD.
  match goal with Z : hist m0 A0 c mb (E ++ pd) Q |- _ => rename Z into HH end.
  assert (HN : hist m0 (A0 ++ [r]) (fst (tl_fin p c r (last_data (snd (mem_run p mb (tl_reqs p c r))))))
     (fst (mem_run p mb (tl_reqs p c r)))
     (E ++ pd ++ [snd (tl_fin p c r (last_data (snd (mem_run p mb (tl_reqs p c r)))))])
     (Q ++ map (pair r) (tl_reqs p c r))).
  { rewrite app_assoc. apply h_step; auto. }
  eapply J_idle; eauto.
  match goal with Z : pendok _ _ _ _ _ _ |- _ => rename Z into PK end.
  pose proof (hist_length _ _ _ _ _ _ HH) as HL. rewrite app_length in HL.
  intros n L. rewrite app_length in L. cbn [length] in L.
  destruct (Nat.eq_dec n (length E + length pd + 1)) as [->|NE].
  - rewrite !firstn_all2 by (rewrite !app_length; cbn; lia). eauto.
  - destruct (PK n) as (c1 & H1); [lia|].
    match goal with X : pd = [] \/ _ |- _ => rename X into PE end. destruct PE as [PE | PE].
    + subst pd. cbn in *. lia.
    + exists c1. rewrite PE. cbn [mem_run fst snd map]. rewrite app_nil_r.
      rewrite app_assoc, !firstn_app. replace (n - length A0)%nat with 0%nat by lia.
      replace (n - length (E ++ pd))%nat with 0%nat by (rewrite app_length; lia).
      cbn [firstn]. rewrite !app_nil_r. rewrite firstn_app in H1. auto.
Qed.

Lemma J_acc : forall m0 a m rq rs A E S r a', J m0 a m rq rs A E S -> a_acc p a r a' -> wf_req p r ->
  J m0 a' m rq rs (A ++ [r]) E S.
Proof.
  intros m0 a m rq rs A E S r a' H R WR. inversion R; subst. inversion H; subst; clear H.
  eapply J_busy with (ex := []) (qs := []) (got := []) (xs := []); eauto.
  - exists []. auto.
  - cbn. rewrite app_nil_r. auto.
Qed.

Lemma J_cycle : forall m0 a m rq rs A E S i o a' rs1, J m0 a m rq rs A E S -> acyc p a i o a' ->
  (i_mresp_en i = true -> rs = i_mresp i :: rs1) -> (i_mresp_en i = false -> rs = rs1) ->
  (i_req_en i = true -> wf_req p (i_req i)) ->
  J m0 a' m (rq ++ opt_list (o_mreq o)) rs1 (A ++ (if i_req_en i then [i_req i] else []))
    (E ++ opt_list (o_resp o)) (S ++ opt_list (o_mreq o)).
Proof.
  intros m0 a m rq rs A E S i o a' rs1 H (a1 & a2 & a3 & C1 & C2 & C3 & C4) R1 R2 WR.
  assert (H1 : J m0 a1 m rq rs1 A E S).
  { unfold o_recv in C1. destruct (i_mresp_en i).
    - rewrite R1 in H by auto. eapply J_recv; eauto.
    - rewrite R2 in H by auto. subst; auto. }
  assert (H2 : J m0 a2 m (rq ++ opt_list (o_mreq o)) rs1 A (E ++ opt_list (o_resp o)) (S ++ opt_list (o_mreq o))).
  { unfold o_send in C2. destruct (o_mreq o), (o_resp o); cbn [opt_list]; rewrite ?app_nil_r; try contradiction.
    - eapply J_send; eauto.
    - eapply J_emit; eauto.
    - subst; auto. }
  assert (H3 : J m0 a3 m (rq ++ opt_list (o_mreq o)) rs1 A (E ++ opt_list (o_resp o)) (S ++ opt_list (o_mreq o))).
  { destruct C3 as [C3 | ->]; auto. eapply J_done; eauto. }
  unfold o_acc in C4. destruct (i_req_en i).
  - eapply J_acc; eauto.
  - subst. rewrite app_nil_r. auto.
Qed.

Lemma J_run : forall m rq rs tr m' rq' rs', mem_trace p m rq rs tr m' rq' rs' ->
  forall m0 a a' A E S, aruns p a tr a' -> client_ok p tr -> J m0 a m rq rs A E S ->
  J m0 a' m' rq' rs' (A ++ accepted tr) (E ++ responses tr) (S ++ memreqs tr).
Proof.
  induction 1 as [m rq rs | m q rq rs tr m' rq' rs' MT IH | m rq rs i o tr m' rq' rs' NE MT IH
                  | m rq x rs i o tr m' rq' rs' NE EX MT IH]; intros m0 a a' A E S AR CL H.
  - inversion AR; subst. cbn. rewrite !app_nil_r. auto.
  - apply IH with a; auto. apply J_exec; auto.
  - inversion AR; subst. inversion CL as [|? ? CL1 CL2]; subst. cbn [fst snd] in *.
    unfold accepted, responses, memreqs. cbn [flat_map fst snd]. rewrite !app_assoc.
    eapply IH; eauto. eapply J_cycle; eauto; try congruence. apply CL1.
  - inversion AR; subst. inversion CL as [|? ? CL1 CL2]; subst. cbn [fst snd] in *.
    unfold accepted, responses, memreqs. cbn [flat_map fst snd]. rewrite !app_assoc.
    eapply IH; eauto. eapply J_cycle; eauto; try congruence. apply CL1.
Qed.

(** The state of the whole system at the end of any run. *)
Theorem sys_inv : forall s0 is m0 m rq rs, sys_run p s0 is m0 m rq rs ->
  let tr := trace_of p s0 is in
  exists c0 a', clean_start p c0 /\ aruns p (mkA c0 None []) tr a' /\
    (phase p (fst (run p s0 is)) a' \/ a' = mkA c0 None [] /\ exists k, ph_init p (fst (run p s0 is)) k) /\
    J m0 a' m rq rs (accepted tr) (responses tr) (memreqs tr).
Proof.
  intros s0 is m0 m rq rs (RS & CL & MT) tr.
  assert (LG : legal_run p s0 [] is).
  { eapply sys_legal; eauto. exists []. split; auto. }
  destruct (refinement p W s0 is RS LG) as (c0 & a' & CS & AR & PH).
  exists c0, a'. split; auto. split; auto. split; auto.
  change (accepted tr) with ([] ++ accepted tr). change (responses tr) with ([] ++ responses tr).
  change (memreqs tr) with ([] ++ memreqs tr).
  eapply J_run; eauto. apply J_idle with []; [constructor; auto | constructor |].
  intros n. cbn. lia.
Qed.

(** Facts about histories *)
Lemma hist_wf : forall m0 A c m Y Q, hist m0 A c m Y Q -> Forall (wf_req p) A.
Proof. induction 1; auto. apply Forall_app. auto. Qed.

Definition eqm (m m' : mem) : Prop := forall a, a < 2 ^ p_abw p -> trunc 8 (m a) = trunc 8 (m' a).

Lemma flat_mem_app : forall A B m, flat_mem p m (A ++ B) = flat_mem p (flat_mem p m A) B.
Proof. induction A; intros; cbn; auto. Qed.
Lemma flat_data_app : forall A B m, flat_data p m (A ++ B) = flat_data p m A ++ flat_data p (flat_mem p m A) B.
Proof. induction A; intros; cbn; auto. rewrite IHA. auto. Qed.

Lemma req_in_range : forall r, wf_req p r -> wf_read p r \/ wf_write p r ->
  cq_addr r + req_bytes p r <= 2 ^ p_abw p.
Proof.
  intros r WF RW. pose proof WF as (HA & _).
  assert (F : a_off p (cq_addr r) + req_bytes p r <= 2 ^ offw p /\ 1 <= req_bytes p r).
  { destruct RW as [R | R].
    - split; [apply (read_geo p W r WF R)|]. destruct R as (_ & P & _). unfold pow2_size in P. lia.
    - split.
      + pose proof (wg_fit _ _ _ (write_geo p W r WF R)) as X. rewrite N2Nat.id in X. auto.
      + destruct (write_size p W r WF R) as [(_ & _ & ->) | (_ & _ & Z)]; lia. }
  destruct F as [F1 F2].
  destruct (addr_add p W (cq_addr r) (req_bytes p r - 1) HA) as (X & _); lia.
Qed.

Lemma flat_ext : forall m m' r, eqm m m' -> wf_req p r ->
  eqm (fst (flat_exec p m r)) (fst (flat_exec p m' r)) /\ snd (flat_exec p m r) = snd (flat_exec p m' r).
Proof.
  intros m m' r E WF. pose proof WF as (HA & _).
  assert (WR : forall a n d, eqm (wr_bytes m a n d) (wr_bytes m' a n d)).
  { intros a n d x X. unfold wr_bytes. destruct ((a <=? x) && (x <? a + N.of_nat n)); auto. }
  pose proof WF as (_ & _ & [RD | [WT | [AM | [IV | FL]]]]).
  - pose proof RD as (TY & _). unfold flat_exec. rewrite TY. change (T_READ =? T_READ) with true. cbn [fst snd].
    split; auto. apply rd_ext. intros k K. apply E. pose proof (req_in_range r WF (or_introl RD)). lia.
  - pose proof WT as (TY & _). unfold flat_exec. rewrite TY.
    change (T_WRITE =? T_READ) with false. change (T_WRITE =? T_WRITE) with true. cbn [fst snd]. auto.
  - pose proof AM as (TY & AL & _).
    assert (T1 : (cq_type r =? T_READ) = false /\ (cq_type r =? T_WRITE) = false /\ is_amo (cq_type r) = true).
    { unfold is_amo, T_INV, T_READ, T_WRITE, T_AMO_ADD, T_AMO_XOR in *.
      destruct (N.leb_spec 3 (cq_type r)), (N.ltb_spec (cq_type r) 14), (N.eqb_spec (cq_type r) 0), (N.eqb_spec (cq_type r) 1);
        cbn [andb]; repeat split; auto; lia. }
    destruct T1 as (T1 & T2 & T3). unfold flat_exec. rewrite T1, T2, T3.
    assert (R4 : rd_bytes m (cq_addr r) 4 = rd_bytes m' (cq_addr r) 4).
    { apply rd_ext. intros k K. apply E.
      destruct (off_aligned p (cq_addr r) 2) as [_ OF]; [pose proof (offw_ge3 p W); lia | auto |].
      apply (addr_add p W); auto. change (2 ^ 2) with 4 in OF. change (N.of_nat 4) with 4 in K. lia. }
    rewrite R4. cbn [fst snd]. auto.
  - unfold flat_exec. rewrite IV. cbn. auto.
  - unfold flat_exec. rewrite FL. cbn. auto.
Qed.

(** A history is a history of the flat memory. *)
Theorem hist_flat : forall m0 A c m Y Q, hist m0 A c m Y Q ->
  cinv p c m /\ eqm (view p c m) (flat_mem p m0 A) /\ map cr_data Y = flat_data p m0 A.
Proof.
  intros m0 A c m Y Q H. induction H as [c CS | A c m Y Q r H IH WF].
  - destruct CS as [C1 C2]. destruct (cinv_init p W c m0 C1) as [I V]; auto.
    split; auto. split; auto. intros a Ha. rewrite V. apply trunc_small. apply trunc_lt.
  - destruct IH as (I & V & D). destruct (tl_step p W c m r I WF) as (I' & V' & D').
    destruct (flat_ext _ _ r V WF) as [F1 F2].
    split; auto. rewrite flat_mem_app, flat_data_app, map_app, D. cbn [flat_mem flat_data map].
    split.
    + intros a Ha. rewrite V' by auto. apply F1; auto.
    + f_equal. f_equal. rewrite D', F2. auto.
Qed.

Definition echo (r : creq) : N * N * N := (cq_type r, cq_opq r, cq_len r).
Definition echo_y (y : cresp) : N * N * N := (cr_type y, cr_opq y, cr_len y).
Theorem hist_echo : forall m0 A c m Y Q, hist m0 A c m Y Q -> map echo_y Y = map echo A.
Proof.
  intros m0 A c m Y Q H. induction H as [c CS | A c m Y Q r H IH WF]; auto.
  rewrite !map_app, IH. cbn [map]. do 2 f_equal. unfold echo_y, echo.
  match goal with |- context [tl_fin p c r ?d] => destruct (tl_fin_echo p c r d) as (-> & -> & ->) end. auto.
Qed.

End S.
