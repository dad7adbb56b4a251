(** An executable two-cache system, used to exhibit concrete runs. *)
From Coq Require Import Arith NArith List Bool Lia.
From Verif Require Import Bits Params Msg Rtl Mem Spec System SysProofs SysFacts Traffic Harness MultiSys MultiFacts Hide.
Import ListNotations.
Open Scope N_scope.

Lemma inp_of_req : forall p s rs todo c, let i := inp_of p s rs todo c in i_req_en i = true ->
  o_req_rdy (output p s i) = true /\ exists l, todo = i_req i :: l.
Proof.
  intros p s rs todo c i.
  assert (RD : o_req_rdy (output p s i) = req_rdy p s (mkInp false creq0 (ch_resp_rdy c) (ch_mreq_rdy c) false mresp0)).
  { unfold output. cbn [o_req_rdy]. unfold req_rdy, stall01, mshr_full, alloc_en, stall01, ostall2, cs2.
    assert (I1 : i_resp_rdy i = ch_resp_rdy c /\ i_mreq_rdy i = ch_mreq_rdy c).
    { unfold i, inp_of. destruct todo, rs; try destruct (_ && _); try destruct (ch_answer c); auto. }
    destruct I1 as [-> ->]. reflexivity. }
  rewrite RD. unfold i, inp_of. destruct todo as [|r todo'].
  - destruct rs; try destruct (ch_answer c); cbn; discriminate.
  - destruct (ch_send c); cbn [andb].
    + destruct (req_rdy p s _) eqn:E; destruct rs; try destruct (ch_answer c); cbn; intros H; try discriminate; eauto.
    + destruct rs; try destruct (ch_answer c); cbn; discriminate.
Qed.
Lemma inp_of_resp : forall p s rs todo c, let i := inp_of p s rs todo c in i_mresp_en i = true ->
  exists l, rs = i_mresp i :: l.
Proof.
  intros p s rs todo c i ME. unfold i, inp_of in ME |- *. destruct rs as [|x l].
  - destruct todo; try destruct (_ && _); discriminate.
  - exists l. destruct (ch_answer c); destruct todo; try destruct (_ && _); auto; discriminate.
Qed.

(** Each cycle, cache 0's memory request is executed, then cache 1's. *)
Definition exec_opt (p : params) (m : mem) (rs : list mresp) (q : option mreq) : mem * list mresp :=
  match q with Some q => (fst (mem_exec p m q), rs ++ [snd (mem_exec p m q)]) | None => (m, rs) end.

Fixpoint mdrive (p : params) (z : nat -> N * N) (sa sb : st) (m : mem) (ra rb : list mresp) (ta tb : list creq) (cs : list (choice * choice))
  : list ((inp * outp) * (inp * outp)) * mem :=
  match cs with
  | [] => ([], m)
  | (ca, cb) :: cs =>
      let ia := inp_of (sized p z 0) sa ra ta ca in
      let ib := inp_of (sized p z 1) sb rb tb cb in
      let oa := output (sized p z 0) sa ia in
      let ob := output (sized p z 1) sb ib in
      let e1 := exec_opt p m (if i_mresp_en ia then tl ra else ra) (o_mreq oa) in
      let e2 := exec_opt p (fst e1) (if i_mresp_en ib then tl rb else rb) (o_mreq ob) in
      let r := mdrive p z (next (sized p z 0) sa ia) (next (sized p z 1) sb ib) (fst e2) (snd e1) (snd e2)
        (if i_req_en ia then tl ta else ta) (if i_req_en ib then tl tb else tb) cs in
      (((ia, oa), (ib, ob)) :: fst r, snd r)
  end.

Definition two (x : (inp * outp) * (inp * outp)) : cyc := fun i => match i with O => fst x | _ => snd x end.

Lemma mdrive_mem : forall p z cs sa sb m ra rb ta tb rq0 rs0,
  rq0 0%nat = [] -> rq0 1%nat = [] -> rs0 0%nat = ra -> rs0 1%nat = rb ->
  exists rq rs, mmem p 2 m rq0 rs0 (map two (fst (mdrive p z sa sb m ra rb ta tb cs))) (snd (mdrive p z sa sb m ra rb ta tb cs)) rq rs.
Proof.
  intros p z. induction cs as [|[ca cb] cs IH]; intros sa sb m ra rb ta tb rq0 rs0 Q0 Q1 R0 R1.
  - cbn. exists rq0, rs0. constructor.
  - cbn [mdrive]. set (ia := inp_of (sized p z 0) sa ra ta ca). set (ib := inp_of (sized p z 1) sb rb tb cb).
    set (oa := output (sized p z 0) sa ia). set (ob := output (sized p z 1) sb ib).
    set (e1 := exec_opt p m (if i_mresp_en ia then tl ra else ra) (o_mreq oa)).
    set (e2 := exec_opt p (fst e1) (if i_mresp_en ib then tl rb else rb) (o_mreq ob)).
    cbn [fst snd map].
    assert (X : exists rq1 rs1, mmem p 2 m rq0 rs0 [two (ia, oa, (ib, ob))] (fst e2) rq1 rs1 /\
       rq1 0%nat = [] /\ rq1 1%nat = [] /\ rs1 0%nat = snd e1 /\ rs1 1%nat = snd e2).
    { assert (A : mmem p 2 m rq0 rs0 ([] ++ [two (ia, oa, (ib, ob))]) m
          (fun i => rq0 i ++ opt_list (o_mreq (snd (two (ia, oa, (ib, ob)) i))))
          (fun i => if i_mresp_en (fst (two (ia, oa, (ib, ob)) i)) then tl (rs0 i) else rs0 i)).
      { apply mm_cycle; [constructor|]. intros i I E. destruct i as [|[|i]]; [| |lia]; cbn [two fst snd] in *.
        - rewrite R0. apply (inp_of_resp (sized p z 0) sa ra ta ca E).
        - rewrite R1. apply (inp_of_resp (sized p z 1) sb rb tb cb E). }
      set (rq2 := fun i => rq0 i ++ opt_list (o_mreq (snd (two (ia, oa, (ib, ob)) i)))) in A.
      set (rs2 := fun i => if i_mresp_en (fst (two (ia, oa, (ib, ob)) i)) then tl (rs0 i) else rs0 i) in A.
      assert (B : exists rq3 rs3, mmem p 2 m rq0 rs0 [two (ia, oa, (ib, ob))] (fst e1) rq3 rs3 /\
         rq3 0%nat = [] /\ rq3 1%nat = opt_list (o_mreq ob) /\ rs3 0%nat = snd e1 /\ rs3 1%nat = (if i_mresp_en ib then tl rb else rb)).
      { assert (QA : rq2 0%nat = opt_list (o_mreq oa)) by (unfold rq2; rewrite Q0; auto).
        assert (QB : rq2 1%nat = opt_list (o_mreq ob)) by (unfold rq2; rewrite Q1; auto).
        assert (RA : rs2 0%nat = if i_mresp_en ia then tl ra else ra) by (unfold rs2; rewrite R0; auto).
        assert (RB : rs2 1%nat = if i_mresp_en ib then tl rb else rb) by (unfold rs2; rewrite R1; auto).
        unfold e1. destruct (o_mreq oa) as [q|]; cbn [exec_opt fst snd].
        - eexists _, _. split; [eapply mm_exec with (i := 0%nat); [exact A | lia | exact QA]|].
          unfold setq. cbn [Nat.eqb]. rewrite RA. auto.
        - exists rq2, rs2. auto. }
      destruct B as (rq3 & rs3 & B & QA & QB & RA & RB).
      unfold e2. destruct (o_mreq ob) as [q|]; cbn [exec_opt fst snd].
      - eexists _, _. split; [eapply mm_exec with (i := 1%nat); [exact B | lia | exact QB]|].
        unfold setq. cbn [Nat.eqb]. rewrite RB. auto.
      - exists rq3, rs3. auto. }
    destruct X as (rq1 & rs1 & X & Q0' & Q1' & R0' & R1').
    destruct (IH (next (sized p z 0) sa ia) (next (sized p z 1) sb ib) (fst e2) (snd e1) (snd e2)
      (if i_req_en ia then tl ta else ta) (if i_req_en ib then tl tb else tb) rq1 rs1 Q0' Q1' R0' R1') as (rq & rs & Y).
    exists rq, rs. change (two (ia, oa, (ib, ob)) :: ?l) with ([two (ia, oa, (ib, ob))] ++ l). eapply mmem_trans; eauto.
Qed.

Lemma mdrive_cache : forall p z (P Q : creq -> Prop) cs sa sb m ra rb ta tb, Forall P ta -> Forall Q tb ->
  let ts := fst (mdrive p z sa sb m ra rb ta tb cs) in
  (map fst ts = trace_of (sized p z 0) sa (map (fun x => fst (fst x)) ts) /\
   Forall (fun io => i_req_en (fst io) = true -> o_req_rdy (snd io) = true /\ P (i_req (fst io))) (map fst ts)) /\
  (map snd ts = trace_of (sized p z 1) sb (map (fun x => fst (snd x)) ts) /\
   Forall (fun io => i_req_en (fst io) = true -> o_req_rdy (snd io) = true /\ Q (i_req (fst io))) (map snd ts)).
Proof.
  intros p z P Q. induction cs as [|[ca cb] cs IH]; intros sa sb m ra rb ta tb FA FB ts.
  - cbn. auto.
  - unfold ts. cbn [mdrive fst snd map]. rewrite !trace_cons. cbn [fst snd].
    set (ia := inp_of (sized p z 0) sa ra ta ca). set (ib := inp_of (sized p z 1) sb rb tb cb).
    set (oa := output (sized p z 0) sa ia). set (ob := output (sized p z 1) sb ib).
    set (e1 := exec_opt p m (if i_mresp_en ia then tl ra else ra) (o_mreq oa)).
    set (e2 := exec_opt p (fst e1) (if i_mresp_en ib then tl rb else rb) (o_mreq ob)).
    assert (FA' : Forall P (if i_req_en ia then tl ta else ta)) by (destruct (i_req_en ia); auto; destruct FA; cbn; auto).
    assert (FB' : Forall Q (if i_req_en ib then tl tb else tb)) by (destruct (i_req_en ib); auto; destruct FB; cbn; auto).
    destruct (IH (next (sized p z 0) sa ia) (next (sized p z 1) sb ib) (fst e2) (snd e1) (snd e2) _ _ FA' FB') as [[I1 I2] [I3 I4]].
    rewrite <- I1, <- I3. repeat split; auto; constructor; auto; cbn [fst snd]; intros E.
    + destruct (inp_of_req (sized p z 0) sa ra ta ca E) as (R & l & T). fold ia oa in R. split; auto. fold ia in T. rewrite T in FA. inversion FA; auto.
    + destruct (inp_of_req (sized p z 1) sb rb tb cb E) as (R & l & T). fold ib ob in R. split; auto. fold ib in T. rewrite T in FB. inversion FB; auto.
Qed.

Lemma accepted_all : forall (P : creq -> Prop) tr,
  Forall (fun io => i_req_en (fst io) = true -> o_req_rdy (snd io) = true /\ P (i_req (fst io))) tr -> Forall P (accepted tr).
Proof.
  induction tr as [|[i o] tr IH]; intros F; [constructor|]. inversion F as [|? ? F1 F2]; subst. unfold accepted. cbn [flat_map fst].
  apply Forall_app. split; [|apply IH; auto]. cbn [fst snd] in F1. destruct (i_req_en i); [|constructor]. constructor; [apply F1; auto | constructor].
Qed.

Theorem mdrive_run : forall p z owner sa sb m ta tb cs, reset_state (sized p z 0) sa -> reset_state (sized p z 1) sb ->
  Forall (fun r => wf_req p r /\ respects p owner 0 r) ta -> Forall (fun r => wf_req p r /\ respects p owner 1 r) tb ->
  exists rq rs, multi_run p z 2 owner (fun i => match i with O => sa | _ => sb end)
    (map two (fst (mdrive p z sa sb m [] [] ta tb cs))) m (snd (mdrive p z sa sb m [] [] ta tb cs)) rq rs.
Proof.
  intros p z owner sa sb m ta tb cs RA RB FA FB.
  destruct (mdrive_mem p z cs sa sb m [] [] ta tb no_reqs no_resps eq_refl eq_refl eq_refl eq_refl) as (rq & rs & M).
  exists rq, rs. split; auto.
  destruct (mdrive_cache p z _ _ cs sa sb m [] [] ta tb FA FB) as [[A1 A2] [B1 B2]].
  set (ts := fst (mdrive p z sa sb m [] [] ta tb cs)) in *. clearbody ts.
  assert (P0 : proj 0 (map two ts) = map fst ts) by (unfold proj; rewrite map_map; apply map_ext; auto).
  assert (P1 : proj 1 (map two ts) = map snd ts) by (unfold proj; rewrite map_map; apply map_ext; auto).
  intros i I. destruct i as [|[|i]]; [| |lia]; rewrite ?P0, ?P1; (split; [auto|split; [|split]]).
  - rewrite map_map. auto.
  - eapply Forall_impl; [|exact A2]. cbn. intros [x y] H E. apply H in E. tauto.
  - apply (accepted_all (fun r => wf_req p r /\ respects p owner 0 r)) in A2. eapply Forall_impl; [|exact A2]. cbn. tauto.
  - rewrite map_map. auto.
  - eapply Forall_impl; [|exact B2]. cbn. intros [x y] H E. apply H in E. tauto.
  - apply (accepted_all (fun r => wf_req p r /\ respects p owner 1 r)) in B2. eapply Forall_impl; [|exact B2]. cbn. tauto.
Qed.

(** The same without ownership. *)
Theorem mdrive_racy : forall p z sa sb m ta tb cs, reset_state (sized p z 0) sa -> reset_state (sized p z 1) sb -> Forall (wf_req p) ta -> Forall (wf_req p) tb ->
  clients p z 2 (fun i => match i with O => sa | _ => sb end) (map two (fst (mdrive p z sa sb m [] [] ta tb cs))) /\
  exists rq rs, mmem p 2 m no_reqs no_resps (map two (fst (mdrive p z sa sb m [] [] ta tb cs))) (snd (mdrive p z sa sb m [] [] ta tb cs)) rq rs.
Proof.
  intros p z sa sb m ta tb cs RA RB FA FB. split.
  2:{ apply mdrive_mem; auto. }
  destruct (mdrive_cache p z _ _ cs sa sb m [] [] ta tb FA FB) as [[A1 A2] [B1 B2]].
  set (ts := fst (mdrive p z sa sb m [] [] ta tb cs)) in *. clearbody ts.
  assert (P0 : proj 0 (map two ts) = map fst ts) by (unfold proj; rewrite map_map; apply map_ext; auto).
  assert (P1 : proj 1 (map two ts) = map snd ts) by (unfold proj; rewrite map_map; apply map_ext; auto).
  intros i I. destruct i as [|[|i]]; [| |lia]; rewrite ?P0, ?P1; (split; [auto|split; auto]); rewrite map_map; auto.
Qed.

(** Boolean ownership check. *)
Definition respectsb (p : params) (owner : N -> option nat) (i : nat) (r : creq) : bool :=
  (if cq_type r =? T_WRITE then
     forallb (fun d => match owner (word_num (cq_addr r) + d) with Some j => Nat.eqb j i | None => false end)
       (map N.of_nat (seq 0 (S (N.to_nat (word_num (cq_addr r + req_bytes p r - 1) - word_num (cq_addr r))))))
   else true) &&
  (if is_amo (cq_type r) then match owner (word_num (cq_addr r)) with Some j => Nat.eqb j i | None => true end else true).
Lemma respectsb_ok : forall p owner i r, respectsb p owner i r = true -> respects p owner i r.
Proof.
  intros p owner i r H. unfold respectsb in H. apply andb_prop in H. destruct H as [H1 H2]. split.
  - intros k [TW [L1 L2]]. rewrite TW in H1. cbn [N.eqb T_WRITE Pos.eqb] in H1. rewrite forallb_forall in H1.
    specialize (H1 (k - word_num (cq_addr r))). replace (word_num (cq_addr r) + (k - word_num (cq_addr r))) with k in H1 by lia.
    assert (IN : In (k - word_num (cq_addr r)) (map N.of_nat (seq 0 (S (N.to_nat (word_num (cq_addr r + req_bytes p r - 1) - word_num (cq_addr r))))))).
    { apply in_map_iff. exists (N.to_nat (k - word_num (cq_addr r))). split; [apply N2Nat.id|]. apply in_seq. lia. }
    apply H1 in IN. destruct (owner k); [|discriminate]. apply Nat.eqb_eq in IN. congruence.
  - intros k [IA ->]. rewrite IA in H2. destruct (owner _); auto. apply Nat.eqb_eq in H2. left. congruence.
Qed.
Lemma prog_ok : forall p owner i l, forallb (fun r => wf_reqb p r && respectsb p owner i r) l = true ->
  Forall (fun r => wf_req p r /\ respects p owner i r) l.
Proof.
  intros p owner i l H. apply Forall_forall. intros r I. rewrite forallb_forall in H. apply H in I.
  apply andb_prop in I. destruct I. split; [apply wf_reqb_ok | apply respectsb_ok]; auto.
Qed.

(** Even words belong to cache 0, odd words to cache 1 -- so every line is
    falsely shared -- and the top quarter of memory to nobody. *)
Definition own_ex (k : N) : option nat := if 0x3000 <=? k then None else if N.even k then Some 0%nat else Some 1%nat.
Definition prog_m0 : list creq :=
  [ wt 1 0x10 0 0xdeadbeef; rd 2 0x14 0; wt 3 0x18 2 0xabcd; mkCReq T_AMO_ADD 4 0xfff0 0 5; mkCReq T_AMO_ADD 5 0x18 0 1;
    mkCReq T_FLUSH 6 0 0 0; rd 7 0x18 0; wt 8 0x20 0 0x1234; mkCReq T_FLUSH 9 0 0 0 ].
Definition prog_m1 : list creq :=
  [ wt 1 0x14 0 0xcafe0000; rd 2 0x10 0; wt 3 0x1c 1 0x99; mkCReq T_INV 4 0 0 0; rd 5 0x10 0; rd 6 0x14 0; mkCReq T_AMO_ADD 7 0xfff0 0 6;
    mkCReq T_FLUSH 8 0 0 0 ].
(** Cache 1 pauses after its third request until cache 0 has flushed. *)
Definition sched_ex : list (choice * choice) :=
  combine (lively 120 0) (lively 14 2 ++ repeat (mkCh false true true true) 46 ++ lively 60 1).
(** Cache 0 is two-way with four lines, cache 1 direct-mapped with eight. *)
Definition z_m (i : nat) : N * N := match i with O => (64, 2) | _ => (128, 1) end.
Lemma z_m_wf : wf_caches px z_m 2.
Proof.
  intros [|[|i]] I; [exact px_wf | | exfalso; lia]. constructor; cbn; auto; try lia.
  - exists 7. split; [reflexivity | lia].
  - exists 3. split; [lia | reflexivity].
Qed.
Definition sm : st := mk_reset (sized px z_m 0) junk_t junk_d.
Definition sm1 : st := mk_reset (sized px z_m 1) junk_t junk_d.
Definition cyc_m : list ((inp * outp) * (inp * outp)) := fst (mdrive px z_m sm sm1 mem_a [] [] prog_m0 prog_m1 sched_ex).
Definition ts_m : list cyc := map two cyc_m.
Definition end_m : mem := snd (mdrive px z_m sm sm1 mem_a [] [] prog_m0 prog_m1 sched_ex).
Definition st_m : nat -> st := fun i => match i with O => sm | _ => sm1 end.
Lemma run_m : exists rq rs, multi_run px z_m 2 own_ex st_m ts_m mem_a end_m rq rs.
Proof.
  apply (mdrive_run px z_m own_ex sm sm1 mem_a prog_m0 prog_m1 sched_ex); try apply mk_reset_ok; apply prog_ok; vm_compute; reflexivity.
Qed.

(** A test-and-set lock at 0xfff0, initially free: cache 0 tries once, cache 1 three times;
    both WRITE a neighbouring word of the lock's own line. *)
Definition mem_l : mem := wr_bytes mem_a 0xfff0 4 0.
Definition prog_l0 : list creq := [ rd 1 0x14 0; mkCReq T_AMO_SWAP 2 0xfff0 0 1; wt 3 0xfff4 0 7 ].
Definition prog_l1 : list creq := [ mkCReq T_AMO_SWAP 1 0xfff0 0 1; mkCReq T_AMO_SWAP 2 0xfff0 0 1; wt 3 0xfff4 0 8; mkCReq T_AMO_SWAP 4 0xfff0 0 1 ].
Definition sched_l : list (choice * choice) := combine (lively 60 0) (lively 60 1).
Definition ts_l : list cyc := map two (fst (mdrive px z_m sm sm1 mem_l [] [] prog_l0 prog_l1 sched_l)).
Definition end_l : mem := snd (mdrive px z_m sm sm1 mem_l [] [] prog_l0 prog_l1 sched_l).
Lemma run_l : clients px z_m 2 st_m ts_l /\ exists rq rs, mmem px 2 mem_l no_reqs no_resps ts_l end_l rq rs.
Proof.
  apply (mdrive_racy px z_m sm sm1 mem_l prog_l0 prog_l1 sched_l); try apply mk_reset_ok; apply wf_all; vm_compute; reflexivity.
Qed.
