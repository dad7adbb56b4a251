(** Generic facts about one clock cycle of [Rtl]: stalled cycles, advancing
    cycles, the contents of stage M2. *)
From Coq Require Import NArith List Bool Lia.
From Verif Require Import Bits Params Msg Units Rtl Tl ParamsProofs.
Import ListNotations.
Open Scope N_scope.

Definition rdy_inp : inp := mkInp false creq0 true true false mresp0.

Section L.
Variable p : params.

(** *** Stage M2 without its inputs *)
Definition m2_active (t : trans) : bool :=
  match t with
  | TR_INVALID | TR_CACHE_INIT | TR_INV_START | TR_INV_WRITE | TR_CLEAN_HIT
  | TR_FLUSH_START | TR_FLUSH_WAIT | TR_FLUSH_WRITE => false
  | _ => true
  end.

Lemma ostall2_eq : forall s i,
  ostall2 s i = m2_active (t2 s) && (negb (i_mreq_rdy i) || negb (i_resp_rdy i)).
Proof.
  intros. unfold ostall2, cs2.
  destruct (t2 s); cbn; auto;
  destruct (negb (i_mreq_rdy i) || negb (i_resp_rdy i)); cbn; auto;
  destruct (ev2 s); auto; destruct (hit2 s); auto.
Qed.

Definition m2_resp (t : trans) (ev hit : bool) (q : creq) (d : N) : option cresp :=
  let mk amo en x := Some (mkCResp (cq_type q) (cq_opq q) (b2n hit) (cq_len q)
        (fast_select p en amo (cq_len q) (a_off p (cq_addr q)) x)) in
  if ev then None else
  match t with
  | TR_REPLAY_READ => mk false true d
  | TR_REPLAY_WRITE | TR_REPLAY_INV | TR_REPLAY_FLUSH | TR_INIT_REQ => mk false false (cq_data q)
  | TR_REPLAY_AMO => mk true false (cq_data q)
  | TR_READ_REQ => if hit then mk false true d else None
  | TR_WRITE_REQ => if hit then mk false false (cq_data q) else None
  | _ => None
  end.

Definition m2_mem (t : trans) (ev hit fs : bool) (q : creq) (wm d : N) : option mreq :=
  let mk ty amo x :=
    let ol := off_len p amo (a_off p (cq_addr q)) (cq_len q) in
    Some (mkMReq ty (cq_opq q)
       (mk_addr p (a_tag p (cq_addr q)) (a_idx p (cq_addr q)) (fst ol)) (snd ol) wm x) in
  match t with
  | TR_INVALID | TR_CACHE_INIT | TR_INV_START | TR_INV_WRITE | TR_CLEAN_HIT
  | TR_FLUSH_START | TR_FLUSH_WAIT | TR_FLUSH_WRITE => None
  | TR_FLUSH_READ => if fs then mk T_WRITE false d else None
  | _ =>
  if ev then mk T_WRITE false d else
  match t with
  | TR_AMO_REQ => mk (cq_type q) true (cq_data q)
  | TR_READ_REQ | TR_WRITE_REQ => if hit then None else mk T_READ false (cq_data q)
  | _ => None
  end
  end.

Definition resp2 (s : st) : option cresp := o_resp (output p s rdy_inp).
Definition mem2 (s : st) : option mreq := o_mreq (output p s rdy_inp).

Lemma resp2_eq : forall s,
  resp2 s = if m2_active (t2 s) then m2_resp (t2 s) (ev2 s) (hit2 s) (q2 s) (dataq s) else None.
Proof.
  intros. unfold resp2, output, resp_en, resp_out, cs2_dsize, rdmux2, cs2_rdmux, is_amo2, off2, cs2.
  destruct (t2 s); cbn [o_resp m2_active]; auto;
  cbn [i_mreq_rdy i_resp_rdy rdy_inp negb orb]; unfold m2_resp;
  destruct (ev2 s); cbn; auto; destruct (fs2 s); cbn; auto;
  destruct (hit2 s); cbn; auto.
Qed.

Lemma mem2_eq : forall s, (ev2 s = true -> t2 s <> TR_FLUSH_READ) ->
  mem2 s = m2_mem (t2 s) (ev2 s) (hit2 s) (fs2 s) (q2 s) (wm2 s) (dataq s).
Proof.
  intros. unfold mem2, output, memreq_en, memreq_out, memreq_type, cs2_mtype, rdmux2, cs2_rdmux,
    is_amo2, off2, cs2.
  destruct (t2 s) eqn:E; cbn [o_mreq]; auto;
  cbn [i_mreq_rdy i_resp_rdy rdy_inp negb orb]; unfold m2_mem;
  destruct (ev2 s); cbn; auto; destruct (fs2 s); cbn; auto;
  destruct (hit2 s); cbn; auto; try (now destruct H); now rewrite ?andb_false_r.
Qed.

Lemma out_nostall : forall s i, ostall2 s i = false ->
  o_resp (output p s i) = resp2 s /\ o_mreq (output p s i) = mem2 s.
Proof.
  intros s i H. rewrite ostall2_eq in H.
  assert (E : cs2 s i = cs2 s rdy_inp).
  { unfold cs2. destruct (t2 s); cbn in H |- *; auto; rewrite H; auto. }
  unfold resp2, mem2, output, resp_en, resp_out, cs2_dsize, memreq_en, memreq_out, memreq_type,
    cs2_mtype, rdmux2, cs2_rdmux. rewrite E. auto.
Qed.

Lemma out_stall : forall s i, ostall2 s i = true ->
  o_resp (output p s i) = None /\ o_mreq (output p s i) = None.
Proof.
  intros s i. unfold output, resp_en, memreq_en, ostall2, cs2. cbn [o_resp o_mreq].
  destruct (t2 s); cbn; try discriminate;
  destruct (negb (i_mreq_rdy i) || negb (i_resp_rdy i)); cbn; try discriminate; auto;
  destruct (ev2 s); cbn; try discriminate; destruct (hit2 s); cbn; discriminate.
Qed.

Lemma ostall1_eq : forall s, ostall1 p s = is_evict1 p s.
Proof.
  intros. unfold ostall1, cs1.
  destruct (is_evict1 p s) eqn:E; revert E;
  unfold is_evict1, is_rwi1, is_amo1; destruct (t1 s); cbn; try discriminate; auto;
  destruct (hit1 p s); auto.
Qed.

Lemma stall01_eq : forall s i, stall01 p s i = is_evict1 p s || ostall2 s i.
Proof. intros; unfold stall01; rewrite ostall1_eq; auto. Qed.

(** *** Stalled cycles *)
Definition stall_st (s : st) (tr : N -> N -> N) (td : N -> N) (dr : N -> N) (dd : N) : st := {|
  fsm := fsm s; ctr := ctr s; mrv := mrv s; mrm := mrm s; msn := msn s; msr := msr s;
  t1 := t1 s; wp1 := wp1 s; utw1 := utw1 s; q1 := q1 s; fi1 := fi1 s; dm1 := dm1 s;
  rep := rep s; tram := tr; tdout := td; tsr := tagq s; hsr := hitq p s; wst := true;
  t2 := t2 s; ev2 := ev2 s; hit2 := hit2 s; fs2 := fs2 s; q2 := q2 s; wm2 := wm2 s;
  dram := dr; ddout := dd; dsr := dataq s |}.

Lemma trans0_init : forall s i, trans0 p s i = TR_CACHE_INIT -> fsm s = F_INIT.
Proof.
  intros s i. unfold trans0. destruct (fsm s); auto;
  repeat (match goal with |- context [if ?b then _ else _] => destruct b end); discriminate.
Qed.

Lemma cinit0_false : forall s i, fsm s <> F_INIT -> is_cinit0 p s i = false.
Proof.
  intros. unfold is_cinit0.
  destruct (trans0 p s i) eqn:E; auto. apply trans0_init in E; tauto.
Qed.

Definition dnext (s : st) : N -> N :=
  sram_wr (dram s) (cs1_val p s) (cs1_wr p s) (drow1 p s) (cq_data (q1 s)) (dwben1 p s).
Definition ddnext (s : st) : N :=
  sram_rd (dram s) (ddout s) (cs1_val p s) (cs1_wr p s) (drow1 p s).

Lemma next_stalled : forall s i, ostall2 s i = true -> fsm s <> F_INIT -> t1 s <> TR_CACHE_INIT ->
  next p s i = stall_st s (tram (next p s i)) (tdout (next p s i)) (dnext s) (ddnext s).
Proof.
  intros s i H F T. unfold next, stall_st.
  assert (E0 : reg_en0 p s i = false) by (unfold reg_en0; rewrite stall01_eq, H, orb_true_r; auto).
  assert (C0 : is_cinit0 p s i = false) by (apply cinit0_false; auto).
  assert (C1 : is_cinit1 s = false) by (unfold is_cinit1; destruct (t1 s); auto; tauto).
  assert (E1 : reg_en1 p s i = false)
    by (unfold reg_en1; rewrite stall01_eq, H, orb_true_r; auto).
  assert (E1' : creg_en1 p s i = false) by (unfold creg_en1; rewrite E1, C0; auto).
  assert (E2 : reg_en2 s i = false) by (unfold reg_en2; rewrite H; auto).
  assert (E2' : creg_en2 s i = false) by (unfold creg_en2; rewrite E2, C1; auto).
  assert (EA : alloc_en p s i = false)
    by (unfold alloc_en; rewrite stall01_eq, H, orb_true_r, andb_false_r; auto).
  assert (ED : dealloc_en p s i = false)
    by (unfold dealloc_en; rewrite stall01_eq, H, orb_true_r, andb_false_r; auto).
  assert (ER : rep_en1 p s i = false) by (unfold rep_en1; rewrite H, andb_false_r; auto).
  rewrite E0, E1, E1', E2, E2', EA, ED, ER, H. cbn [andb].
  reflexivity.
Qed.

(** M1 wires do not see the arrays. *)
Section Stall.
Variables (s : st) (tr : N -> N -> N) (td : N -> N) (dr : N -> N) (dd : N).
Let s' := stall_st s tr td dr dd.
Lemma st_tagq : forall w, tagq s' w = tagq s w. Proof. reflexivity. Qed.
Lemma st_hitq : hitq p s' = hitq p s. Proof. reflexivity. Qed.
Lemma st_dataq : dataq s' = dataq s. Proof. reflexivity. Qed.
Lemma st_resp2 : resp2 s' = resp2 s. Proof. reflexivity. Qed.
Lemma st_mem2 : mem2 s' = mem2 s. Proof. reflexivity. Qed.
Lemma st_cs1 : cs1 p s' = cs1 p s. Proof. reflexivity. Qed.
Lemma st_drow1 : drow1 p s' = drow1 p s. Proof. reflexivity. Qed.
Lemma st_trans0 : forall i, trans0 p s' i = trans0 p s i. Proof. reflexivity. Qed.
End Stall.

Lemma dnext_stall : forall s tr td dd k,
  dnext (stall_st s tr td (dnext s) dd) k = dnext s k.
Proof.
  intros. unfold dnext at 1. unfold cs1_val, cs1_wr, dwben1, cs1_wben.
  rewrite !st_cs1, st_drow1. cbn [q1 stall_st dm1 dram].
  change (snd (fst (fst (fst (cs1 p s))))) with (cs1_val p s).
  change (snd (fst (fst (fst (fst (cs1 p s)))))) with (cs1_wr p s).
  change (off1 p (stall_st s tr td (dnext s) dd)) with (off1 p s).
  change (wben p (fst (fst (fst (fst (fst (cs1 p s)))))) (dm1 s) (off1 p s) (cq_len (q1 s)))
    with (dwben1 p s).
  unfold dnext, sram_wr. destruct (cs1_val p s && cs1_wr p s); auto.
  unfold upd. destruct (N.eqb_spec k (drow1 p s)); auto. subst.
  rewrite N.eqb_refl. apply mwrite_idem.
Qed.

(** *** Tag arrays after the cycle *)
Definition idle_inp : inp := mkInp false creq0 true true false mresp0.
Definition tnext (s : st) (w k : N) : N := tram (next p s idle_inp) w k.

Lemma tram_next : forall s i w k, tram (next p s i) w k =
  sram_wr (tram s w) (tag_val0 p s i w) (cs0_wr p s i) (tag_idx0 p s i)
          (tag_wdata0 p s i) (cs0_wben p s i) k.
Proof. intros. cbn [next tram]. rewrite memo_eq. auto. Qed.
Lemma tdout_next : forall s i w, tdout (next p s i) w =
  sram_rd (tram s w) (tdout s w) (tag_val0 p s i w) (cs0_wr p s i) (tag_idx0 p s i).
Proof. intros. cbn [next tdout]. rewrite memo_eq. auto. Qed.


Lemma trans0_noreq : forall s i j, i_req_en i = false -> i_req_en j = false ->
  trans0 p s i = trans0 p s j.
Proof. intros. unfold trans0. rewrite H, H0, andb_false_r. auto. Qed.

Definition tr_repl (t : trans) : bool :=
  match t with TR_REFILL | TR_REPLAY_READ | TR_REPLAY_WRITE | TR_REPLAY_AMO | TR_REPLAY_INV
  | TR_REPLAY_FLUSH | TR_FLUSH_WRITE => true | _ => false end.

Lemma trans0_muxsel : forall s i, tr_repl (trans0 p s i) = true -> mux_sel0 s = true.
Proof.
  intros s i. unfold trans0, mux_sel0, mr_val, mr_ack.
  destruct (fsm s); cbn; auto; destruct (write_hit_clean p s); cbn; try discriminate;
  destruct (mrv s); cbn; auto;
  repeat (match goal with |- context [if ?b then _ else _] => destruct b end); cbn; discriminate.
Qed.

Lemma req_mux_sel : forall s i j, mux_sel0 s = true -> req_mux0 s i = req_mux0 s j.
Proof. intros. unfold req_mux0. rewrite H. auto. Qed.

Lemma trans0_init_req : forall s i, i_req_en i = false -> trans0 p s i <> TR_INIT_REQ.
Proof.
  intros s i H. unfold trans0. rewrite H, andb_false_r.
  destruct (fsm s); try discriminate;
  repeat (match goal with |- context [if ?b then _ else _] => destruct b end); discriminate.
Qed.

(** The tag write of a cycle without a request does not depend on the inputs. *)
Lemma tag_write_indep : forall s i j w k T, fsm s <> F_INIT -> i_req_en i = false -> i_req_en j = false ->
  sram_wr T (tag_val0 p s i w) (cs0_wr p s i) (tag_idx0 p s i) (tag_wdata0 p s i) (cs0_wben p s i) k =
  sram_wr T (tag_val0 p s j w) (cs0_wr p s j) (tag_idx0 p s j) (tag_wdata0 p s j) (cs0_wben p s j) k.
Proof.
  intros s i j w k T HF Hi Hj.
  pose proof (trans0_noreq s i j Hi Hj) as E.
  assert (V : tag_val0 p s i w = tag_val0 p s j w).
  { unfold tag_val0, is_ctr_way0, ctr_way0, upd_way_idx0. rewrite E. auto. }
  assert (CS : cs0 p s i = cs0 p s j) by (unfold cs0; rewrite E; auto).
  assert (U : upd_way_idx0 p s i = upd_way_idx0 p s j) by (unfold upd_way_idx0; rewrite E; auto).
  assert (UT : upd_tag_way0 p s i = upd_tag_way0 p s j).
  { unfold upd_tag_way0, is_ctr_way0, ctr_way0. rewrite E, U. auto. }
  unfold cs0_wr, cs0_wben. rewrite V, CS.
  destruct (tag_val0 p s j w && snd (fst (fst (fst (fst (cs0 p s j)))))) eqn:W; unfold sram_wr; rewrite W; auto.
  assert (D : mux_sel0 s = true \/ cs0_admux p s j = true \/
              (cs0_idxsel p s j = true /\ (cs0_tagsel p s j = true \/ cs0_cmd p s j = TC_CLEAR)
               /\ (cs0_cmd p s j = TC_INV \/ cs0_cmd p s j = TC_FLUSH))
              \/ trans0 p s j = TR_CACHE_INIT).
  { destruct (tr_repl (trans0 p s j)) eqn:R; [left; eapply trans0_muxsel; eauto|].
    right. apply andb_prop in W. destruct W as [_ W].
    pose proof (trans0_init_req s j Hj) as NI.
    unfold cs0_admux, cs0_idxsel, cs0_tagsel, cs0_cmd. revert W R NI. unfold cs0.
    destruct (trans0 p s j); cbn; auto; try discriminate; intros; try tauto. }
  assert (AD : cs0_admux p s i = cs0_admux p s j) by (unfold cs0_admux; rewrite CS; auto).
  assert (TS : cs0_tagsel p s i = cs0_tagsel p s j) by (unfold cs0_tagsel; rewrite CS; auto).
  assert (IS : cs0_idxsel p s i = cs0_idxsel p s j) by (unfold cs0_idxsel; rewrite CS; auto).
  assert (CM : cs0_cmd p s i = cs0_cmd p s j) by (unfold cs0_cmd; rewrite CS; auto).
  assert (K : (tag_idx0 p s i = tag_idx0 p s j /\
               tag_wdata0 p s i = tag_wdata0 p s j) \/ trans0 p s j = TR_CACHE_INIT).
  { destruct D as [D | [D | [(D1 & D2 & D3) | D]]]; [left | left | left | right; auto].
    - unfold tag_idx0, tag_wdata0, tag_tag0, new_entry0, addr0, len0, upd_way_mux0, init_idx0.
      rewrite AD, TS, IS, CM, U, UT, (req_mux_sel s i j D). auto.
    - unfold tag_idx0, tag_wdata0, tag_tag0, new_entry0, addr0, len0, upd_way_mux0, init_idx0.
      rewrite AD, TS, IS, CM, U, UT, D. auto.
    - unfold tag_idx0, tag_wdata0, tag_tag0, new_entry0, upd_way_mux0, init_idx0.
      rewrite TS, IS, CM, U, UT, D1.
      destruct D3 as [D3 | D3]; rewrite D3 in *; (destruct D2 as [D2 | D2]; [rewrite D2 | discriminate D2]); auto. }
  destruct K as [[-> ->] | K]; auto.
  apply trans0_init in K; tauto.
Qed.

Lemma tram_indep : forall s i w k, fsm s <> F_INIT -> i_req_en i = false ->
  tram (next p s i) w k = tnext s w k.
Proof.
  intros. unfold tnext. rewrite !tram_next. apply tag_write_indep; auto.
Qed.

Lemma sram_wr_idem : forall R v wr i d m R' k,
  (forall k, R' k = sram_wr R v wr i d m k) ->
  sram_wr R' v wr i d m k = sram_wr R v wr i d m k.
Proof.
  intros. unfold sram_wr in *. destruct (v && wr); auto. unfold upd in *.
  rewrite !H, N.eqb_refl. destruct (k =? i); auto. apply mwrite_idem.
Qed.

Lemma tnext_stall : forall s i td dr dd w k, fsm s <> F_INIT -> i_req_en i = false ->
  tnext (stall_st s (tram (next p s i)) td dr dd) w k = tnext s w k.
Proof.
  intros. unfold tnext at 1. rewrite tram_next.
  change (sram_wr (tram (next p s i) w) (tag_val0 p s idle_inp w) (cs0_wr p s idle_inp)
    (tag_idx0 p s idle_inp) (tag_wdata0 p s idle_inp) (cs0_wben p s idle_inp) k = tnext s w k).
  unfold tnext. rewrite tram_next. apply sram_wr_idem.
  intros. rewrite tram_indep by auto. unfold tnext. rewrite tram_next. auto.
Qed.

(** *** Advancing cycles *)
Record adv (s : st) (i : inp) : Prop := mkAdv {
  ad_st : ostall2 s i = false;
  ad_f : fsm s <> F_INIT;
  ad_t : t1 s <> TR_CACHE_INIT
}.

Section Adv.
Variables (s : st) (i : inp).
Hypothesis A : ostall2 s i = false.

Lemma an_rep : rep (next p s i) = if repreq_en1 p s then upd (rep s) (idx1 p s) (rep_wr p s) else rep s.
Proof. cbn [next rep]. unfold rep_en1. rewrite A, andb_true_r. auto. Qed.
Lemma an_wst : wst (next p s i) = false. Proof. exact A. Qed.
Lemma an_dram : dram (next p s i) = dnext s. Proof. reflexivity. Qed.
Lemma an_tagq : forall w, tagq (next p s i) w = tdout (next p s i) w.
Proof. intros. unfold tagq. rewrite an_wst. auto. Qed.
Lemma an_dataq : dataq (next p s i) = ddnext s.
Proof. unfold dataq. rewrite an_wst. reflexivity. Qed.
Lemma an_t2 : t2 (next p s i) = t1 s.
Proof. cbn [next t2]. unfold creg_en2, reg_en2. rewrite A. cbn. destruct (is_cinit1 s); auto. Qed.
Lemma an_ev2 : ev2 (next p s i) = is_evict1 p s.
Proof. cbn [next ev2]. unfold creg_en2, reg_en2. rewrite A. cbn. destruct (is_cinit1 s); auto. Qed.
Lemma an_hit2 : hit2 (next p s i) = hit1 p s.
Proof. cbn [next hit2]. unfold creg_en2, reg_en2. rewrite A. cbn. destruct (is_cinit1 s); auto. Qed.
Lemma an_fs2 : fs2 (next p s i) = has_flush_sent1 p s.
Proof. cbn [next fs2]. unfold creg_en2, reg_en2. rewrite A. cbn. destruct (is_cinit1 s); auto. Qed.
Lemma an_q2 : t1 s <> TR_CACHE_INIT -> q2 (next p s i) = q1_2 p s.
Proof.
  intros. cbn [next q2]. unfold reg_en2, is_cinit1. rewrite A.
  destruct (t1 s); auto; tauto.
Qed.
Lemma an_wm2 : t1 s <> TR_CACHE_INIT -> wm2 (next p s i) = write_mask1 p s.
Proof.
  intros. cbn [next wm2]. unfold reg_en2, is_cinit1. rewrite A.
  destruct (t1 s); auto; tauto.
Qed.

Lemma an_resp2 : resp2 (next p s i) =
  if m2_active (t1 s) then m2_resp (t1 s) (is_evict1 p s) (hit1 p s) (q1_2 p s) (ddnext s) else None.
Proof.
  rewrite resp2_eq, an_t2, an_ev2, an_hit2, an_dataq.
  destruct (trans_eqb (t1 s) TR_CACHE_INIT) eqn:E.
  - destruct (t1 s); try discriminate; auto.
  - rewrite an_q2; auto. intro Q; rewrite Q in E; discriminate.
Qed.

Lemma evict_not_flush : is_evict1 p s = true -> t1 s <> TR_FLUSH_READ.
Proof. unfold is_evict1, is_rwi1, is_amo1. intros H Q. rewrite Q in H. discriminate. Qed.

Lemma an_mem2 : mem2 (next p s i) =
  m2_mem (t1 s) (is_evict1 p s) (hit1 p s) (has_flush_sent1 p s) (q1_2 p s) (write_mask1 p s) (ddnext s).
Proof.
  rewrite mem2_eq.
  - rewrite an_t2, an_ev2, an_hit2, an_fs2, an_dataq.
    destruct (trans_eqb (t1 s) TR_CACHE_INIT) eqn:E.
    + destruct (t1 s); try discriminate; auto.
    + rewrite an_q2, an_wm2; auto; intro Q; rewrite Q in E; discriminate.
  - rewrite an_ev2, an_t2. apply evict_not_flush.
Qed.

(** no eviction: M0 and M1 move too *)
Hypothesis EV : is_evict1 p s = false.
Lemma an_stall01 : stall01 p s i = false.
Proof. rewrite stall01_eq, A, EV; auto. Qed.
Lemma an_fsm : fsm (next p s i) = fsm_next p s i.
Proof. cbn [next fsm]. unfold reg_en0. rewrite an_stall01. auto. Qed.
Lemma an_ctr : ctr (next p s i) = if ctr_en p s i then ctr_dec p s else ctr s.
Proof. cbn [next ctr]. unfold reg_en0. rewrite an_stall01. auto. Qed.
Lemma an_mrv : mrv (next p s i) = i_mresp_en i.
Proof. cbn [next mrv]. unfold reg_en0. rewrite an_stall01. auto. Qed.
Lemma an_mrm : mrm (next p s i) = i_mresp i.
Proof. cbn [next mrm]. unfold reg_en0. rewrite an_stall01. auto. Qed.
Lemma an_msn : msn (next p s i) =
  if cs1_alloc p s then trunc 1 (msn s + 1) else if cs0_dealloc p s i then trunc 1 (msn s + 1) else msn s.
Proof.
  cbn [next msn]. unfold alloc_en, dealloc_en. rewrite an_stall01. cbn [negb].
  rewrite !andb_true_r. auto.
Qed.
Lemma an_msr : msr (next p s i) = if cs1_alloc p s then mshr_alloc_in p s else msr s.
Proof. cbn [next msr]. unfold alloc_en. rewrite an_stall01. cbn [negb]. rewrite andb_true_r. auto. Qed.
Lemma an_t1 : t1 (next p s i) = trans0 p s i.
Proof.
  cbn [next t1]. unfold creg_en1, reg_en1. rewrite an_stall01, EV. cbn.
  destruct (is_cinit0 p s i); auto.
Qed.
Lemma an_wp1 : wp1 (next p s i) = ms_repl (msr s).
Proof.
  cbn [next wp1]. unfold creg_en1, reg_en1. rewrite an_stall01, EV. cbn.
  destruct (is_cinit0 p s i); auto.
Qed.
Lemma an_utw1 : utw1 (next p s i) = upd_tag_way0 p s i.
Proof.
  cbn [next utw1]. unfold creg_en1, reg_en1. rewrite an_stall01, EV. cbn.
  destruct (is_cinit0 p s i); auto.
Qed.
Lemma an_fi1 : fi1 (next p s i) = init_idx0 p s i.
Proof.
  cbn [next fi1]. unfold creg_en1, reg_en1. rewrite an_stall01, EV. cbn.
  destruct (is_cinit0 p s i); auto.
Qed.
Hypothesis F : fsm s <> F_INIT.
Lemma an_q1 : q1 (next p s i) = q0 p s i.
Proof.
  cbn [next q1]. unfold reg_en1. rewrite an_stall01, EV. rewrite (cinit0_false s i) by auto. auto.
Qed.
Lemma an_dm1 : dm1 (next p s i) = ms_dirty (msr s).
Proof.
  cbn [next dm1]. unfold reg_en1. rewrite an_stall01, EV. rewrite (cinit0_false s i) by auto. auto.
Qed.
End Adv.

(** the evicting cycle: only M2 advances *)
Section Evict.
Variables (s : st) (i : inp).
Hypothesis A : ostall2 s i = false.
Hypothesis EV : is_evict1 p s = true.
Hypothesis F : fsm s <> F_INIT.
Lemma ae_regs :
  fsm (next p s i) = fsm s /\ ctr (next p s i) = ctr s /\ mrv (next p s i) = mrv s /\ mrm (next p s i) = mrm s /\ msn (next p s i) = msn s /\ msr (next p s i) = msr s /\ t1 (next p s i) = t1 s /\ q1 (next p s i) = q1 s.
Proof.
  assert (S : stall01 p s i = true) by (rewrite stall01_eq, EV; auto).
  cbn [next fsm ctr mrv mrm msn msr t1 q1].
  unfold reg_en0, creg_en1, reg_en1, alloc_en, dealloc_en.
  rewrite S, (cinit0_false s i) by auto. cbn [negb andb orb]. rewrite !andb_false_r.
  repeat split; auto.
Qed.
End Evict.

End L.
