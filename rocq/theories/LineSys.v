(** The line trace in a system (C64): what M0, M1 and the state column say. *)
From Coq Require Import String Ascii Arith NArith Bool Lia List.
From Verif Require Import Bits Params Msg Units Rtl Tl Mem Spec System Traffic ParamsProofs RtlLemmas RefineInv RefineStall RefineReq RefineProofs
  ViewDefs ViewProofs MetaProofs SysProofs SysFacts Facts1 Facts2 Facts3 Latency Line LineSpec LineProofs.
Import ListNotations.
Open Scope string_scope.
Open Scope list_scope.

Section P.
Variable p : params.
Hypothesis W : wf_params p.

(** *** M0 *)
Definition newt (t : trans) : bool :=
  match t with TR_READ_REQ | TR_WRITE_REQ | TR_INIT_REQ | TR_AMO_REQ | TR_INV_START | TR_FLUSH_START => true | _ => false end.
Lemma new_en : forall s i, newt (trans0 p s i) = true -> i_req_en i = true.
Proof.
  intros s i. unfold trans0. destruct (fsm s); try discriminate; destruct (write_hit_clean p s); try discriminate.
  - destruct (mr_val s && negb (mshr_empty s)).
    { destruct (_ || _); [discriminate|]. destruct (is_amo _); discriminate. }
    destruct (mshr_empty s); cbn [andb]; [|discriminate]. destruct (i_req_en i); auto.
  - repeat match goal with |- context [if ?b then _ else _] => destruct b end; discriminate.
  - destruct (has_flush_sent1 p s); discriminate.
  - destruct (mr_ack s); discriminate.
Qed.
Lemma label_newt : forall t, In (msg_t0 t) new_labels -> newt t = true.
Proof. intros t. destruct t; auto; cbn; intros H; repeat (destruct H as [H|H]; [discriminate H|]); contradiction. Qed.

Lemma label_wf : forall t, wf_type t -> msg_t0 (req_trans t) = new_label t.
Proof.
  intros t WT. unfold req_trans, new_label. destruct WT as [-> | [-> | [A | [-> | ->]]]]; auto.
  destruct (N.eqb_spec t T_READ); auto. destruct (N.eqb_spec t T_WRITE); auto. rewrite A.
  destruct (N.eqb_spec t T_INIT) as [->|]; [discriminate A|]. destruct (N.eqb_spec t T_INV) as [->|]; [discriminate A|].
  destruct (N.eqb_spec t T_FLUSH) as [->|]; [discriminate A|]. auto.
Qed.

(** readiness implies the ready state and nothing from memory *)
Lemma rdy_ready : forall s a i, phase p s a -> req_rdy p s i = true -> fsm s = F_READY /\ mrv s = false /\ msn s = 0%N.
Proof.
  intros s a i PH RY. destruct (req_rdy_inv p s i RY) as (WH & ST & MS & AL).
  destruct PH as [P | r P | r P | r P | r P | r k P | r P | r P | r k P | r k P | r k P].
  - destruct P; auto.
  - destruct P; auto.
  - destruct P; auto.
  - pose proof (wt_msn _ _ _ _ P). congruence.
  - pose proof (rf_msn _ _ _ _ P). congruence.
  - exfalso. destruct (iv_t1 _ _ _ _ _ P) as [(T & _) | (_ & M & _)]; [|congruence].
    unfold cs1_alloc, cs1 in AL. rewrite T in AL. destruct (is_evict1 p s); discriminate AL.
  - pose proof (il_msn _ _ _ _ P). congruence.
  - exfalso. unfold cs1_alloc, cs1 in AL. rewrite (fs_t1 _ _ _ _ P) in AL. destruct (is_evict1 p s); discriminate AL.
  - pose proof (fl_msn _ _ _ _ _ _ (fr_c _ _ _ _ _ P)). congruence.
  - pose proof (fl_msn _ _ _ _ _ _ (fw_c _ _ _ _ _ P)). congruence.
  - pose proof (fl_msn _ _ _ _ _ _ (fx_c _ _ _ _ _ P)). congruence.
Qed.
Lemma init_not_rdy : forall s i, fsm s = F_INIT -> req_rdy p s i = false.
Proof. intros s i F. unfold req_rdy. rewrite F. reflexivity. Qed.

Theorem line_request : forall s0 is i m0 m rq rs, sys_run p s0 (is ++ [i]) m0 m rq rs ->
  let l := line_at p s0 is i in
  (i_req_en i = true -> c_M0 l = new_label (cq_type (i_req i))) /\ (In (c_M0 l) new_labels -> i_req_en i = true) /\
  (c_busy l = " " -> c_state l = "(rdy )").
Proof.
  intros s0 is i m0 m rq rs R l.
  destruct (sys_cycle p W _ _ _ _ _ _ _ R) as (m1 & rq1 & rs1 & a & a' & R1 & ST & LG & AC & ST' & MT1).
  set (s := fst (run p s0 is)) in *.
  destruct (columns p s i) as (_ & _ & _ & CB & CS' & C0 & _). unfold l, line_at. fold s. rewrite C0, CB, CS'.
  assert (PH : req_rdy p s i = true -> phase p s a).
  { intros RY. inversion ST as [c0 k CS PI NK Z1 Z2 Z3 Z4 EM EQ2 ES2 EAA | a0 PH NK JA OA EAA]; auto.
      rewrite (init_not_rdy s i (in_fsm _ _ _ PI)) in RY. discriminate. }
  split; [|split].
  - intros RE. destruct (lg_req _ _ _ _ LG RE) as [RY WT]. rewrite <- label_wf by auto. f_equal.
    destruct (rdy_ready _ _ _ (PH RY) RY) as (F & MV & MS). apply trans0_req; auto. apply (req_rdy_inv p s i RY).
  - intros H. eapply new_en, label_newt, H.
  - destruct (req_rdy p s i) eqn:RY; cbn [negb ch]; [|discriminate]. destruct (rdy_ready _ _ _ (PH eq_refl) RY) as (F & _). rewrite F. auto.
Qed.

(** *** M1 *)
Lemma cur_last : forall m0 s n m rq rs tr a u, stok p m0 s n m rq rs tr a -> a_cur a = Some u ->
  exists A0, accepted tr = A0 ++ [u_req u] /\ wf_req p (u_req u) /\ (length (responses tr) <= length A0)%nat /\
    lruinv p (lru_run p lru_empty A0) (a_c a) /\ uniq p (a_c a) /\ (forall i, (i < nblocks p)%N -> (cr (a_c a) i < p_assoc p)%N).
Proof.
  intros m0 s n m rq rs tr a u ST CU. destruct (stok_J p _ _ _ _ _ _ _ _ ST) as [JA _].
  destruct (J_hist p _ _ _ _ _ _ _ _ JA) as (A0 & c1 & mb & Q & pd' & HH & EP & EC & C).
  destruct C as [(_ & X & _) | (r' & ex & qs & todo' & out' & l9 & E & WF' & CU2 & TR & EM & PD & LO & LQ & F)]; [congruence|].
  rewrite CU in CU2. inversion CU2; subst u. cbn [u_req]. clear CU2. subst c1.
  apply Forall2_app_inv_l in F. destruct F as (S1 & S2 & F1 & F2 & ES).
  destruct (hist_flat p W _ _ _ _ _ _ HH) as (I & _).
  destruct (hist_traffic p W _ _ _ _ _ _ HH _ F1) as (G & LG & CG & TG & PG & LI & _).
  pose proof (hist_length p _ _ _ _ _ _ HH) as HL. rewrite app_length in HL.
  exists A0. split; auto. split; auto. split; [lia|]. split; auto. split; [exact (ci_uniq _ _ _ I) | exact (ci_rep _ _ _ I)].
Qed.

Lemma rw_t1 : forall t, RefineInv.is_rw t || is_amo t = true -> rwt (req_trans t) = true -> RefineInv.is_rw t = true.
Proof.
  intros t H R. unfold RefineInv.is_rw, req_trans in *. destruct (N.eqb t T_READ); auto. destruct (N.eqb t T_WRITE); auto.
  cbn [orb] in H. rewrite H in R. discriminate.
Qed.
Lemma rw_label : forall s r, RefineInv.is_rw (cq_type r) = true -> t1 s = req_trans (cq_type r) -> lab1 s = new_label (cq_type r) /\ rwt (t1 s) = true.
Proof.
  intros s r RW T. unfold lab1. rewrite T. unfold RefineInv.is_rw in RW. apply orb_true_iff in RW. rewrite !N.eqb_eq in RW.
  destruct RW as [-> | ->]; auto.
Qed.

Lemma phase_rw : forall s a, phase p s a -> rwt (t1 s) = true ->
  exists r todo out l, a_cur a = Some (mkCur r todo out l) /\ RefineInv.is_rw (cq_type r) = true /\ t1 s = req_trans (cq_type r) /\
    hit1 p s = tl_hit p (a_c a) r.
Proof.
  intros s a PH RT. destruct PH as [P | r P | r P | r P | r P | r k P | r P | r P | r k P | r k P | r k P].
  - exfalso. pose proof (id_t1 _ _ _ P) as X. destruct (t1 s); discriminate.
  - pose proof (rq_t1 _ _ _ _ P) as T. pose proof (rq_ty _ _ _ _ P) as TY.
    do 4 eexists. split; [exact (rq_cur _ _ _ _ P)|]. split; [apply rw_t1; auto; rewrite <- T; auto|]. split; auto.
    apply lw_hit1. apply req_looking; auto.
  - pose proof (ev_t1 _ _ _ _ P) as T. pose proof (ev_ty _ _ _ _ P) as TY.
    assert (RW : RefineInv.is_rw (cq_type r) = true) by (apply rw_t1; auto; rewrite <- T; auto).
    do 4 eexists. split; [exact (ev_cur _ _ _ _ P)|]. split; auto. split; auto.
    assert (H1 : hit1 p s = false).
    { unfold hit1, pu_hit, pu, tag_proc_en, pu_compare. rewrite (ev_ev2 _ _ _ _ P). cbn [negb andb]. rewrite andb_false_r. destruct (is_rwi1 s || is_amo1 s); reflexivity. }
    rewrite H1. pose proof (ev_evict _ _ _ _ P) as EV. unfold tl_evict in EV.
    assert (NA : tl_isamo r = false).
    { unfold tl_isamo, RefineInv.is_rw in *. apply orb_true_iff in RW. rewrite !N.eqb_eq in RW. destruct RW as [-> | ->]; auto. }
    rewrite NA in EV. destruct (tl_hit p (a_c a) r); auto. rewrite andb_false_r in EV. discriminate EV.
  - exfalso. rewrite (wt_t1 _ _ _ _ P) in RT. discriminate.
  - exfalso. rewrite (rf_t1 _ _ _ _ P) in RT. discriminate.
  - exfalso. destruct (iv_t1 _ _ _ _ _ P) as [(T & _) | (T & _)]; rewrite T in RT; discriminate.
  - exfalso. rewrite (il_t1 _ _ _ _ P) in RT. discriminate.
  - exfalso. rewrite (fs_t1 _ _ _ _ P) in RT. discriminate.
  - exfalso. rewrite (fl_t1 _ _ _ _ _ _ (fr_c _ _ _ _ _ P)) in RT. discriminate.
  - exfalso. rewrite (fl_t1 _ _ _ _ _ _ (fw_c _ _ _ _ _ P)) in RT. discriminate.
  - exfalso. rewrite (fl_t1 _ _ _ _ _ _ (fx_c _ _ _ _ _ P)) in RT. discriminate.
Qed.

Theorem line_colour : forall s0 is i is2 m0 m rq rs, sys_run p s0 (is ++ i :: is2) m0 m rq rs ->
  let l := line_at p s0 is i in green l || red l = true ->
  exists A r, accepted (trace_of p s0 is) = A ++ [r] /\ rw_req r = true /\ c_M1 l = new_label (cq_type r) /\
    forall y, nth_error (responses (trace_of p s0 (is ++ i :: is2))) (length A) = Some y ->
      green l = N.eqb (cr_test y) 1 /\ red l = N.eqb (cr_test y) 0.
Proof.
  intros s0 is i is2 m0 m rq rs R l G.
  destruct (sys_app p _ _ _ _ _ _ _ R) as (m1 & rq1 & rs1 & R1 & _ & _).
  destruct (sys_state p W _ _ _ _ _ _ R1) as (a & ST). set (s := fst (run p s0 is)) in *.
  unfold l, line_at in *. fold s in G |- *. destruct (columns p s i) as (_ & _ & _ & _ & _ & _ & C1 & _). rewrite C1.
  rewrite green_eq, red_eq in *. assert (RT : rwt (t1 s) = true) by (destruct (rwt (t1 s)); auto).
  assert (PH : phase p s a).
  { inversion ST as [c0 k CS PI NK Z1 Z2 Z3 Z4 EM EQ2 ES2 EAA | a0 PH NK JA OA EAA]; auto.
    exfalso. destruct (in_t1 _ _ _ PI) as [X | X]; rewrite X in RT; discriminate. }
  destruct (phase_rw _ _ PH RT) as (r & todo & out & ld & CU & RW & T1 & HT).
  destruct (cur_last _ _ _ _ _ _ _ _ _ ST CU) as (A & EA & WF & LE & LI & U & RP). cbn [u_req] in *.
  exists A, r. split; auto. split; auto. split; [apply rw_label; auto|].
  intros y Y. destruct (sys_tests p W _ _ _ _ _ _ R) as (rest & T).
  assert (YY : nth_error (lru_tests p lru_empty (accepted (trace_of p s0 (is ++ i :: is2)))) (length A) = Some (cr_test y)).
  { rewrite T, nth_error_app1; [rewrite nth_error_map, Y; auto|]. rewrite map_length. apply nth_error_Some. congruence. }
  rewrite trace_app, accepted_app, EA, <- app_assoc, lru_tests_app, nth_error_app2 in YY by (rewrite lru_tests_len; auto).
  rewrite lru_tests_len, Nat.sub_diag in YY. cbn [app lru_tests nth_error] in YY. injection YY as YY.
  destruct (lru_fin p W _ (a_c a) r 0%N LI U RP WF) as [_ L2]. rewrite YY in L2.
  assert (TT : cr_test y = b2n (tl_hit p (a_c a) r)).
  { rewrite L2. unfold tl_fin. destruct (rw_type _ RW) as (N1 & N2 & N3). rewrite N2, N3. unfold tl_isamo. rewrite N1.
    destruct (tl_hit p (a_c a) r); auto. }
  rewrite TT, HT, RT. destruct (tl_hit p (a_c a) r); auto.
Qed.

(** in the cycle after a READ or WRITE is accepted *)
Theorem line_coloured : forall s0 is j i is2 m0 m rq rs, sys_run p s0 ((is ++ [j]) ++ i :: is2) m0 m rq rs ->
  i_req_en j = true -> rw_req (i_req j) = true ->
  let l := line_at p s0 (is ++ [j]) i in green l || red l = true.
Proof.
  intros s0 is j i is2 m0 m rq rs R RE RW l.
  destruct (sys_app p _ _ _ _ _ _ _ R) as (m1 & rq1 & rs1 & R1 & _ & _).
  destruct (sys_cycle p W _ _ _ _ _ _ _ R1) as (m2 & rq2 & rs2 & a & a' & R2 & ST & LG & AC & ST' & MT1).
  set (s := fst (run p s0 is)) in *.
  assert (E : fst (run p s0 (is ++ [j])) = next p s j).
  { rewrite run_app. unfold s. cbn [run step fst]. auto. }
  unfold l, line_at. rewrite E, green_eq, red_eq.
  destruct (lg_req _ _ _ _ LG RE) as [RY WT].
  assert (PH : phase p s a).
  { inversion ST as [c0 k CS PI NK Z1 Z2 Z3 Z4 EM EQ2 ES2 EAA | a0 PH NK JA OA EAA]; auto.
      rewrite (init_not_rdy s j (in_fsm _ _ _ PI)) in RY. discriminate. }
  destruct (rdy_ready _ _ _ PH RY) as (F & MV & MS). destruct (req_rdy_inv p s j RY) as (WH & S0 & _ & _).
  assert (T : t1 (next p s j) = req_trans (cq_type (i_req j))).
  { cbn [next t1]. unfold creg_en1, reg_en1. rewrite S0. rewrite stall01_eq in S0. apply orb_false_elim in S0. destruct S0 as [-> _].
    rewrite (cinit0_false p s j) by congruence. cbn [negb andb orb]. apply trans0_req; auto. }
  rewrite T. destruct (rw_label (next p s j) (i_req j) RW T) as [_ X]. rewrite <- T, X. destruct (hit1 p _); auto.
Qed.

(** *** The state column *)
Theorem line_state : forall s0 is i m0 m rq rs, sys_run p s0 (is ++ [i]) m0 m rq rs ->
  let l := line_at p s0 is i in let tr := trace_of p s0 is in
  (c_state l = "(init)" <-> (N.of_nat (length is) < total_lines p)%N) /\
  (c_state l = "(inv )" -> exists A r, accepted tr = A ++ [r] /\ cq_type r = T_INV /\ (length (responses tr) <= length A)%nat) /\
  (c_state l = "(flsh)" \/ c_state l = "(fls#)" ->
     exists A r, accepted tr = A ++ [r] /\ cq_type r = T_FLUSH /\ (length (responses tr) <= length A)%nat).
Proof.
  intros s0 is i m0 m rq rs R l tr.
  destruct (sys_app p _ _ _ _ _ _ _ R) as (m1 & rq1 & rs1 & R1 & _ & _).
  destruct (sys_state p W _ _ _ _ _ _ R1) as (a & ST). set (s := fst (run p s0 is)) in *. fold tr in ST.
  destruct (columns p s i) as (_ & _ & _ & _ & C & _). unfold l, line_at. fold s. rewrite C.
  assert (PHF : phase p s a -> fsm s <> F_INIT /\
     (fsm s = F_INV -> exists u, a_cur a = Some u /\ cq_type (u_req u) = T_INV) /\
     (fsm s = F_FLUSH \/ fsm s = F_FLUSH_WAIT -> exists u, a_cur a = Some u /\ cq_type (u_req u) = T_FLUSH)).
  { intros PH. destruct PH as [P | r P | r P | r P | r P | r k P | r P | r P | r k P | r k P | r k P].
    - rewrite (id_fsm _ _ _ P). repeat split; try discriminate; intros [X|X]; discriminate.
    - rewrite (rq_fsm _ _ _ _ P). repeat split; try discriminate; intros [X|X]; discriminate.
    - rewrite (ev_fsm _ _ _ _ P). repeat split; try discriminate; intros [X|X]; discriminate.
    - rewrite (wt_fsm _ _ _ _ P). repeat split; try discriminate; intros [X|X]; discriminate.
    - rewrite (rf_fsm _ _ _ _ P). repeat split; try discriminate; intros [X|X]; discriminate.
    - rewrite (iv_fsm _ _ _ _ _ P). split; [discriminate|]. split; [|intros [X|X]; discriminate]. intros _.
      eexists. split; [exact (iv_cur _ _ _ _ _ P)|]. exact (iv_ty _ _ _ _ _ P).
    - rewrite (il_fsm _ _ _ _ P). repeat split; try discriminate; intros [X|X]; discriminate.
    - rewrite (fs_fsm _ _ _ _ P). split; [discriminate|]. split; [discriminate|]. intros _. eexists. split; [exact (fs_cur _ _ _ _ P)|]. exact (fs_ty _ _ _ _ P).
    - rewrite (fr_fsm _ _ _ _ _ P). split; [destruct (_ =? _)%N; discriminate|]. split; [destruct (_ =? _)%N; discriminate|]. intros _.
      destruct (fr_cur _ _ _ _ _ P) as (l0 & E). eexists. split; [exact E|]. exact (fl_ty _ _ _ _ _ _ (fr_c _ _ _ _ _ P)).
    - rewrite (fw_fsm _ _ _ _ _ P). split; [discriminate|]. split; [discriminate|]. intros _.
      pose proof (fl_ty _ _ _ _ _ _ (fw_c _ _ _ _ _ P)) as TY.
      destruct (fw_cur _ _ _ _ _ P) as [(o & e & l0 & _ & _ & _ & _ & X & _) | [(q' & l0 & T2 & _ & T & X & _) | (l0 & _ & _ & _ & X & _)]];
        (eexists; split; [exact X | exact TY]).
    - rewrite (fx_fsm _ _ _ _ _ P). split; [destruct (_ =? _)%N; discriminate|]. split; [destruct (_ =? _)%N; discriminate|]. intros _.
      destruct (fx_cur _ _ _ _ _ P) as (l0 & E). eexists. split; [exact E|]. exact (fl_ty _ _ _ _ _ _ (fx_c _ _ _ _ _ P)). }
  assert (CUR : forall ty u, a_cur a = Some u -> cq_type (u_req u) = ty -> exists A r, accepted tr = A ++ [r] /\ cq_type r = ty /\ (length (responses tr) <= length A)%nat).
  { intros ty u CU TY. destruct (cur_last _ _ _ _ _ _ _ _ _ ST CU) as (A & EA & _ & LE & _). eauto. }
  inversion ST as [c0 k CS PI NK Z1 Z2 Z3 Z4 EM EQ2 ES2 EAA | a0 PH NK JA OA EAA].
  - rewrite (in_fsm _ _ _ PI). cbn [msg_fsm]. split; [split; auto; pose proof (in_k _ _ _ PI); lia|].
    split; [discriminate | intros [X|X]; discriminate].
  - destruct (PHF PH) as (NI & IV & FL). split; [split; [|lia]|split].
    + destruct (fsm s); try discriminate. congruence.
    + intros X. destruct IV as (u & CU & TY); [destruct (fsm s); try discriminate X; auto|]. eapply CUR; eauto.
    + intros X. destruct FL as (u & CU & TY); [destruct (fsm s), X as [X|X]; try discriminate X; auto|]. eapply CUR; eauto.
Qed.
End P.
