(** Every legal run of [Rtl] from reset is a run of the transaction-level
    machine [Tl] from an empty cache. *)
From Coq Require Import NArith List Bool Lia.
From Verif Require Import Bits Params Msg Units Rtl Tl ParamsProofs RtlLemmas RefineInv RefineStall RefineReq RefineAdv1 RefineAdv2 RefineAdv3.
Import ListNotations.
Open Scope N_scope.

(** Memory requests outstanding after a cycle. *)
Definition outst_next (out : list mreq) (i : inp) (o : outp) : list mreq :=
  (if i_mresp_en i then tl out else out) ++ ol (o_mreq o).

(** A run in which the environment obeys [legal] in every cycle. *)
Fixpoint legal_run (p : params) (s : st) (out : list mreq) (is : list inp) : Prop :=
  match is with
  | [] => True
  | i :: r => legal p s out i /\ legal_run p (next p s i) (outst_next out i (output p s i)) r
  end.

Inductive aruns (p : params) : ast -> list (inp * outp) -> ast -> Prop :=
| ar_nil : forall a, aruns p a [] a
| ar_cons : forall a i o a1 tr a2, acyc p a i o a1 -> aruns p a1 tr a2 -> aruns p a ((i, o) :: tr) a2.

(** An empty cache: every line invalid and clean. *)
Definition clean_start (p : params) (c : cst) : Prop :=
  (forall w j, w < p_assoc p -> j < nblocks p -> te_val p (ct c w j) = false /\ te_dty p (ct c w j) = 0) /\
  (forall j, cr c j = 0).

Section R.
Variable p : params.
Hypothesis W : wf_params p.

Theorem step_sim : forall s a i, phase p s a -> legal p s (a_outst a) i ->
  exists a', acyc p a i (output p s i) a' /\ phase p (next p s i) a'.
Proof.
  intros s a i P L. destruct (ostall2 s i) eqn:S; [apply stall_phase; auto|].
  destruct P; eauto using adv_idle, adv_req, adv_evict, adv_wait, adv_refill, adv_inv, adv_invl,
    adv_flstart, adv_flrd, adv_flwait, adv_flwr.
Qed.

Lemma acyc_outst : forall a i o a', acyc p a i o a' -> a_outst a' = outst_next (a_outst a) i o.
Proof.
  intros a i o a' (a1 & a2 & a3 & R & S & D & A).
  assert (E1 : a_outst a1 = if i_mresp_en i then tl (a_outst a) else a_outst a).
  { unfold o_recv in R. destruct (i_mresp_en i); [inversion R; subst; auto | subst; auto]. }
  assert (E2 : a_outst a2 = a_outst a1 ++ ol (o_mreq o)).
  { unfold o_send in S. destruct (o_mreq o), (o_resp o); try contradiction;
    cbn [ol]; rewrite ?app_nil_r; try (inversion S; subst; auto; fail). }
  assert (E3 : a_outst a3 = a_outst a2).
  { destruct D as [D | ->]; auto. inversion D; auto. }
  assert (E4 : a_outst a' = a_outst a3).
  { unfold o_acc in A. destruct (i_req_en i); [inversion A; auto | subst; auto]. }
  unfold outst_next. congruence.
Qed.

(** *** After reset *)
Definition init_t (t : trans) : Prop := t = TR_INVALID \/ t = TR_CACHE_INIT.

Record ph_init (s : st) (k : N) : Prop := mkInit {
  in_fsm : fsm s = F_INIT; in_ctr : ctr s = k; in_k : k < total_lines p;
  in_msn : msn s = 0;
  in_t1 : init_t (t1 s); in_t2 : init_t (t2 s);
  in_r : forall j, rep s j = 0;
  in_t : forall w j, w < p_assoc p -> j < nblocks p -> k < lnum p w j ->
           te_val p (tram s w j) = false /\ te_dty p (tram s w j) = 0
}.

Lemma init_write : forall s i w j, fsm s = F_INIT -> ctr s < total_lines p ->
  w < p_assoc p -> j < nblocks p ->
  if lnum p w j =? ctr s
  then te_val p (tram (next p s i) w j) = false /\ te_dty p (tram (next p s i) w j) = 0
  else tram (next p s i) w j = tram s w j.
Proof.
  intros s i w j F K Hw Hj.
  assert (TR : trans0 p s i = TR_CACHE_INIT) by (unfold trans0; rewrite F; auto).
  assert (U : upd_way_idx0 p s i = ctr s) by (unfold upd_way_idx0; rewrite TR; auto).
  rewrite tram_next.
  assert (V : tag_val0 p s i w = (w =? lway p (ctr s))).
  { unfold tag_val0, is_ctr_way0, ctr_way0. rewrite TR, U. auto. }
  assert (X : tag_idx0 p s i = lidx p (ctr s)).
  { unfold tag_idx0, cs0_idxsel, cs0, init_idx0. rewrite TR, U. auto. }
  assert (WR : cs0_wr p s i = true) by (unfold cs0_wr, cs0; rewrite TR; auto).
  assert (WD : exists t, tag_wdata0 p s i = mk_te p false 0 t).
  { unfold tag_wdata0, new_entry0, cs0_cmd, cs0. rewrite TR. cbn [fst snd update_tag]. eauto. }
  assert (WB : cs0_wben p s i = ones_te p) by (unfold cs0_wben, cs0; rewrite TR; auto).
  destruct WD as (t & WD). rewrite V, X, WR, WD, WB. unfold sram_wr. rewrite andb_true_r.
  pose proof (line_is p W (ctr s) w j K) as LI.
  unfold inrange in LI. rewrite (proj2 (N.ltb_lt _ _) Hw), (proj2 (N.ltb_lt _ _) Hj) in LI. cbn [andb] in LI.
  rewrite LI. destruct (w =? lway p (ctr s)); cbn [andb]; auto.
  unfold upd. destruct (j =? lidx p (ctr s)); auto.
  rewrite te_val_all, te_dty_all by auto. split; auto.
Qed.

(** One cycle of initialisation; answers of memory are ignored, except in the
    last cycle. *)
Lemma init_cycle : forall s k i, ph_init s k -> (i_req_en i = true -> req_rdy p s i = true) ->
  output p s i = mkOut false None None /\ i_req_en i = false /\
  (k <> 0 /\ ph_init (next p s i) (k - 1) \/
   k = 0 /\ (i_mresp_en i = false -> exists c0, clean_start p c0 /\ phase p (next p s i) (mkA c0 None []))).
Proof.
  intros s k i P L. destruct P.
  assert (A1 : m2_active (t1 s) = false) by (destruct in_t3 as [-> | ->]; auto).
  assert (A2 : m2_active (t2 s) = false) by (destruct in_t4 as [-> | ->]; auto).
  assert (S : ostall2 s i = false) by (rewrite ostall2_eq, A2; auto).
  assert (Q : quiet_t (t1 s) = true) by (destruct in_t3 as [-> | ->]; auto).
  pose proof (quiet_evict p s Q) as EV.
  assert (AL : cs1_alloc p s = false) by (apply quiet_alloc; auto; destruct in_t3 as [-> | ->]; discriminate).
  assert (RR : req_rdy p s i = false) by (unfold req_rdy; rewrite in_fsm0; auto).
  assert (RE : i_req_en i = false).
  { destruct (i_req_en i) eqn:E; auto. specialize (L eq_refl). congruence. }
  destruct (m2_inactive p s A2) as [R2 M2].
  destruct (out_nostall p s i S) as [O1 O2].
  split; [|split]; auto.
  { rewrite R2 in O1. rewrite M2 in O2. unfold output in *. cbn in O1, O2. rewrite RR, O1, O2. auto. }
  assert (TR : trans0 p s i = TR_CACHE_INIT) by (unfold trans0; rewrite in_fsm0; auto).
  assert (FS : fsm (next p s i) = if k =? 0 then F_READY else F_INIT).
  { rewrite an_fsm by auto. unfold fsm_next. rewrite in_fsm0, in_ctr0. auto. }
  assert (CT : ctr (next p s i) = prev_line p k).
  { rewrite an_ctr by auto. unfold ctr_en. rewrite in_fsm0. cbn [fsm_eqb orb].
    rewrite ctr_dec_prev by (auto; rewrite in_ctr0; auto). rewrite in_ctr0. auto. }
  assert (MS : msn (next p s i) = 0).
  { rewrite an_msn, AL by auto. unfold cs0_dealloc, cs0. rewrite TR. auto. }
  assert (T1' : t1 (next p s i) = TR_CACHE_INIT) by (rewrite an_t1; auto).
  assert (T2' : t2 (next p s i) = t1 s) by (rewrite an_t2; auto).
  assert (RP : forall j, rep (next p s i) j = 0) by (intro; rewrite quiet_rep; auto).
  assert (TT : forall w j, w < p_assoc p -> j < nblocks p -> k <= lnum p w j ->
           te_val p (tram (next p s i) w j) = false /\ te_dty p (tram (next p s i) w j) = 0).
  { intros w j Hw Hj HK. pose proof (init_write s i w j in_fsm0) as IW.
    rewrite in_ctr0 in IW. specialize (IW in_k0 Hw Hj).
    destruct (N.eqb_spec (lnum p w j) k); auto. rewrite IW. apply in_t0; auto. lia. }
  destruct (N.eqb_spec k 0) as [K|K].
  - right. split; auto. intros NM.
    assert (MV : mrv (next p s i) = false) by (rewrite an_mrv; auto).
    exists (mkC (tram (next p s i)) (dnext p (next p s i)) (fun _ => 0)). split.
    + split; cbn [ct cr]; auto. intros. apply TT; auto. subst; lia.
    + assert (M2' : m2_active (t2 (next p s i)) = false) by (rewrite T2'; auto).
      destruct (m2_inactive p (next p s i) M2') as [R2' MM2'].
      assert (R1' : resp1 p (next p s i) = None) by (unfold resp1; rewrite T1'; auto).
      apply P_idle. constructor; cbn [a_c a_cur a_pend ct cd cr]; auto.
      * rewrite CT, K. auto.
      * rewrite T1'. auto.
      * rewrite R2', R1'. auto.
  - left. split; auto. constructor; auto.
    + rewrite CT. unfold prev_line. destruct (N.eqb_spec k 0); auto; lia.
    + lia.
    + right; auto.
    + rewrite T2'; auto.
    + intros. apply TT; auto; lia.
Qed.

Lemma init_step : forall s k i, ph_init s k -> legal p s [] i ->
  output p s i = mkOut false None None /\ i_req_en i = false /\ i_mresp_en i = false /\
  (k <> 0 /\ ph_init (next p s i) (k - 1) \/
   k = 0 /\ exists c0, clean_start p c0 /\ phase p (next p s i) (mkA c0 None [])).
Proof.
  intros s k i P L. assert (NM : i_mresp_en i = false) by (eapply noresp; eauto).
  destruct (init_cycle s k i P) as (O & RE & N').
  { intros E. apply (lg_req _ _ _ _ L E). }
  split; auto. split; auto. split; auto. destruct N' as [N' | (K & N')]; auto.
Qed.

Lemma reset_init : forall s, reset_state p s -> ph_init s (total_lines p - 1).
Proof.
  intros s R. unfold reset_state in R. decompose [and] R.
  pose proof (total_ge2 p W).
  constructor; auto; try (left; auto; fail); try lia.
  intros w j Hw Hj HL. pose proof (lnum_lt p W w j Hw Hj). lia.
Qed.

Lemma acyc_idle : forall a i, i_req_en i = false -> i_mresp_en i = false ->
  acyc p a i (mkOut false None None) a.
Proof.
  intros. exists a, a, a. unfold o_recv, o_send, o_done, o_acc. rewrite H, H0. cbn. auto.
Qed.

Theorem run_sim : forall is s a, phase p s a -> legal_run p s (a_outst a) is ->
  exists a', aruns p a (combine is (snd (run p s is))) a' /\ phase p (fst (run p s is)) a'.
Proof.
  induction is as [|i is IH]; intros s a P L.
  - exists a. split; [constructor|auto].
  - destruct L as [L1 L2]. destruct (step_sim s a i P L1) as (a1 & C & P1).
    rewrite <- (acyc_outst _ _ _ _ C) in L2.
    destruct (IH _ _ P1 L2) as (a2 & R & P2).
    exists a2. cbn [run step fst snd].
    destruct (run p (next p s i) is) as [s2 os] eqn:E. cbn [fst snd combine] in *.
    split; auto. econstructor; eauto.
Qed.

Theorem init_sim : forall is s k, ph_init s k -> legal_run p s [] is ->
  exists c0 a', clean_start p c0 /\ aruns p (mkA c0 None []) (combine is (snd (run p s is))) a' /\
    (phase p (fst (run p s is)) a' \/
     a' = mkA c0 None [] /\ exists k', ph_init (fst (run p s is)) k').
Proof.
  induction is as [|i is IH]; intros s k P L.
  - exists (mkC (fun _ _ => 0) (fun _ => 0) (fun _ => 0)). eexists. split; [|split; [constructor|]].
    + split; cbn [ct cr]; auto. intros. split; [unfold te_val; apply N.bits_0 | apply te_dty_0].
    + right. eauto.
  - destruct L as [L1 L2]. destruct (init_step s k i P L1) as (O & RE & NM & N').
    assert (E : outst_next [] i (output p s i) = []) by (unfold outst_next; rewrite O, NM; auto).
    rewrite E in L2. destruct N' as [(K & N') | (K & c0 & C & N')].
    + destruct (IH _ _ N' L2) as (c0 & a' & C & R & Z).
      exists c0, a'. cbn [run step fst snd].
      destruct (run p (next p s i) is) as [s2 os] eqn:E'. cbn [fst snd combine] in *.
      split; auto. split; auto. econstructor; eauto. rewrite O. apply acyc_idle; auto.
    + destruct (run_sim is _ _ N' L2) as (a' & R & Z).
      exists c0, a'. cbn [run step fst snd].
      destruct (run p (next p s i) is) as [s2 os] eqn:E'. cbn [fst snd combine] in *.
      split; auto. split; auto. econstructor; eauto. rewrite O. apply acyc_idle; auto.
Qed.

(** The refinement. *)
Theorem refinement : forall s0 is, reset_state p s0 -> legal_run p s0 [] is ->
  exists c0 a', clean_start p c0 /\
    aruns p (mkA c0 None []) (combine is (snd (run p s0 is))) a' /\
    (phase p (fst (run p s0 is)) a' \/
     a' = mkA c0 None [] /\ exists k, ph_init (fst (run p s0 is)) k).
Proof. intros. eapply init_sim; eauto. apply reset_init; auto. Qed.

End R.
