(** A line that a READ, WRITE or AMO drives out of the cache leaves no unwritten
    words behind. *)
From Coq Require Import NArith List Bool Lia.
From Verif Require Import Bits Params Msg Units Tl Mem Spec ParamsProofs UnitProofs ViewDefs ViewOps ViewProofs Traffic MetaProofs PendProofs TrafProofs.
Import ListNotations.
Open Scope N_scope.

Section E.
Variable p : params.
Hypothesis W : wf_params p.

Lemma lru_mem : forall L c m a, lruinv p L c -> cinv p c m -> a < 2 ^ p_abw p ->
  (In (line_of p a) (L (line_of p a mod nblocks p)) <->
   exists w, w < p_assoc p /\ lval p c w (a_idx p a) = true /\ ltag p c w (a_idx p a) = a_tag p a).
Proof.
  intros L c m a GL C HA. set (r := mkCReq T_READ 0 a 0 0).
  pose proof (in_lru p W L c r GL (ci_uniq _ _ _ C) (ci_rep _ _ _ C) HA) as IL. cbn [cq_addr r] in IL.
  rewrite (line_set p W) by auto. rewrite IL. clear IL.
  pose proof (look_spec p W c r (ci_uniq _ _ _ C)) as LK. cbn [cq_addr r] in LK. split.
  - intros HI. rewrite HI in LK. inversion LK. eauto.
  - intros (w & Hw & V & T). inversion LK as [|w1 L1 L2 L3 L4 L5 L6|L1 L2]; auto; exfalso.
    + assert (w = tl_hw p c r).
      { apply (ci_uniq _ _ _ C w (tl_hw p c r) (a_idx p a)); auto using lval_present, a_idx_lt; [|congruence].
        unfold present. apply N.eqb_neq in L3. rewrite L3. apply orb_true_r. }
      congruence.
    + apply (L1 w); auto using lval_present.
Qed.

Lemma evict_clean : forall c m m' L P' r d a, cinv p c m -> lruinv p L c -> wf_req p r -> cq_type r <> T_INV ->
  let c' := fst (tl_fin p c r d) in
  cinv p c' m' -> pendeq p P' c' -> a < 2 ^ p_abw p ->
  In (line_of p a) (L (line_of p a mod nblocks p)) ->
  ~ In (line_of p a) (fst (lru_step p L r) (line_of p a mod nblocks p)) -> P' (word_num a) = false.
Proof.
  intros c m m' L P' r d a C GL WF NI c' C' PE HA B1 B2.
  pose proof (ci_uniq _ _ _ C) as U. pose proof (ci_rep _ _ _ C) as RP.
  destruct (lru_fin p W L c r d GL U RP WF) as [GL' _]. fold c' in GL'.
  rewrite (lru_mem _ _ _ _ GL C HA) in B1. rewrite (lru_mem _ _ _ _ GL' C' HA) in B2.
  destruct B1 as (w1 & Hw1 & V1 & T1). rewrite PE by auto. apply not_true_iff_false. intros D.
  apply dset_true in D. destruct D as (w & Hw & D). apply dirty_at_inv in D. destruct D as [D1 D2].
  pose proof (a_idx_lt p W a) as Hi. set (i := a_idx p a) in *.
  (* an unchanged way *)
  assert (SAME : ct c' w i = ct c w i -> False).
  { intros E. apply B2. exists w. split; auto.
    assert (w = w1).
    { apply (U w w1 i); auto using lval_present.
      - eapply ldty_present. unfold ldty in *. rewrite <- E. eauto.
      - unfold ltag in *. rewrite <- E. congruence. }
    subst w. unfold lval, ltag in *. rewrite E. auto. }
  destruct (rw_req r) eqn:RW.
  - destruct (meta_rw p W c r d WF RW U RP) as (M1 & M2 & M3 & _). fold c' in M1, M2, M3.
    destruct (same_line w i (tl_way p c r) (a_idx p (cq_addr r))) as [(-> & E2) | S]; auto.
    apply B2. exists (tl_way p c r). rewrite E2 in *. auto.
  - destruct (not_rw p r WF RW) as [WA | [TI | TF]]; [|contradiction|].
    + destruct (meta_amo p c r d WA) as (M1 & M2 & _). fold c' in M1, M2.
      destruct (tl_hit p c r || tl_inval p c r).
      * destruct (same_line w i (tl_hw p c r) (a_idx p (cq_addr r))) as [(-> & E2) | S]; auto.
        destruct M2 as (_ & M2 & _). rewrite E2 in *. unfold ldty in D2. rewrite M2, N.bits_0 in D2. discriminate D2.
      * apply SAME. rewrite M2. auto.
    + apply B2. exists w1. split; auto. unfold c', tl_fin. rewrite TF. change (T_FLUSH =? T_INV) with false. change (T_FLUSH =? T_FLUSH) with true.
      cbn [fst]. unfold lval, ltag. cbn [ct]. rewrite ct_tmap by auto. split; [rewrite (proj1 (te_clean p (ct c w1 i))) || idtac | idtac].
      all: try (destruct (te_clean p (ct c w1 i)) as (E1 & E2 & E3); unfold lval, ltag in *; congruence).
Qed.
End E.
