(** C74: caches and a device over one memory: sequential consistency; concrete runs. *)
From Coq Require Import Arith NArith List Bool Lia.
From Verif Require Import Bits Params Msg Units Rtl Mem Spec System Tl ParamsProofs RefineInv RefineProofs
  UnitProofs ViewDefs ViewOps ViewProofs SysProofs SysFacts Traffic MetaProofs PendProofs TrafProofs
  Hide Proto MultiSys MultiProofs MultiFacts DynSpec DynProofs DynFacts DynMore DmaSpec Dma.
Import ListNotations.
Open Scope N_scope.

Section SC.
Variable p : params.
Variable sz : nat -> N * N.
Variable n : nat.
Hypothesis W : wf_caches p sz n.
Notation pp := (sized p sz).
Variables (s0 : nat -> st) (m0 : mem).

Lemma dmem_typed : forall h m rq rs, dmem p n m0 h m rq rs ->
  forall i, (i < n)%nat -> answers_typed (proj i (cycles h)) /\
    exists ms, outstanding (proj i (cycles h)) = ms ++ rq i /\ Forall2 (fun x q => mr_type x = mq_type q) (rs i) ms.
Proof.
  intros h m rq rs H. induction H as [|h m rq rs j q l H IH L E | h m rq rs t H IH D | h m rq rs a H IH | h m rq rs a v H IH]; intros i I; rewrite ?cycles_c, ?cycles_d; auto.
  - split; [intros t1 io t2 E; destruct t1; discriminate E|]. exists []. split; [auto | constructor].
  - destruct (IH i I) as (LG & ms & OU & F). split; auto. unfold setq. destruct (Nat.eqb_spec i j) as [->|NE].
    + exists (ms ++ [q]). rewrite OU, E, <- app_assoc. split; auto. apply Forall2_app; auto. constructor; auto. apply mem_exec_type.
    + exists ms. auto.
  - destruct (IH i I) as (LG & ms & OU & F). rewrite proj_app. cbn [proj map].
    assert (X : i_mresp_en (fst (t i)) = true -> exists q l, outstanding (proj i (cycles h)) = q :: l /\ mr_type (i_mresp (fst (t i))) = mq_type q).
    { intros ME. destruct (D i I ME) as (l & RS). rewrite RS in F. inversion F as [|? q0 ? ms' F3 F4]; subst. rewrite OU.
      exists q0, (ms' ++ rq i). auto. }
    split; [apply typed_snoc; auto|].
    destruct (t i) as [x o] eqn:TI. cbn [fst snd] in *.
    rewrite outstanding_next; [|apply typed_le; auto|].
    2:{ intros ME. destruct (X ME) as (q & l & -> & _). discriminate. }
    unfold outst_next. rewrite ol_opt. destruct (i_mresp_en x) eqn:ME.
    + destruct (D i I) as (l & RS). { rewrite TI. auto. }
      rewrite RS in F |- *. cbn [List.tl]. inversion F as [|? q0 ? ms' F3 F4]; subst. rewrite OU.
      exists ms'. cbn [app List.tl]. rewrite <- app_assoc. auto.
    + exists ms. rewrite OU, <- app_assoc. auto.
Qed.
Theorem dmem_proto : forall h m rq rs i, clients p sz n s0 (cycles h) -> dmem p n m0 h m rq rs -> (i < n)%nat ->
  proto_run (pp i) (s0 i) (map fst (proj i (cycles h))).
Proof.
  intros h m rq rs i C M I. destruct (C i I) as (C1 & C2 & C3). destruct (dmem_typed _ _ _ _ M i I) as [A _].
  split; auto. rewrite <- C2. auto.
Qed.

(** requests of other caches in the same cycle leave a word cache [i] touches alone *)
Lemma dma_before : forall U K may own ts1 t ts2 i, K * 4 < 2 ^ p_abw p -> clients p sz n s0 (ts1 ++ t :: ts2) ->
  synced p sz n K may own (ts1 ++ t :: ts2) -> (i < n)%nat -> i_req_en (fst (t i)) = true -> touches p (i_req (fst (t i))) K ->
  agree p (mk K true) (flat_mem p U (flat_map (fun j => accepted [t j]) (seq 0 i))) U.
Proof.
  intros U K may own ts1 t ts2 i HK C SY I RE TO.
  assert (AT : forall j, nth_error (proj j (ts1 ++ t :: ts2)) (length ts1) = Some (t j)).
  { intros j. unfold proj. rewrite map_app, nth_error_app2; rewrite map_length; auto. rewrite Nat.sub_diag. auto. }
  assert (MY : may (length ts1) i = true).
  { destruct (sy_touch _ _ _ _ _ _ _ SY i (length ts1) (t i) I (AT i) RE TO) as (e & E1 & E2 & _). apply E2. lia. }
  apply (flat_keeps p K). apply Forall_forall. intros r R. apply in_flat_map in R. destruct R as (j & J & R). apply in_seq in J.
  rewrite acc1 in R. destruct (i_req_en (fst (t j))) eqn:EJ; [|destruct R]. destruct R as [<- | []]. split.
  - destruct (C j ltac:(lia)) as (_ & _ & CK). unfold client_ok in CK. rewrite Forall_forall in CK.
    apply (CK (t j)); auto. eapply nth_error_In. apply AT.
  - intros TJ. assert (JN : (j < n)%nat) by lia. pose proof (sy_modify _ _ _ _ _ _ _ SY j (length ts1) (t j) JN (AT j) EJ TJ) as OJ.
    pose proof (sy_excl _ _ _ _ _ _ _ SY (length ts1) j i ltac:(rewrite app_length; lia) JN I OJ MY). lia.
Qed.

Theorem dma_sc : forall may own h1 t h2 m rq rs i y, let h := h1 ++ HC t :: h2 in
  dmem p n m0 h m rq rs -> clients p sz n s0 (cycles h) ->
  (forall k, k * 4 < 2 ^ p_abw p -> synced p sz n k (may k) (own k) (cycles h) /\ dev_synced n k (may k) (own k) h) ->
  (i < n)%nat -> i_req_en (fst (t i)) = true ->
  nth_error (responses (proj i (cycles h))) (length (accepted (proj i (cycles h1)))) = Some y ->
  cr_type y = cq_type (i_req (fst (t i))) /\ cr_opq y = cq_opq (i_req (fst (t i))) /\ cr_len y = cq_len (i_req (fst (t i))) /\
  cr_data y = snd (flat_exec p (flat_mem p (shared p n m0 h1) (flat_map (fun j => accepted [t j]) (seq 0 i))) (i_req (fst (t i)))).
Proof.
  intros may own h1 t h2 m rq rs i y h H C SY I RE NY.
  assert (ECY : cycles h = cycles h1 ++ t :: cycles h2) by (unfold h; rewrite cycles_app; auto).
  assert (R2' := fun k HK => dma_resp p sz n W k HK s0 m0 (may k) (own k) h1 t h2 m rq rs i y H C (proj1 (SY k HK)) (proj2 (SY k HK)) I RE NY).
  assert (PR := dmem_proto h m rq rs i C H I). clearbody h. set (ts1 := cycles h1) in *. set (ts2 := cycles h2) in *. rewrite ECY in *.
  set (r := i_req (fst (t i))) in *.
  assert (NA : nth_error (accepted (proj i (ts1 ++ t :: ts2))) (length (accepted (proj i ts1))) = Some r).
  { rewrite proj_app, accepted_app. cbn [proj map]. change (t i :: map (fun t0 => t0 i) ts2) with ([t i] ++ proj i ts2).
    rewrite accepted_app, acc1, RE. rewrite nth_error_app2, Nat.sub_diag by lia. auto. }
  assert (EC : echo r = echo_y y).
  { destruct (proto_echo (pp i) (W i I) _ _ PR) as (rest & E).
    destruct (C i I) as (_ & TR & _). rewrite <- TR in E.
    apply (f_equal (fun l => nth_error l (length (accepted (proj i ts1))))) in E. rewrite nth_error_map, NA in E. cbn [option_map] in E.
    rewrite nth_error_app1 in E by (rewrite map_length; apply nth_error_Some; congruence).
    rewrite nth_error_map, NY in E. cbn [option_map] in E. unfold echo, echo_y. injection E as E1 E2 E3. congruence. }
  unfold echo, echo_y in EC. injection EC as E1 E2 E3. split; [auto|split; [auto|split; [auto|]]]. clear E1 E2 E3.
  assert (WF : wf_req p r).
  { destruct (C i I) as (_ & _ & CK). unfold client_ok in CK. rewrite Forall_forall in CK. apply (CK (t i)); auto.
    unfold proj. apply in_map_iff. exists t. split; auto. apply in_or_app. right. left. auto. }
  pose proof WF as (HA & _).
  assert (HW : word_num (cq_addr r) * 4 < 2 ^ p_abw p) by (pose proof (word_mul4 (cq_addr r)); lia).
  rename R2' into R2. fold r in R2.
  assert (BE : forall k, k * 4 < 2 ^ p_abw p -> touches p r k ->
     agree p (mk k true) (flat_mem p (shared p n m0 h1) (flat_map (fun j => accepted [t j]) (seq 0 i))) (shared p n m0 h1)).
  { intros k HK TO. destruct (SY k HK) as [SY1 _]. eapply (dma_before _ k _ _ ts1 t ts2); eauto. }
  set (V := shared p n m0 h1) in *. set (U := flat_mem p V (flat_map (fun j => accepted [t j]) (seq 0 i))) in *. clearbody U V.
  unfold flat_exec. destruct (N.eqb_spec (cq_type r) T_READ) as [TR|TR]; cbn [snd].
  - assert (WR : wf_read p r).
    { destruct (rw_cases p r WF) as [X | (X & _)]; auto; [unfold rw_req; rewrite TR; auto | rewrite TR in X; discriminate X]. }
    apply rd_of_bytes.
    + rewrite N2Nat.id. apply (r2_size _ _ _ _ _ (R2 _ HW)). auto.
    + rewrite N2Nat.id. intros j J. set (k := word_num (cq_addr r + j)).
      assert (HJ : cq_addr r + j < 2 ^ p_abw p) by (pose proof (req_in_range (pp i) (W i I) r WF (or_introl WR) : _ <= 2 ^ p_abw p); change (req_bytes (pp i) r) with (req_bytes p r) in *; lia).
      assert (HK : k * 4 < 2 ^ p_abw p) by (pose proof (word_mul4 (cq_addr r + j)); unfold k; lia).
      assert (TO : touches p r k) by (left; split; auto; unfold k, word_num; split; apply N.div_le_mono; lia).
      rewrite (r2_read _ _ _ _ _ (R2 k HK) TR j J eq_refl). symmetry. apply (BE k HK TO); auto.
      unfold mk. fold k. rewrite N.eqb_refl. auto.
  - destruct (N.eqb_spec (cq_type r) T_WRITE) as [TW|TW]; cbn [snd].
    + apply (r2_zero _ _ _ _ _ (R2 _ HW)); auto. rewrite TW. auto.
    + destruct (is_amo (cq_type r)) eqn:IA; cbn [snd].
      * rewrite (r2_amo _ _ _ _ _ (R2 _ HW) IA eq_refl). apply rd_ext. intros k HK4. change (N.of_nat 4) with 4 in HK4.
        assert (WA : wf_amo p r).
        { destruct WF as (_ & _ & [X | [X | [X | [X | X]]]]); auto; try (destruct X; congruence); rewrite X in IA; discriminate IA. }
        pose proof WA as (_ & AL & _).
        assert (TO : touches p r (word_num (cq_addr r))) by (right; split; auto).
        symmetry. apply (BE _ HW TO).
        -- destruct (off_aligned (pp i) (cq_addr r) 2) as [_ OF]; [pose proof (offw_ge3 (pp i) (W i I)); lia | auto |].
           apply (addr_add (pp i) (W i I)); [apply WF|]. change (2 ^ 2) with 4 in OF. change (offw (pp i)) with (offw p) in *. lia.
        -- unfold mk. apply N.eqb_eq. unfold word_num. pose proof (N.div_mod' (cq_addr r) 4) as DM. rewrite AL in DM.
           set (z := cq_addr r / 4) in *. clearbody z. symmetry. apply N.div_unique with k; lia.
      * apply (r2_zero _ _ _ _ _ (R2 _ HW)); auto.
Qed.
End SC.
