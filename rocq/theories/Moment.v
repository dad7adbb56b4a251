(** C72: the memory image of a line never goes back in time. *)
From Coq Require Import Arith NArith List Bool Lia.
From Verif Require Import Bits Params Msg Units Rtl Mem Spec System Tl ParamsProofs RtlLemmas RefineInv RefineProofs
  UnitProofs ViewDefs ViewOps ViewProofs SysProofs SysFacts Traffic MetaProofs PendProofs TrafProofs Crash CrashMultiSpec CrashMulti
  MultiSys MultiProofs MultiFacts MultiMore MomentSpec.
Import ListNotations.
Open Scope N_scope.

Section One.
Variable p : params.
Hypothesis W : wf_params p.
Variable m0 : mem.
Variable mine : N -> bool.
Variable l : N.

Definition rest0 (a : ast) (rq : list mreq) : Prop :=
  rq = [] /\ match a_cur a with Some u => u_todo u = [] | None => True end.
(** [k] serves for line [l] now, and will not have to be lowered *)
Definition kl (acc : list creq) (a : ast) (E : list cresp) (rq : list mreq) (m : mem) (k : nat) : Prop :=
  (k <= length acc)%nat /\ samew p mine l m (flat_mem p m0 (firstn k acc)) /\
  past_durable p l acc (doneA a E) k /\ ((k <= doneA a E)%nat \/ rest0 a rq).

Lemma kl_exec : forall Log a m q rq rs acc E k, J2 p m0 mine Log a m (q :: rq) rs acc E -> kl acc a E (q :: rq) m k ->
  exists k', (k <= k')%nat /\ kl acc a E rq (fst (mem_exec p m q)) k'.
Proof.
  intros Log a m q rq rs acc E k H (LK & SK & DK & CK). destruct CK as [CK | [CK _]]; [|discriminate CK].
  destruct (J2_crash p W m0 mine _ _ _ _ _ _ _ _ H) as [AG | (l' & k' & LK' & SK' & OT & CK')].
  - exists k. split; auto. split; auto. split; [intros a' A1 A2 A3; rewrite <- AG; auto | auto].
  - destruct (N.eq_dec l l') as [EQ|NE]; [subst l'|].
    + exists k'. unfold doneA in *. split; [lia|]. split; [lia|]. split; auto. split; [intros j r J; unfold doneA in J; lia|].
      destruct CK' as [CK'|CK']; [left; unfold doneA; lia | right; exact CK'].
    + exists k. split; auto. split; auto. split; [intros x A1 A2 A3; rewrite OT by congruence; auto | auto].
Qed.
Lemma kl_other : forall acc a E rq m m' k, kl acc a E rq m k -> agree p mine m m' -> kl acc a E rq m' k.
Proof.
  intros acc a E rq m m' k (LK & SK & DK & CK) AG. split; auto. split; auto. intros x A1 A2 A3. rewrite <- AG by auto. auto.
Qed.

Definition durb (r : creq) : bool := (cq_type r =? T_FLUSH) || is_amo (cq_type r) && (line_of p (cq_addr r) =? l).
Lemma kl_done : forall Log a m rq rs acc E a' k, J2 p m0 mine Log a m rq rs acc E -> a_done p a a' -> kl acc a E rq m k ->
  exists k', (k <= k')%nat /\ kl acc a' E rq m k'.
Proof.
  intros Log a m rq rs acc E a' k H D (LK & SK & DK & CK).
  pose proof (J2_done p W m0 mine _ _ _ _ _ _ _ _ H D) as H'.
  pose proof (J2_done_count p m0 mine _ _ _ _ _ _ _ H') as [LD DC].
  assert (N' : a_cur a' = None) by (inversion D; subst; auto). specialize (DC N').
  inversion D; subst. inversion H; subst.
  match goal with Z : good _ _ _ _ _ _ _ _ _ |- _ => rename Z into G end.
  match goal with Z : wf_req p r |- _ => rename Z into WF end.
  destruct (traf_step p W c g P (lru_run p lru_empty A) (view p c g) r (last_data got) (gd_inv _ _ _ _ _ _ _ _ _ G)
    (gd_pend _ _ _ _ _ _ _ _ _ G) (gd_lru _ _ _ _ _ _ _ _ _ G)) as [RT PE]; auto.
  pose proof (gd_len _ _ _ _ _ _ _ _ _ G) as GL. rewrite app_length in GL.
  destruct (durable_dec p l r) as [DU|ND].
  - exists (length (A ++ [r])). split; auto. split; auto. rewrite firstn_all. split; [|split; [|left; lia]].
    + inversion H'; subst. intros x X LX MX.
      match goal with Z : good _ _ _ _ (A ++ [r]) _ _ _ _ |- _ => rename Z into G' end.
      pose proof (gd_view _ _ _ _ _ _ _ _ _ G' x X MX) as V. rewrite view_clean in V.
      * match goal with Z : agree p mine g0 m |- _ => rewrite <- Z by auto end. auto.
      * intros w Hw. destruct (dirty_at p _ w x) eqn:DA; auto. exfalso.
        assert (DS : dset p (fst (tl_fin p c r (last_data got))) x = true) by (apply dset_true; eauto).
        rewrite <- PE in DS by auto. rewrite (durable_clean p W _ _ _ _ _ _ _ RT DU X LX) in DS. discriminate.
    + intros j x J E1 _. assert (NE : nth_error (A ++ [r]) j <> None) by congruence. apply nth_error_Some in NE. exact NE.
  - exists k. split; auto. split; auto. split; auto. split; [|left; lia].
    intros j x J E1 DJ. destruct (Nat.eq_dec j (length A)) as [->|NE].
    + rewrite nth_error_app2, Nat.sub_diag in E1 by lia. cbn in E1. inversion E1; subst. contradiction.
    + assert (JL : (j < length (A ++ [r]))%nat) by (apply nth_error_Some; congruence). rewrite app_length in JL. cbn [length] in JL.
      apply (DK j x); auto. unfold doneA. cbn [a_pend]. lia.
Qed.

Lemma kl_cycle : forall Log a m rq rs acc E i o a' k, J2 p m0 mine Log a m rq rs acc E -> acyc p a i o a' ->
  (i_mresp_en i = true -> exists l, rs = i_mresp i :: l) -> kl acc a E rq m k ->
  exists k', (k <= k')%nat /\
    kl (acc ++ (if i_req_en i then [i_req i] else [])) a' (E ++ opt_list (o_resp o)) (rq ++ opt_list (o_mreq o)) m k'.
Proof.
  intros Log a m rq rs acc E i o a' k H (a1 & a2 & a3 & C1 & C2 & C3 & C4) R1 K.
  set (rs1 := if i_mresp_en i then List.tl rs else rs).
  assert (H1 : J2 p m0 mine Log a1 m rq rs1 acc E /\ kl acc a1 E rq m k).
  { unfold o_recv, rs1 in *. destruct (i_mresp_en i).
    - destruct (R1 eq_refl) as (x & ->). cbn [List.tl]. split; [eapply J2_recv; eauto|]. inversion C1; subst. exact K.
    - subst; auto. }
  destruct H1 as [H1 K1].
  assert (H2 : J2 p m0 mine Log a2 m (rq ++ opt_list (o_mreq o)) rs1 acc (E ++ opt_list (o_resp o)) /\
     kl acc a2 (E ++ opt_list (o_resp o)) (rq ++ opt_list (o_mreq o)) m k).
  { unfold o_send in C2. destruct (o_mreq o), (o_resp o); cbn [opt_list]; rewrite ?app_nil_r; try contradiction.
    - split; [eapply J2_send; eauto|]. inversion C2; subst. destruct K1 as (LK & SK & DK & CK). split; auto. split; auto. split; auto.
      destruct CK as [CK | [_ CK]]; [left; exact CK | discriminate CK].
    - split; [eapply J2_emit; eauto|]. inversion C2; subst. unfold kl, doneA in *. cbn [a_pend length] in *. rewrite app_length. cbn [length].
      replace (length E + 1 + length pd)%nat with (length E + S (length pd))%nat by lia. exact K1.
    - subst; auto. }
  destruct H2 as [H2 K2].
  assert (H3 : J2 p m0 mine Log a3 m (rq ++ opt_list (o_mreq o)) rs1 acc (E ++ opt_list (o_resp o)) /\
     exists k', (k <= k')%nat /\ kl acc a3 (E ++ opt_list (o_resp o)) (rq ++ opt_list (o_mreq o)) m k').
  { destruct C3 as [C3 | ->]; eauto. split; [eapply J2_done; eauto | eapply kl_done; eauto]. }
  destruct H3 as [H3 (k' & LE & K3)].
  unfold o_acc in C4. destruct (i_req_en i); [|subst; rewrite app_nil_r; eauto].
  destruct (J2_done_count p m0 mine _ _ _ _ _ _ _ H3) as [LD DC]. exists k'. split; auto.
  inversion C4; subst. specialize (DC eq_refl). destruct K3 as (LK & SK & DK & CK). unfold kl, doneA in *. cbn [a_pend] in *.
  split; [rewrite app_length; lia|]. split; [|split; [|left; lia]].
  - rewrite firstn_app. replace (k' - length acc)%nat with 0%nat by lia. cbn [firstn]. rewrite app_nil_r. auto.
  - intros j x J N. apply DK; auto. rewrite nth_error_app1 in N by lia. auto.
Qed.
End One.

Section Many.
Variable p : params.
Variable sz : nat -> N * N.
Variable n : nat.
Hypothesis W : wf_caches p sz n.
Notation pp := (sized p sz).
Variable owner : N -> option nat.
Variable s0 : nat -> st.
Variable m0 : mem.
Variable i : nat.
Hypothesis I : (i < n)%nat.
Variable c0 : cst.
Hypothesis CS : clean_start (pp i) c0.
Variable l : N.
Definition klm (ts : list cyc) (a : ast) (rq : nat -> list mreq) (m : mem) (k : nat) : Prop :=
  kl (pp i) m0 (mineb owner i) l (accepted (proj i ts)) a (responses (proj i ts)) (rq i) m k.

(** From one moment to a later one. *)
Lemma klm_on : forall ts1 m1 rq1 rs1 ts2 m2 rq2 rs2, mmem p n m0 no_reqs no_resps ts1 m1 rq1 rs1 -> mmem p n m1 rq1 rs1 ts2 m2 rq2 rs2 ->
  caches p sz n owner s0 (ts1 ++ ts2) -> forall a2, aruns (pp i) (mkA c0 None []) (proj i (ts1 ++ ts2)) a2 ->
  exists a1, aruns (pp i) (mkA c0 None []) (proj i ts1) a1 /\
    forall k1, klm ts1 a1 rq1 m1 k1 -> exists k2, (k1 <= k2)%nat /\ klm (ts1 ++ ts2) a2 rq2 m2 k2.
Proof.
  intros ts1 m1 rq1 rs1 ts2 m2 rq2 rs2 H1 H2. induction H2 as [|ts m rq rs j q r H IH L E | ts m rq rs t H IH D]; intros C a2 AR.
  - rewrite app_nil_r in *. exists a2. split; auto. intros k1 K. eauto.
  - destruct (IH C a2 AR) as (a1 & A1 & K). exists a1. split; auto. intros k1 K1. destruct (K k1 K1) as (k2 & LE & K2).
    pose proof (mmem_trans p n _ _ _ _ _ _ _ _ _ _ _ H1 H) as HT.
    destruct (Nat.eq_dec i j) as [<-|NE].
    + pose proof (multi_inv p sz n W owner s0 m0 _ _ _ _ HT C i c0 a2 I CS AR) as JI. rewrite E in JI. unfold klm in K2. rewrite E in K2.
      destruct (kl_exec (pp i) (W i I) m0 (mineb owner i) l _ _ _ _ _ _ _ _ _ JI K2) as (k3 & LE3 & K3). exists k3. split; [lia|].
      unfold klm, setq. rewrite Nat.eqb_refl. exact K3.
    + exists k2. split; auto. unfold klm, setq. replace (Nat.eqb i j) with false by (symmetry; apply Nat.eqb_neq; auto).
      eapply kl_other; eauto. intros x X M. apply mineb_true in M. f_equal. symmetry.
      destruct (multi_ast p sz n W owner s0 m0 _ _ _ _ HT C j L) as (cj & aj & CSj & ARj).
      pose proof (multi_inv p sz n W owner s0 m0 _ _ _ _ HT C j cj aj L CSj ARj) as JJ. rewrite E in JJ.
      apply (J2_touch (pp j) (W j L) m0 (mineb owner j) _ _ _ _ _ _ _ _ x JJ X).
      * left. destruct (mineb owner j (word_num x)) eqn:B; auto. apply mineb_true in B. congruence.
      * intros y IN AW. destruct (C j L) as (_ & _ & _ & RS). rewrite Forall_forall in RS. destruct (RS y IN) as [_ R2].
        destruct (R2 _ AW); congruence.
  - rewrite app_assoc in *. pose proof (caches_app p sz n owner s0 _ _ C) as C'.
    rewrite proj_app in AR. cbn [proj map] in AR. rewrite (surjective_pairing (t i)) in AR. apply aruns_snoc in AR. destruct AR as (a & AR1 & AR2).
    destruct (IH C' a AR1) as (a1 & A1 & K). exists a1. split; auto. intros k1 K1. destruct (K k1 K1) as (k2 & LE & K2).
    pose proof (mmem_trans p n _ _ _ _ _ _ _ _ _ _ _ H1 H) as HT.
    pose proof (multi_inv p sz n W owner s0 m0 _ _ _ _ HT C' i c0 a I CS AR1) as JI.
    destruct (kl_cycle (pp i) (W i I) m0 (mineb owner i) l _ _ _ _ _ _ _ _ _ _ _ JI AR2 (D i I) K2) as (k3 & LE3 & K3).
    exists k3. split; [lia|]. unfold klm. rewrite proj_app. cbn [proj map]. rewrite accepted_app, responses_app.
    assert (EA : accepted [t i] = if i_req_en (fst (t i)) then [i_req (fst (t i))] else []).
    { unfold accepted. cbn [flat_map]. rewrite app_nil_r. auto. }
    assert (ER : responses [t i] = opt_list (o_resp (snd (t i)))).
    { unfold responses. cbn [flat_map]. rewrite app_nil_r. auto. }
    rewrite EA, ER. exact K3.
Qed.

Definition image (ts : list cyc) (m : mem) (k : nat) : Prop :=
  let A := accepted (proj i ts) in
  (k <= length A)%nat /\ same_own p owner i l m (flat_mem p m0 (firstn k A)) /\ past_durable p l A (length (responses (proj i ts))) k.
Lemma klm_image : forall ts a rq m k, klm ts a rq m k -> image ts m k.
Proof.
  intros ts a rq m k (LK & SK & DK & _). split; [exact LK|]. split.
  - intros x X LX OW. apply SK; auto. apply mineb_true. auto.
  - intros j r J N D. apply (DK j r); auto. unfold doneA. lia.
Qed.

Lemma stages_on : forall L m1 rq1 rs1, mstages p n m1 rq1 rs1 L -> forall ts1, mmem p n m0 no_reqs no_resps ts1 m1 rq1 rs1 ->
  caches p sz n owner s0 (ts1 ++ whole L) -> forall a2, aruns (pp i) (mkA c0 None []) (proj i (ts1 ++ whole L)) a2 ->
  exists a1, aruns (pp i) (mkA c0 None []) (proj i ts1) a1 /\ forall k1, klm ts1 a1 rq1 m1 k1 ->
    exists K, rising (length L) K /\ forall j ts m, nth_error L j = Some (ts, m) -> (k1 <= K j)%nat /\ image (ts1 ++ upto L j) m (K j).
Proof.
  intros L m1 rq1 rs1 SG. induction SG as [m rq rs | m rq rs ts m' rq' rs' L M SG IH]; intros ts1 H C a2 AR.
  - unfold whole in *. cbn [map concat] in *. rewrite app_nil_r in *. exists a2. split; auto. intros k1 K. exists (fun _ => 0%nat). split; [intros j j' J; cbn in J; lia|].
    intros j ts x N. destruct j; discriminate N.
  - unfold whole in C, AR. cbn [map concat fst] in C, AR. fold (whole L) in C, AR. rewrite app_assoc in C, AR.
    pose proof (mmem_trans p n _ _ _ _ _ _ _ _ _ _ _ H M) as HT.
    destruct (IH (ts1 ++ ts) HT C a2 AR) as (a & A & K).
    destruct (klm_on ts1 m rq rs ts m' rq' rs' H M (caches_app p sz n owner s0 _ _ C) a A) as (a1 & A1 & K1).
    exists a1. split; auto. intros k1 Q. destruct (K1 k1 Q) as (k2 & LE & Q2). destruct (K k2 Q2) as (KK & R & IM).
    exists (fun j => match j with O => k2 | S j => KK j end). split.
    + intros j j' J. cbn [length] in J. destruct j as [|j], j' as [|j']; try lia.
      * destruct (nth_error L j') as [[tj mj]|] eqn:N; [|apply nth_error_None in N; lia]. apply (IM _ _ _ N).
      * apply R. lia.
    + intros j tj mj N. destruct j as [|j].
      * cbn in N. inversion N; subst. split; auto. unfold upto, whole. cbn [firstn map concat fst]. rewrite app_nil_r. eapply klm_image; eauto.
      * cbn [nth_error] in N. destruct (IM _ _ _ N) as [I1 I2]. split; [lia|].
        unfold upto, whole in *. change (firstn (S (S j)) ((ts, m') :: L)) with ((ts, m') :: firstn (S j) L).
        cbn [map concat fst] in I2 |- *. rewrite app_assoc. exact I2.
Qed.
End Many.

Theorem stages_rise : forall p z n owner s0 L m0 i l, wf_caches p z n -> own_clients p z n owner s0 (whole L) ->
  mstages p n m0 no_reqs no_resps L -> (i < n)%nat ->
  exists K, rising (length L) K /\ forall j ts m, nth_error L j = Some (ts, m) ->
    let tr := proj i (upto L j) in
    (K j <= length (accepted tr))%nat /\ same_own p owner i l m (flat_mem p m0 (firstn (K j) (accepted tr))) /\
    past_durable p l (accepted tr) (length (responses tr)) (K j).
Proof.
  intros p z n owner s0 L m0 i l W C S I.
  assert (HM : exists m rq rs, mmem p n m0 no_reqs no_resps (whole L) m rq rs).
  { clear C. revert S. generalize no_reqs, no_resps. intros rq rs S. induction S as [m rq rs | m rq rs ts m' rq' rs' L M S (m2 & rq2 & rs2 & IH)].
    - exists m, rq, rs. constructor.
    - exists m2, rq2, rs2. eapply mmem_trans; eauto. }
  destruct HM as (m & rq & rs & HM).
  destruct (multi_ast p z n W owner s0 m0 _ _ _ _ HM C i I) as (c0 & a & CS & AR).
  destruct (stages_on p z n W owner s0 m0 i I c0 CS l L _ _ _ S [] (mm_start _ _ _ _ _) C a AR) as (a1 & A1 & K).
  inversion A1; subst. destruct (K 0%nat) as (KK & R & IM).
  - split; [cbn; lia|]. split; [intros x _ _ _; reflexivity|]. split; [intros j r J N; destruct j; discriminate N | left; lia].
  - exists KK. split; auto. intros j ts x N. destruct (IM j ts x N) as [_ IJ]. exact IJ.
Qed.
