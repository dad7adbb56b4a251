(** Any number of caches over one memory: the invariant of every run. *)
From Coq Require Import Arith NArith List Bool Lia.
From Verif Require Import Bits Params Msg Units Rtl Mem Spec System Tl ParamsProofs RefineInv RefineProofs
  UnitProofs ViewDefs ViewOps ViewProofs SysProofs SysFacts Traffic MetaProofs PendProofs TrafProofs MultiSys MultiProofs.
Import ListNotations.
Open Scope N_scope.

Section One.
Variable p : params.
Hypothesis W : wf_params p.
Variable m0 : mem.
Variable mine : N -> bool.

(** *** More logged moments *)
Section Mono.
Variables Log Log' : nat -> mem -> Prop.
Hypothesis SUB : forall k mu, Log k mu -> Log' k mu.
Lemma fresh_mono : forall A H a v, fresh Log A H a v -> fresh Log' A H a v.
Proof. intros A H a v (k & mu & L & R). exists k, mu. auto. Qed.
Lemma resp_mono : forall A r y, resp_ok p m0 mine Log A r y -> resp_ok p m0 mine Log' A r y.
Proof.
  intros A r y [R1 R2 R3 R4 R5 R6]. constructor; auto.
  - intros T j J. destruct (R3 T j J). split; auto. intros. eapply fresh_mono; eauto.
  - intros T. destruct (R5 T) as [H (mu & L & E)]. split; auto. exists mu. auto.
Qed.
Lemma good_mono : forall A c g Y P, good p m0 mine Log A c g Y P -> good p m0 mine Log' A c g Y P.
Proof.
  intros A c g Y P [G1 G2 G3 G4 G5 G6 G7 G8 G9]. constructor; auto.
  - intros a HA M I. eapply fresh_mono; eauto.
  - intros n r y N1 N2. apply resp_mono. eauto.
Qed.
Lemma answers_mono : forall K ex g xs, answers p mine Log K g ex xs -> answers p mine Log' K g ex xs.
Proof.
  induction ex as [|e ex IH]; intros g xs H; destruct xs; auto. destruct H as [(mu & L & R) H]. split; auto. exists mu. auto.
Qed.
End Mono.

(** State of one cache in the crowd. *)
Inductive J2 (Log : nat -> mem -> Prop) : ast -> mem -> list mreq -> list mresp -> list creq -> list cresp -> Prop :=
| J2_idle : forall c pd m A E g P, good p m0 mine Log A c g (E ++ pd) P -> agree p mine g m ->
    J2 Log (mkA c None pd) m [] [] A E
| J2_busy : forall c r todo out l pd m rq rs A E g P ex qs got xs,
    good p m0 mine Log A c g (E ++ pd) P -> wf_req p r -> okr p mine r ->
    tl_reqs p c r = ex ++ qs ++ todo ->
    agree p mine (fst (mem_run p g ex)) m -> answers p mine Log (length A + 1) g ex (got ++ xs) ->
    Forall2 rsim xs rs -> Forall2 (mreq_match r) qs rq -> l = last_data got ->
    (exists ms, out = ms ++ rq /\ length ms = length rs) ->
    J2 Log (mkA c (Some (mkCur r todo out l)) pd) m rq rs (A ++ [r]) E.

Lemma J2_mono : forall (Log Log' : nat -> mem -> Prop) a m rq rs A E, (forall k mu, Log k mu -> Log' k mu) ->
  J2 Log a m rq rs A E -> J2 Log' a m rq rs A E.
Proof.
  intros Log Log' a m rq rs A E S H. inversion H; subst.
  - eapply J2_idle; eauto using good_mono.
  - eapply J2_busy; eauto using good_mono, answers_mono.
Qed.
Lemma J2_other : forall Log a m m' rq rs A E, J2 Log a m rq rs A E -> agree p mine m m' -> J2 Log a m' rq rs A E.
Proof.
  intros Log a m m' rq rs A E H AG. inversion H; subst.
  - eapply J2_idle; eauto using agree_trans.
  - eapply J2_busy; eauto using agree_trans.
Qed.

(** the requests of the current transaction are harmless *)
Lemma good_benign : forall Log A c g Y P r, good p m0 mine Log A c g Y P -> wf_req p r ->
  Forall (benign p P r) (tl_reqs p c r).
Proof.
  intros Log A c g Y P r G WF.
  destruct (traf_step p W c g P (lru_run p lru_empty A) (view p c g) r 0 (gd_inv _ _ _ _ _ _ _ _ _ G)
    (gd_pend _ _ _ _ _ _ _ _ _ G) (gd_lru _ _ _ _ _ _ _ _ _ G)) as [TR _]; auto.
  eapply exec_traffic; eauto.
Qed.
Lemma match_benign : forall P r e q, mreq_match r e q -> benign p P r e -> benign p P r q.
Proof.
  intros P r e q M B x X.
  assert (E : forall m, fst (mem_exec p m q) = fst (mem_exec p m e)) by (intros; symmetry; apply (mem_exec_sim p m r e q M)).
  destruct (B x X) as [H | [(H1 & H2) | (H1 & H2)]].
  - left. intros. rewrite E. auto.
  - right. left. split; auto. intros. rewrite !E. auto.
  - right. right. split; auto. intros. rewrite !E. auto.
Qed.

Lemma J2_exec : forall Log a m q rq rs A E, J2 Log a m (q :: rq) rs A E -> Log (length A) m ->
  J2 Log a (fst (mem_exec p m q)) rq (rs ++ [snd (mem_exec p m q)]) A E.
Proof.
  intros Log a m q rq rs A E H LG. inversion H; subst; clear H.
  match goal with F : Forall2 (mreq_match r) qs _ |- _ => inversion F as [|e ? qs' ? M1 M2]; subst; clear F end.
  destruct (mem_exec_sim p m r e q M1) as [S1 S2].
  match goal with Z : exists ms, _ |- _ => destruct Z as (ms & -> & LM) end.
  match goal with Z : tl_reqs p c r = _ |- _ => rename Z into TR end.
  match goal with Z : good _ _ _ _ _ _ _ _ _ |- _ => pose proof (good_benign _ _ _ _ _ _ r Z ltac:(auto)) as BN end.
  rewrite TR in BN. apply Forall_app in BN. destruct BN as [_ BN]. inversion BN as [|? ? B1 _]; subst.
  rewrite app_length in LG. cbn [length] in LG.
  eapply J2_busy with (ex := ex ++ [e]) (qs := qs') (got := got) (xs := xs ++ [snd (mem_exec p m e)]); eauto.
  - rewrite TR. rewrite <- app_assoc. auto.
  - rewrite mem_run_app. cbn [fst]. rewrite mem_run_cons. cbn [fst mem_run]. rewrite <- S1. eapply benign_agree; eauto.
  - rewrite app_assoc. apply answers_snoc; auto. apply agree_sym; auto.
  - apply Forall2_app; auto.
  - exists (ms ++ [q]). rewrite <- app_assoc. split; auto. rewrite !app_length. cbn. lia.
Qed.

(** what an executed request of this cache leaves alone *)
Lemma J2_touch : forall Log a m q rq rs A E x, J2 Log a m (q :: rq) rs A E -> x < 2 ^ p_abw p ->
  (mine (word_num x) = false \/ forall r, In r A -> ~ write_word p r (word_num x)) ->
  (forall r, In r A -> ~ amo_word r (word_num x)) -> fst (mem_exec p m q) x = m x.
Proof.
  intros Log a m q rq rs A E x H X M NA. inversion H; subst; clear H.
  match goal with F : Forall2 (mreq_match r) qs _ |- _ => inversion F as [|e ? qs' ? M1 M2]; subst; clear F end.
  match goal with Z : tl_reqs p c r = _ |- _ => rename Z into TR end.
  match goal with Z : good _ _ _ _ _ _ _ _ _ |- _ => rename Z into G end.
  pose proof (good_benign _ _ _ _ _ _ r G ltac:(auto)) as BN.
  rewrite TR in BN. apply Forall_app in BN. destruct BN as [_ BN]. inversion BN as [|? ? B1 _]; subst.
  destruct (match_benign _ _ _ _ M1 B1 x X) as [H | [(H & _) | (H & _)]]; auto.
  - exfalso. apply (gd_dirt _ _ _ _ _ _ _ _ _ G) in H; [|pose proof (word_mul4 x); lia].
    destruct M as [M | M].
    + apply (dirtied_mine p mine _ _ (gd_wf _ _ _ _ _ _ _ _ _ G)) in H. congruence.
    + destruct H as (A1 & v & A2 & -> & WW & _). apply (M v); auto. apply in_or_app. left. apply in_or_app. right. left. auto.
  - exfalso. apply (NA r); auto. apply in_or_app. right. left. auto.
Qed.

Lemma J2_recv : forall Log a m rq x rs A E a', J2 Log a m rq (x :: rs) A E -> a_recv a x a' -> J2 Log a' m rq rs A E.
Proof.
  intros Log a m rq x rs A E a' H R. inversion R; subst. inversion H; subst; clear H.
  match goal with F : Forall2 rsim ?xs (x :: rs) |- _ => inversion F as [|x' ? xs' ? M1 M2]; subst; clear F end.
  match goal with Z : exists ms, _ |- _ => destruct Z as (ms & MS & LM) end.
  destruct ms as [|mz ms]; [discriminate|]. cbn [app] in MS. inversion MS; subst.
  eapply J2_busy with (got := got ++ [x']) (xs := xs'); eauto.
  - rewrite <- app_assoc. auto.
  - unfold last_data. rewrite fold_left_app. cbn. symmetry. apply M1.
Qed.

Lemma J2_send : forall Log a m rq rs A E q a', J2 Log a m rq rs A E -> a_send a q a' -> J2 Log a' m (rq ++ [q]) rs A E.
Proof.
  intros Log a m rq rs A E q a' H R. inversion R; subst. inversion H; subst; clear H.
  match goal with Z : exists ms, _ |- _ => destruct Z as (ms & -> & LM) end.
  eapply J2_busy with (ex := ex) (qs := qs ++ [e]); eauto.
  - match goal with Z : tl_reqs p c r = _ |- _ => rewrite Z end. rewrite <- !app_assoc. auto.
  - apply Forall2_app; auto.
  - exists ms. rewrite app_assoc. auto.
Qed.
Lemma J2_emit : forall Log a m rq rs A E y a', J2 Log a m rq rs A E -> a_emit a y a' -> J2 Log a' m rq rs A (E ++ [y]).
Proof.
  intros Log a m rq rs A E y a' H R. inversion R; subst. inversion H; subst; clear H.
  - eapply J2_idle; eauto. rewrite <- app_assoc. eauto.
  - eapply J2_busy; eauto. rewrite <- app_assoc. eauto.
Qed.
Lemma J2_done : forall Log a m rq rs A E a', J2 Log a m rq rs A E -> a_done p a a' -> J2 Log a' m rq rs A E.
Proof.
  intros Log a m rq rs A E a' H R. inversion R; subst. inversion H; subst; clear H.
  match goal with Z : exists ms, _ |- _ => destruct Z as (ms & MS & LM) end.
  symmetry in MS. apply app_eq_nil in MS. destruct MS; subst.
  destruct rs; [|discriminate].
  match goal with F : Forall2 rsim xs [] |- _ => inversion F; subst; clear F end.
  match goal with F : Forall2 (mreq_match r) qs [] |- _ => inversion F; subst; clear F end.
  rewrite !app_nil_r in *.
  match goal with Z : tl_reqs p c r = _ |- _ => rename Z into TR end.
  rewrite <- TR in *.
  match goal with Z : good _ _ _ _ _ _ _ _ _ |- _ => rename Z into G end.
  match goal with Z : answers _ _ _ _ _ _ _ |- _ => rename Z into AN end.
  destruct (fin p W m0 mine Log _ _ _ _ _ _ _ G ltac:(eauto) ltac:(eauto) AN) as (g' & P' & G' & AG').
  rewrite <- app_assoc in G'. eapply J2_idle; eauto using agree_trans.
Qed.
Lemma J2_acc : forall Log a m rq rs A E r a', J2 Log a m rq rs A E -> a_acc p a r a' -> wf_req p r -> okr p mine r ->
  J2 Log a' m rq rs (A ++ [r]) E.
Proof.
  intros Log a m rq rs A E r a' H R WR OK. inversion R; subst. inversion H; subst; clear H.
  eapply J2_busy with (ex := []) (qs := []) (got := []) (xs := []); eauto.
  - exact I.
  - exists []. auto.
Qed.

Lemma J2_cycle : forall Log a m rq rs A E i o a', J2 Log a m rq rs A E -> acyc p a i o a' ->
  (i_mresp_en i = true -> exists l, rs = i_mresp i :: l) ->
  (i_req_en i = true -> wf_req p (i_req i) /\ okr p mine (i_req i)) ->
  J2 Log a' m (rq ++ opt_list (o_mreq o)) (if i_mresp_en i then List.tl rs else rs)
    (A ++ (if i_req_en i then [i_req i] else [])) (E ++ opt_list (o_resp o)).
Proof.
  intros Log a m rq rs A E i o a' H (a1 & a2 & a3 & C1 & C2 & C3 & C4) R1 WR.
  set (rs1 := if i_mresp_en i then List.tl rs else rs).
  assert (H1 : J2 Log a1 m rq rs1 A E).
  { unfold o_recv, rs1 in *. destruct (i_mresp_en i).
    - destruct (R1 eq_refl) as (l & ->). cbn [List.tl]. eapply J2_recv; eauto.
    - subst; auto. }
  assert (H2 : J2 Log a2 m (rq ++ opt_list (o_mreq o)) rs1 A (E ++ opt_list (o_resp o))).
  { unfold o_send in C2. destruct (o_mreq o), (o_resp o); cbn [opt_list]; rewrite ?app_nil_r; try contradiction.
    - eapply J2_send; eauto.
    - eapply J2_emit; eauto.
    - subst; auto. }
  assert (H3 : J2 Log a3 m (rq ++ opt_list (o_mreq o)) rs1 A (E ++ opt_list (o_resp o))).
  { destruct C3 as [C3 | ->]; auto. eapply J2_done; eauto. }
  unfold o_acc in C4. destruct (i_req_en i).
  - destruct (WR eq_refl). eapply J2_acc; eauto.
  - subst. rewrite app_nil_r. auto.
Qed.

Lemma J2_start : forall Log c, clean_start p c -> J2 Log (mkA c None []) m0 [] [] [] [].
Proof.
  intros Log c (C1 & C2). destruct (cinv_init p W c m0 C1) as [I V]; auto.
  apply J2_idle with (g := m0) (P := fun _ => false); [|apply agree_refl]. constructor; auto.
  - apply lru_init; auto.
  - intros a A. symmetry. apply not_true_iff_false. intros D. apply dset_true in D. destruct D as (w & Hw & D).
    apply dirty_at_inv in D. destruct D as [_ D]. unfold ldty in D.
    destruct (C1 w (a_idx p a) Hw (a_idx_lt p W a)) as [_ E]. rewrite E, N.bits_0 in D. discriminate.
  - intros k _ X. discriminate.
  - intros a A M X. destruct X.
  - intros n r y H. destruct n; discriminate.
Qed.
End One.

Lemma aruns_snoc : forall p tr a i o a', aruns p a (tr ++ [(i, o)]) a' -> exists a1, aruns p a tr a1 /\ acyc p a1 i o a'.
Proof.
  induction tr as [|[i' o'] tr IH]; intros a i o a' H; cbn [app] in H; inversion H; subst.
  - match goal with X : aruns p _ [] _ |- _ => inversion X; subst end. exists a. split; [constructor | auto].
  - match goal with X : aruns p _ (tr ++ _) _ |- _ => destruct (IH _ _ _ _ X) as (a2 & A1 & A2) end.
    exists a2. split; auto. econstructor; eauto.
Qed.
Lemma legal_add : forall p is s out i, legal_run p s out is -> legal p (fst (run p s is)) (outs p s out is) i ->
  legal_run p s out (is ++ [i]).
Proof.
  induction is as [|j is IH]; intros s out i H L; cbn [app legal_run outs run step] in *.
  - split; auto.
  - destruct H as [H1 H2]. split; auto. apply IH; auto. destruct (run p (next p s j) is); auto.
Qed.
Lemma proj_app : forall i ts ts', proj i (ts ++ ts') = proj i ts ++ proj i ts'.
Proof. intros. apply map_app. Qed.

Section Aux.
Variable p : params.
Lemma flat_keep_list : forall B m a, Forall (wf_req p) B ->
  (forall r, In r B -> ~ write_word p r (word_num a) /\ ~ amo_word r (word_num a)) -> flat_mem p m B a = m a.
Proof.
  induction B as [|r B IH]; intros m a F H; auto. inversion F; subst. cbn [flat_mem]. rewrite IH; auto.
  - destruct (H r (or_introl eq_refl)). apply flat_keep; auto.
  - intros v V. apply H. right. auto.
Qed.
Lemma accepted_wf : forall tr, client_ok p tr -> Forall (wf_req p) (accepted tr).
Proof.
  induction tr as [|[i o] tr IH]; intros C; [constructor|]. inversion C as [|? ? C1 C2]; subst. unfold accepted. cbn [flat_map fst].
  apply Forall_app. split; [|apply IH; auto]. cbn [fst snd] in C1. destruct (i_req_en i); [|constructor]. constructor; [apply C1; auto | constructor].
Qed.
Lemma wbs_in : forall M qs P q, wbs_ok p P M qs -> In q qs -> exists P', (forall k, P' k = true -> P k = true) /\ wb_ok p P' M q.
Proof.
  induction qs as [|q0 qs IH]; intros P q H IN; [destruct IN|]. destruct H as [H1 H2]. destruct IN as [<- | IN].
  - exists P. auto.
  - destruct (IH _ _ H2 IN) as (P' & S & B). exists P'. split; auto. intros k K. apply S in K. unfold clear in K. apply andb_prop in K. apply K.
Qed.
Lemma traffic_wb : forall P L M r g q, wf_req p r -> req_traffic p P L M r g -> In q g -> mq_type q = T_WRITE ->
  exists P', (forall k, P' k = true -> P k = true) /\ wb_ok p P' M q.
Proof.
  intros P L M r g q WF T IN TW. unfold req_traffic in T. destruct (rw_req r) eqn:RW.
  { destruct (in_dec _ _ _); [subst; destruct IN|].
    destruct T as (wb & q' & -> & WB & _ & _ & QT & _). apply in_app_or in IN. destruct IN as [IN | [<- | []]].
    - eapply wbs_in; eauto.
    - rewrite TW in QT. discriminate. }
  destruct (is_amo (cq_type r)) eqn:IA.
  { destruct T as (wb & q' & -> & WB & _ & _ & _ & QT & _). apply in_app_or in IN. destruct IN as [IN | [<- | []]].
    - eapply wbs_in; eauto.
    - rewrite QT in TW. rewrite TW in IA. discriminate. }
  destruct (cq_type r =? T_FLUSH); [|subst; destruct IN]. destruct T as [T _]. eapply wbs_in; eauto.
Qed.
End Aux.

Section Many.
Variable p : params.
Variable sz : nat -> N * N.
Variable n : nat.
Hypothesis W : wf_caches p sz n.
Notation pp := (sized p sz).
Variable owner : N -> option nat.
Variable s0 : nat -> st.
Variable m0 : mem.

Definition mineb (i : nat) (k : N) : bool := match owner k with Some j => Nat.eqb j i | None => false end.
Lemma mineb_true : forall i k, mineb i k = true <-> owner k = Some i.
Proof.
  intros i k. unfold mineb. destruct (owner k) as [j|]; [|split; discriminate].
  rewrite Nat.eqb_eq. split; [intros ->; auto | intros H; inversion H; auto].
Qed.
Lemma respects_okr : forall i r, respects p owner i r -> okr (pp i) (mineb i) r.
Proof. intros i r (R & _) k H. apply mineb_true. auto. Qed.

Definition caches (ts : list cyc) : Prop := forall i, (i < n)%nat ->
     reset_state (pp i) (s0 i) /\
     proj i ts = trace_of (pp i) (s0 i) (map fst (proj i ts)) /\
     client_ok p (proj i ts) /\
     Forall (respects p owner i) (accepted (proj i ts)).
Lemma caches_app : forall ts ts', caches (ts ++ ts') -> caches ts.
Proof.
  intros ts ts' C i I. destruct (C i I) as (C1 & C2 & C3 & C4). rewrite !proj_app in *. rewrite map_app, trace_app in C2.
  rewrite accepted_app in C4. apply Forall_app in C3, C4. split; auto. split; [|split; [apply C3 | apply C4]].
  assert (L : length (proj i ts) = length (trace_of (pp i) (s0 i) (map fst (proj i ts)))) by (rewrite trace_length, map_length; auto).
  apply (f_equal (firstn (length (proj i ts)))) in C2.
  rewrite firstn_app, Nat.sub_diag, firstn_all in C2. cbn [firstn] in C2. rewrite app_nil_r in C2.
  rewrite L, firstn_app, Nat.sub_diag, firstn_all in C2. cbn [firstn] in C2. rewrite app_nil_r in C2. auto.
Qed.
Lemma caches_last : forall ts t i, caches (ts ++ [t]) -> (i < n)%nat ->
  t i = (fst (t i), output (pp i) (fst (run (pp i) (s0 i) (map fst (proj i ts)))) (fst (t i))) /\
  (i_req_en (fst (t i)) = true -> o_req_rdy (snd (t i)) = true /\ wf_req p (i_req (fst (t i))) /\ respects p owner i (i_req (fst (t i)))).
Proof.
  intros ts t i C I. destruct (C i I) as (C1 & C2 & C3 & C4). rewrite proj_app in *. cbn [proj map] in *.
  rewrite map_app in C2. cbn [map] in C2. rewrite trace_snoc in C2. apply app_inj_tail in C2. destruct C2 as [_ C2].
  split; auto. intros E. apply Forall_app in C3. destruct C3 as [_ C3]. inversion C3 as [|? ? X _]; subst. destruct (X E) as [X1 X2].
  split; auto. split; auto. rewrite accepted_app in C4. apply Forall_app in C4. destruct C4 as [_ C4].
  unfold accepted in C4. cbn [flat_map] in C4. rewrite E in C4. cbn in C4. inversion C4; auto.
Qed.

Lemma mmem_trans : forall m rq rs ts m1 rq1 rs1 ts' m2 rq2 rs2,
  mmem p n m rq rs ts m1 rq1 rs1 -> mmem p n m1 rq1 rs1 ts' m2 rq2 rs2 -> mmem p n m rq rs (ts ++ ts') m2 rq2 rs2.
Proof.
  intros m rq rs ts m1 rq1 rs1 ts' m2 rq2 rs2 H1 H2. induction H2 as [|ts' m' rq' rs' i q l H IH L E | ts' m' rq' rs' t H IH D].
  - rewrite app_nil_r. auto.
  - eapply mm_exec; eauto.
  - rewrite app_assoc. apply mm_cycle; auto.
Qed.

(** the environment of each cache is legal *)
Lemma multi_legal : forall ts m rq rs, mmem p n m0 no_reqs no_resps ts m rq rs -> caches ts ->
  forall i, (i < n)%nat -> legal_run (pp i) (s0 i) [] (map fst (proj i ts)) /\
    exists ms, outs (pp i) (s0 i) [] (map fst (proj i ts)) = ms ++ rq i /\ Forall2 (fun x q => mr_type x = mq_type q) (rs i) ms.
Proof.
  intros ts m rq rs H. induction H as [|ts m rq rs j q l H IH L E | ts m rq rs t H IH D]; intros C i I.
  - split; [exact Logic.I|]. exists []. split; [auto | constructor].
  - destruct (IH C i I) as (LG & ms & OU & F). split; auto. unfold setq. destruct (Nat.eqb_spec i j) as [->|NE].
    + exists (ms ++ [q]). rewrite OU, E, <- app_assoc. split; auto. apply Forall2_app; auto. constructor; auto. apply mem_exec_type.
    + exists ms. auto.
  - destruct (IH (caches_app _ _ C) i I) as (LG & ms & OU & F).
    destruct (caches_last _ _ _ C I) as [TO CL]. rewrite proj_app, map_app. cbn [proj map].
    destruct (t i) as [x o] eqn:TI. cbn [fst snd] in *. inversion TO as [EO]. rewrite <- EO.
    split.
    + apply legal_add; auto. constructor.
      * intros RE. destruct (CL RE) as (X1 & X2 & _). rewrite EO in X1. split; auto. eapply wf_req_type; eauto.
      * intros ME. specialize (D i I). rewrite TI in D. destruct (D ME) as (l & RS). cbn [fst] in RS. rewrite RS in F.
        inversion F as [|? q ? ms' F1 F2]; subst. rewrite OU. exists q, (ms' ++ rq i). auto.
    + rewrite outs_snoc. unfold outst_next. rewrite OU. rewrite <- EO, ol_opt. specialize (D i I). rewrite TI in D. cbn [fst] in D.
      destruct (i_mresp_en x) eqn:ME.
      * destruct (D eq_refl) as (l & RS). rewrite RS in F. inversion F as [|? q ? ms' F1 F2]; subst. rewrite RS. cbn [List.tl app].
        exists ms'. rewrite app_assoc. auto.
      * exists ms. rewrite app_assoc. auto.
Qed.
Lemma multi_ast : forall ts m rq rs, mmem p n m0 no_reqs no_resps ts m rq rs -> caches ts ->
  forall i, (i < n)%nat -> exists c0 a, clean_start (pp i) c0 /\ aruns (pp i) (mkA c0 None []) (proj i ts) a.
Proof.
  intros ts m rq rs H C i I. destruct (multi_legal _ _ _ _ H C i I) as [LG _]. destruct (C i I) as (C1 & C2 & _).
  destruct (refinement (pp i) (W i I) (s0 i) _ C1 LG) as (c0 & a & A1 & A2 & _). exists c0, a. split; auto.
  rewrite C2. auto.
Qed.

(** moments of a run, as seen by cache [i] *)
Definition moment (i : nat) (ts : list cyc) (m : mem) rq rs (k : nat) (mu : mem) : Prop :=
  exists t1 t2 rq1 rs1, ts = t1 ++ t2 /\ mmem p n m0 no_reqs no_resps t1 mu rq1 rs1 /\
    mmem p n mu rq1 rs1 t2 m rq rs /\ k = length (accepted (proj i t1)).

Theorem multi_inv : forall ts m rq rs, mmem p n m0 no_reqs no_resps ts m rq rs -> caches ts ->
  forall i c0 a, (i < n)%nat -> clean_start (pp i) c0 -> aruns (pp i) (mkA c0 None []) (proj i ts) a ->
  J2 (pp i) m0 (mineb i) (moment i ts m rq rs) a m (rq i) (rs i) (accepted (proj i ts)) (responses (proj i ts)).
Proof.
  intros ts m rq rs H. induction H as [|ts m rq rs j q l H IH L E | ts m rq rs t H IH D]; intros C i c0 a I CS AR.
  - cbn [proj map] in AR. inversion AR; subst. apply J2_start; auto.
  - set (m' := fst (mem_exec p m q)). set (rq' := setq rq j l). set (rs' := setq rs j (rs j ++ [snd (mem_exec p m q)])).
    assert (MONO : forall k mu, moment i ts m rq rs k mu -> moment i ts m' rq' rs' k mu).
    { intros k mu (t1 & t2 & rq1 & rs1 & M1 & M2 & M3 & M4). exists t1, t2, rq1, rs1. repeat split; auto. apply mm_exec; auto. }
    assert (JI := J2_mono (pp i) m0 (mineb i) _ _ _ _ _ _ _ _ MONO (IH C i c0 a I CS AR)).
    destruct (Nat.eq_dec i j) as [->|NE].
    + unfold rq', rs', setq. rewrite Nat.eqb_refl. rewrite E in JI. apply (J2_exec (pp j) (W j I) m0 (mineb j)); auto.
      exists ts, [], rq, rs. rewrite app_nil_r. repeat split; auto. apply (mm_exec p n m rq rs [] m rq rs); auto. constructor.
    + assert (EQ : rq' i = rq i /\ rs' i = rs i) by (unfold rq', rs', setq; destruct (Nat.eqb_spec i j); [contradiction | auto]).
      destruct EQ as [-> ->]. eapply J2_other; eauto. intros x X M. apply mineb_true in M.
      destruct (multi_ast _ _ _ _ H C j L) as (cj & aj & CSj & ARj). pose proof (IH C j cj aj L CSj ARj) as JJ. rewrite E in JJ.
      f_equal. symmetry. unfold m'. apply (J2_touch (pp j) (W j L) m0 (mineb j) _ _ _ _ _ _ _ _ x JJ X).
      * left. destruct (mineb j (word_num x)) eqn:B; auto. apply mineb_true in B. congruence.
      * intros r IN AW. destruct (C j L) as (_ & _ & _ & RS). rewrite Forall_forall in RS. destruct (RS r IN) as [_ R2].
        destruct (R2 _ AW); congruence.
  - pose proof (caches_app _ _ C) as C'. destruct (caches_last _ _ _ C I) as [TO CL].
    rewrite !proj_app in *. cbn [proj map] in *. rewrite accepted_app, responses_app.
    rewrite (surjective_pairing (t i)) in AR. apply aruns_snoc in AR. destruct AR as (a1 & A1 & A2).
    assert (MONO : forall k mu, moment i ts m rq rs k mu ->
       moment i (ts ++ [t]) m (fun i => rq i ++ opt_list (o_mreq (snd (t i)))) (fun i => if i_mresp_en (fst (t i)) then List.tl (rs i) else rs i) k mu).
    { intros k mu (t1 & t2 & rq1 & rs1 & M1 & M2 & M3 & M4). exists t1, (t2 ++ [t]), rq1, rs1. rewrite M1, <- app_assoc. repeat split; auto.
      apply mm_cycle; auto. }
    assert (JI := J2_mono (pp i) m0 (mineb i) _ _ _ _ _ _ _ _ MONO (IH C' i c0 a1 I CS A1)).
    assert (EA : accepted [t i] = if i_req_en (fst (t i)) then [i_req (fst (t i))] else []).
    { unfold accepted. cbn [flat_map]. rewrite app_nil_r. auto. }
    assert (ER : responses [t i] = opt_list (o_resp (snd (t i)))).
    { unfold responses. cbn [flat_map]. rewrite app_nil_r. auto. }
    fold (proj i ts). rewrite EA, ER. apply (J2_cycle (pp i) (W i I) m0 (mineb i) _ _ _ _ _ _ _ _ _ _ JI A2).
    + apply D; auto.
    + intros RE. destruct (CL RE) as (_ & X1 & X2). split; auto. apply respects_okr. auto.
Qed.

(** *** What follows for cache [i] *)
Lemma multi_good : forall ts m rq rs i, mmem p n m0 no_reqs no_resps ts m rq rs -> caches ts -> (i < n)%nat ->
  exists A c g pd P cur, accepted (proj i ts) = A ++ opt_list cur /\
    good (pp i) m0 (mineb i) (moment i ts m rq rs) A c g (responses (proj i ts) ++ pd) P /\
    match cur with
    | None => agree (pp i) (mineb i) g m
    | Some r => wf_req (pp i) r /\ exists ex, Forall (benign (pp i) P r) ex /\ agree (pp i) (mineb i) (fst (mem_run (pp i) g ex)) m
    end.
Proof.
  intros ts m rq rs i H C I. destruct (multi_ast _ _ _ _ H C i I) as (c0 & a & CS & AR).
  pose proof (multi_inv _ _ _ _ H C i c0 a I CS AR) as JJ. inversion JJ; subst.
  - exists (accepted (proj i ts)), c, g, pd, P, None. cbn [opt_list]. rewrite app_nil_r. auto.
  - exists A, c, g, pd, P, (Some r). split; auto. split; auto. split; auto. exists ex. split; auto.
    match goal with Z : good _ _ _ _ _ _ _ _ _ |- _ => pose proof (good_benign (pp i) (W i I) _ _ _ _ _ _ _ _ r Z ltac:(auto)) as BN end.
    match goal with Z : tl_reqs (pp i) c r = _ |- _ => rewrite Z in BN end. apply Forall_app in BN. apply BN.
Qed.

Theorem multi_resp : forall ts m rq rs i k r y, mmem p n m0 no_reqs no_resps ts m rq rs -> caches ts -> (i < n)%nat ->
  nth_error (accepted (proj i ts)) k = Some r -> nth_error (responses (proj i ts)) k = Some y ->
  resp_ok (pp i) m0 (mineb i) (moment i ts m rq rs) (firstn k (accepted (proj i ts))) r y.
Proof.
  intros ts m rq rs i k r y H C I N1 N2. destruct (multi_good _ _ _ _ i H C I) as (A & c & g & pd & P & cur & EA & G & _).
  assert (N3 : nth_error (responses (proj i ts) ++ pd) k = Some y).
  { rewrite nth_error_app1; auto. apply nth_error_Some. congruence. }
  assert (LK : (k < length A)%nat).
  { rewrite <- (gd_len _ _ _ _ _ _ _ _ _ G). apply nth_error_Some. congruence. }
  rewrite EA in *. rewrite nth_error_app1 in N1 by auto.
  replace (firstn k (A ++ opt_list cur)) with (firstn k A).
  - eapply gd_resp; eauto.
  - rewrite firstn_app. replace (k - length A)%nat with 0%nat by lia. cbn [firstn]. rewrite app_nil_r. auto.
Qed.

(** number of responses *)
Theorem multi_counts : forall ts m rq rs i, mmem p n m0 no_reqs no_resps ts m rq rs -> caches ts -> (i < n)%nat ->
  (length (responses (proj i ts)) <= length (accepted (proj i ts)))%nat.
Proof.
  intros ts m rq rs i H C I. destruct (multi_good _ _ _ _ i H C I) as (A & c & g & pd & P & cur & EA & G & _).
  pose proof (gd_len _ _ _ _ _ _ _ _ _ G) as GL. rewrite EA. rewrite !app_length in *. lia.
Qed.



(** after an answered FLUSH, memory holds what this cache has written *)
Theorem multi_flush : forall ts m rq rs i A f B a, mmem p n m0 no_reqs no_resps ts m rq rs -> caches ts -> (i < n)%nat ->
  accepted (proj i ts) = A ++ f :: B -> cq_type f = T_FLUSH -> (length A < length (responses (proj i ts)))%nat ->
  (forall r, In r B -> ~ write_word (pp i) r (word_num a) /\ ~ amo_word r (word_num a)) ->
  a < 2 ^ p_abw (pp i) -> owner (word_num a) = Some i ->
  trunc 8 (m a) = trunc 8 (flat_mem (pp i) m0 A a).
Proof.
  intros ts m rq rs i A f B a H C I EA TF LR NB HA OW.
  destruct (multi_good _ _ _ _ i H C I) as (A0 & c & g & pd & P & cur & E0 & G & CUR).
  assert (MI : mineb i (word_num a) = true) by (apply mineb_true; auto).
  pose proof (gd_len _ _ _ _ _ _ _ _ _ G) as GL. rewrite app_length in GL.
  (* the completed requests include f *)
  assert (SP : exists B0, A0 = A ++ f :: B0 /\ B = B0 ++ opt_list cur).
  { rewrite E0 in EA. destruct cur as [r|]; cbn [opt_list] in *.
    - destruct B as [|b B] using rev_ind.
      + exfalso. apply app_inj_tail in EA. destruct EA as [-> _]. lia.
      + clear IHB. change (f :: B ++ [b]) with ((f :: B) ++ [b]) in EA. rewrite app_assoc in EA. apply app_inj_tail in EA.
        destruct EA as [-> ->]. exists B. auto.
    - rewrite app_nil_r in EA. exists B. rewrite app_nil_r. auto. }
  destruct SP as (B0 & -> & ->).
  assert (NP : P (word_num a) = false).
  { destruct (P (word_num a)) eqn:PW; auto. exfalso. apply (gd_dirt _ _ _ _ _ _ _ _ _ G) in PW; [|pose proof (word_mul4 a); lia].
    destruct PW as (A1 & r & A2 & ES & WW & NF).
    assert (X : forall (l1 l2 l3 l4 : list creq) x y, l1 ++ x :: l2 = l3 ++ y :: l4 ->
        (exists z, l1 = l3 ++ y :: z) \/ (l1 = l3 /\ x = y) \/ (exists z, l2 = z ++ y :: l4)).
    { induction l1 as [|u l1 IH]; intros l2 l3 l4 x y E; destruct l3 as [|v l3]; cbn [app] in E; inversion E; subst.
      - right. left. auto.
      - right. right. eauto.
      - left. exists l1. auto.
      - match goal with Z : l1 ++ _ = _ |- _ => destruct (IH _ _ _ _ _ Z) as [(z & ->) | [(-> & ->) | (z & ->)]] end.
        + left. exists z. auto.
        + right. left. auto.
        + right. right. eauto. }
    destruct (X _ _ _ _ _ _ ES) as [(z & ->) | [(-> & ->) | (z & ->)]].
    - rewrite <- app_assoc in ES. cbn [app] in ES. apply app_inv_head in ES. injection ES as ES.
      rewrite Forall_forall in NF. apply (NF f); auto. rewrite <- ES. apply in_or_app. right. left. auto.
    - destruct WW as [T _]. rewrite T in TF. discriminate.
    - destruct (NB r) as [N1 _]; [|contradiction]. apply in_or_app. left. apply in_or_app. right. left. auto. }
  assert (GA : trunc 8 (g a) = trunc 8 (flat_mem (pp i) m0 A a)).
  { pose proof (gd_view _ _ _ _ _ _ _ _ _ G a HA MI) as V. rewrite view_clean in V.
    - rewrite V, flat_mem_app. cbn [flat_mem]. rewrite (flat_keep_list (pp i)).
      + unfold flat_exec. rewrite TF. cbn. auto.
      + destruct (C i I) as (_ & _ & CL & _). apply accepted_wf in CL. rewrite EA in CL. apply Forall_app in CL. destruct CL as [_ CL].
        inversion CL as [|? ? _ CB]; subst. apply Forall_app in CB. apply CB.
      + intros r R. apply NB. apply in_or_app. auto.
    - intros w Hw. destruct (dirty_at (pp i) c w a) eqn:D; auto. exfalso.
      assert (DS : dset (pp i) c a = true) by (apply dset_true; eauto).
      rewrite <- (gd_pend _ _ _ _ _ _ _ _ _ G) in DS by auto. congruence. }
  rewrite <- GA. destruct cur as [r|].
  - destruct CUR as (WR & ex & BN & AG). rewrite <- AG by auto. rewrite (benign_keep (pp i) P r); auto.
    apply NB. apply in_or_app. right. left. auto.
  - symmetry. apply CUR; auto.
Qed.

Lemma mmem_split : forall m rq rs T m2 rq2 rs2, mmem p n m rq rs T m2 rq2 rs2 -> forall ts ts', T = ts ++ ts' ->
  exists m1 rq1 rs1, mmem p n m rq rs ts m1 rq1 rs1 /\ mmem p n m1 rq1 rs1 ts' m2 rq2 rs2.
Proof.
  intros m rq rs T m2 rq2 rs2 H. induction H as [|T m' rq' rs' i q l H IH L E | T m' rq' rs' t H IH D]; intros ts ts' ET.
  - symmetry in ET. apply app_eq_nil in ET. destruct ET; subst. do 3 eexists. split; constructor.
  - destruct (IH ts ts' ET) as (m1 & rq1 & rs1 & H1 & H2). exists m1, rq1, rs1. split; auto. apply mm_exec; auto.
  - destruct ts' as [|t' ts'] using rev_ind.
    + rewrite app_nil_r in ET. subst ts. do 3 eexists. split; [|constructor]. apply mm_cycle; auto.
    + clear IHts'. rewrite app_assoc in ET. apply app_inj_tail in ET. destruct ET as [ET ->].
      destruct (IH ts ts' ET) as (m1 & rq1 & rs1 & H1 & H2). exists m1, rq1, rs1. split; auto. apply mm_cycle; auto.
Qed.

(** memory never touched by a WRITE or AMO keeps its contents *)
Theorem multi_untouched : forall ts m rq rs a, mmem p n m0 no_reqs no_resps ts m rq rs -> caches ts -> a < 2 ^ p_abw p ->
  (forall i r, (i < n)%nat -> In r (accepted (proj i ts)) -> ~ write_word p r (word_num a) /\ ~ amo_word r (word_num a)) ->
  m a = m0 a.
Proof.
  intros ts m rq rs a H. induction H as [|ts m rq rs j q l H IH L E | ts m rq rs t H IH D]; intros C HA NT; auto.
  - rewrite <- IH; auto. destruct (multi_ast _ _ _ _ H C j L) as (cj & aj & CSj & ARj).
    pose proof (multi_inv _ _ _ _ H C j cj aj L CSj ARj) as JJ. rewrite E in JJ.
    apply (J2_touch (pp j) (W j L) m0 (mineb j) _ _ _ _ _ _ _ _ a JJ HA); [right|]; intros r R; apply (NT j r L R).
  - apply IH; eauto using caches_app. intros i r I R. apply (NT i); auto. rewrite proj_app, accepted_app. apply in_or_app. auto.
Qed.


(** write-backs carry this cache's own words, with their current values *)
Theorem multi_wb : forall ts t ts' m rq rs i q, mmem p n m0 no_reqs no_resps (ts ++ t :: ts') m rq rs -> caches (ts ++ t :: ts') -> (i < n)%nat ->
  o_mreq (snd (t i)) = Some q -> mq_type q = T_WRITE ->
  exists A r, accepted (proj i ts) = A ++ [r] /\
    (forall b, N.testbit (mq_mask q) b = true -> exists v, In v A /\ write_word (pp i) v (word_num (mq_addr q) + b)) /\
    (forall o, o < p_clw (pp i) / 8 -> N.testbit (mq_mask q) (o / 4) = true ->
       slice (mq_data q) (8 * o) (8 * o + 8) = trunc 8 (flat_mem (pp i) m0 A (mq_addr q + o))).
Proof.
  intros ts t ts' m rq rs i q H C I OQ TW.
  replace (ts ++ t :: ts') with ((ts ++ [t]) ++ ts') in * by (rewrite <- app_assoc; auto).
  destruct (mmem_split _ _ _ _ _ _ _ H _ _ eq_refl) as (m1 & rq1 & rs1 & H1 & _). apply caches_app in C. clear H.
  assert (X : exists m2 rq2 rs2, mmem p n m0 no_reqs no_resps ts m2 rq2 rs2 /\
     (i_mresp_en (fst (t i)) = true -> exists l, rs2 i = i_mresp (fst (t i)) :: l)).
  { remember (ts ++ [t]) as T eqn:ET. clear C. induction H1 as [|T m' rq' rs' j q' l H IH L E | T m' rq' rs' t' H IH D].
    - destruct ts; discriminate.
    - auto.
    - apply app_inj_tail in ET. destruct ET as [-> ->]. exists m', rq', rs'. auto. }
  destruct X as (m2 & rq2 & rs2 & H2 & D). clear H1.
  pose proof (caches_app _ _ C) as C'.
  destruct (multi_legal _ _ _ _ H2 C' i I) as [LG _]. destruct (C' i I) as (CR & CT & CC & _).
  (* the state machine through this cycle *)
  destruct (multi_legal ts m2 rq2 rs2 H2 C' i I) as (LG2 & ms & OU & F2).
  destruct (caches_last _ _ _ C I) as [TO CL].
  assert (LT : legal_run (pp i) (s0 i) [] (map fst (proj i (ts ++ [t])))).
  { rewrite proj_app, map_app. cbn [proj map]. apply legal_add; auto. constructor.
    - intros RE. destruct (CL RE) as (X1 & X2 & _). rewrite TO in X1. cbn [snd] in X1. split; auto. eapply wf_req_type; eauto.
    - intros ME. destruct (D ME) as (l & RS). rewrite RS in F2. inversion F2 as [|? q0 ? ms' F3 F4]; subst. rewrite OU.
      exists q0, (ms' ++ rq2 i). auto. }
  destruct (refinement (pp i) (W i I) (s0 i) _ CR LT) as (c0 & a & CS & AR & _).
  destruct (C i I) as (_ & CT2 & _). change (combine ?x (snd (run (pp i) ?y ?x))) with (trace_of (pp i) y x) in AR. rewrite <- CT2 in AR.
  rewrite proj_app in AR. cbn [proj map] in AR. rewrite (surjective_pairing (t i)) in AR. apply aruns_snoc in AR.
  destruct AR as (a1 & A1 & (b1 & b2 & b3 & B1 & B2 & _)).
  pose proof (multi_inv _ _ _ _ H2 C' i c0 a1 I CS A1) as JJ.
  set (rs3 := if i_mresp_en (fst (t i)) then List.tl (rs2 i) else rs2 i).
  assert (JB : J2 (pp i) m0 (mineb i) (moment i ts m2 rq2 rs2) b1 m2 (rq2 i) rs3 (accepted (proj i ts)) (responses (proj i ts))).
  { unfold o_recv, rs3 in *. destruct (i_mresp_en (fst (t i))).
    - destruct (D eq_refl) as (l & E). rewrite E in *. cbn [List.tl]. eapply J2_recv; eauto.
    - subst. auto. }
  unfold o_send in B2. rewrite OQ in B2. destruct (o_resp (snd (t i))); [contradiction|].
  inversion B2 as [c r e q' todo out l pd MM FO PD E1 E2 E3]. subst. inversion JB; subst. clear JB JJ B2 B1.
  match goal with Z : good _ _ _ _ _ _ _ _ _ |- _ => rename Z into G end.
  match goal with Z : tl_reqs (pp i) c r = _ |- _ => rename Z into TR end.
  exists A, r. split; auto.
  destruct (traf_step (pp i) (W i I) c g P (lru_run (pp i) lru_empty A) (view (pp i) c g) r 0 (gd_inv _ _ _ _ _ _ _ _ _ G)
    (gd_pend _ _ _ _ _ _ _ _ _ G) (gd_lru _ _ _ _ _ _ _ _ _ G)) as [TQ _]; auto.
  destruct MM as (M1 & M2 & M3 & M4 & M5 & _).
  assert (IN : In e (tl_reqs (pp i) c r)) by (rewrite TR; apply in_or_app; right; apply in_or_app; right; left; auto).
  match goal with Z : wf_req (pp i) r |- _ => destruct (traffic_wb _ _ _ _ _ _ e Z TQ IN) as (P' & SUB & WB); [rewrite M1; exact TW|] end.
  destruct WB as [W1 [W2 W2'] W3 W4 W5 W6]. rewrite M2 in W2, W2', W5, W6. rewrite M4 in W5, W6. rewrite M5 in W6.
  assert (BIT : forall b, N.testbit (mq_mask q) b = true -> b < dtyw (pp i) /\ dirtied (pp i) A (word_num (mq_addr q) + b)).
  { intros b B. rewrite W5 in B. apply andb_prop in B. destruct B as [B1 B2]. apply N.ltb_lt in B1. split; auto.
    apply (gd_dirt _ _ _ _ _ _ _ _ _ G); auto. 
    destruct (line4 (pp i) (W i I)) as (z & LB). rewrite LB in W2. destruct (mul4 _ _ W2) as (y & Y).
    assert (EY : word_num (mq_addr q) = y) by (unfold word_num; rewrite Y, N.mul_comm, N.div_mul by lia; auto).
    rewrite EY. destruct (addr_add (pp i) (W i I) (mq_addr q) (4 * b) W2') as (Z & _).
    - rewrite a_off_mod, <- (line_bytes_pow (pp i) (W i I)), LB, W2, <- LB, (line_bytes_pow (pp i) (W i I)), (off_words (pp i) (W i I)). change (b < dtyw (pp i)) in B1. lia.
    - rewrite Y in Z. lia. }
  split.
  - intros b B. destruct (BIT b B) as [_ (A1' & v & A2 & -> & WW & _)]. exists v. split; auto. apply in_or_app. right. left. auto.
  - intros o O B. rewrite W6 by auto. destruct (BIT _ B) as [BL DI].
    assert (ZO : a_off (pp i) (mq_addr q) = 0) by (rewrite a_off_mod, <- (line_bytes_pow (pp i) (W i I)); auto).
    destruct (addr_add (pp i) (W i I) (mq_addr q) o W2') as (Z & _); [rewrite ZO, <- (clw_bytes (pp i) (W i I)); lia|].
    rewrite (gd_view _ _ _ _ _ _ _ _ _ G); auto.
    + apply trunc_small. apply trunc_lt.
    + apply (dirtied_mine (pp i) (mineb i) _ _ (gd_wf _ _ _ _ _ _ _ _ _ G)).
      replace (word_num (mq_addr q + o)) with (word_num (mq_addr q) + o / 4); auto.
      destruct (line4 (pp i) (W i I)) as (z & LB). rewrite LB in W2. destruct (mul4 _ _ W2) as (y & Y).
      unfold word_num. rewrite Y, (N.mul_comm 4 y), N.div_mul by lia. replace (y * 4 + o) with (o + y * 4) by lia.
      rewrite N.div_add by lia. lia.
Qed.
End Many.
