(** Any number of caches, one word, an owner that changes: the invariant of every run. *)
From Coq Require Import Arith NArith List Bool Lia.
From Verif Require Import Bits Params Msg Units Rtl Mem Spec System Tl ParamsProofs RefineInv RefineProofs
  UnitProofs ViewDefs ViewOps ViewProofs SysProofs SysFacts Traffic MetaProofs PendProofs TrafProofs
  Hide MultiSys MultiProofs MultiFacts DynSpec DynProofs.
Import ListNotations.
Open Scope N_scope.

Section F.
Variable p : params.
Hypothesis W : wf_params p.
Variable K : N.
Notation agK := (agree p (mk K true)).

(** *** One cache, one cycle *)
Lemma J3_pre : forall b w V a m rq rs A E Vs nd i o a1 a2, J3 p K b w V a m rq rs A E Vs nd ->
  o_recv a i a1 -> o_send p a1 o a2 ->
  (i_mresp_en i = true -> exists l, rs = i_mresp i :: l) ->
  J3 p K b w V a2 m (rq ++ opt_list (o_mreq o)) (if i_mresp_en i then List.tl rs else rs) A (E ++ opt_list (o_resp o)) Vs nd.
Proof.
  intros b w V a m rq rs A E Vs nd i o a1 a2 H C1 C2 R1.
  set (rs1 := if i_mresp_en i then List.tl rs else rs).
  assert (H1 : J3 p K b w V a1 m rq rs1 A E Vs nd).
  { unfold o_recv, rs1 in *. destruct (i_mresp_en i).
    - destruct (R1 eq_refl) as (l & ->). cbn [List.tl]. eapply J3_recv; eauto.
    - subst; auto. }
  unfold o_send in C2. destruct (o_mreq o), (o_resp o); cbn [opt_list]; rewrite ?app_nil_r; try contradiction.
  - eapply J3_send; eauto.
  - eapply J3_emit; eauto.
  - subst; auto.
Qed.

Definition vnext (V : mem) (i : inp) : mem := if i_req_en i then fst (flat_exec p V (i_req i)) else V.

Lemma mod_touch : forall r, modifies p r K -> touches p r K.
Proof. intros r [(T & L) | A]; [left | right]; auto. Qed.

Lemma J3_cycle : forall b w V a m rq rs A E Vs nd i o a', J3 p K b w V a m rq rs A E Vs nd -> acyc p a i o a' ->
  (i_mresp_en i = true -> exists l, rs = i_mresp i :: l) ->
  (i_req_en i = true -> wf_req p (i_req i) /\ ~ touches p (i_req i) K) ->
  exists nd', J3 p K b w (vnext V i) a' m (rq ++ opt_list (o_mreq o)) (if i_mresp_en i then List.tl rs else rs)
    (A ++ (if i_req_en i then [i_req i] else [])) (E ++ opt_list (o_resp o)) (Vs ++ (if i_req_en i then [V] else [])) nd'.
Proof.
  intros b w V a m rq rs A E Vs nd i o a' H (a1 & a2 & a3 & C1 & C2 & C3 & C4) R1 WR.
  pose proof (J3_pre _ _ _ _ _ _ _ _ _ _ _ _ _ _ _ H C1 C2 R1) as H2.
  set (rs1 := if i_mresp_en i then List.tl rs else rs) in *.
  assert (H3 : exists nd', J3 p K b w V a3 m (rq ++ opt_list (o_mreq o)) rs1 A (E ++ opt_list (o_resp o)) Vs nd').
  { destruct C3 as [C3 | ->]; eauto. eexists. eapply J3_done; eauto. }
  destruct H3 as (nd' & H3). exists nd'.
  unfold o_acc, vnext in *. destruct (i_req_en i).
  - destruct (WR eq_refl) as [WF NT]. eapply J3_acc; eauto; intros X; exfalso; apply NT; auto using mod_touch.
  - subst. rewrite !app_nil_r. auto.
Qed.

Lemma absent_dec : forall A, absent p K A \/ ~ absent p K A.
Proof.
  intros A. unfold absent. destruct (in_dec N.eq_dec (line_of p (4 * K)) (lru_run p lru_empty A (line_of p (4 * K) mod nblocks p))); auto.
Qed.

Lemma J3_promote : forall b ow V a m rq rs A E Vs nd, J3 p K b (b && ow) V a m rq rs A E Vs nd -> (b = false -> agK m V) ->
  exists b', J3 p K b' (b' && ow) V a m rq rs A E Vs nd /\ (b = true -> b' = true) /\ (nd = length A -> absent p K A -> b' = true).
Proof.
  intros b ow V a m rq rs A E Vs nd H AG. destruct b; [exists true; auto|]. cbn [andb] in H.
  destruct (absent_dec A) as [AB | NAB].
  - pose proof H as HN. apply J3_nd in HN; auto. destruct HN as [[_ L] _]. destruct (Nat.eq_dec nd (length A)) as [E1|E1].
    + exists true. split; auto.
      assert (X : J3 p K true false V a m rq rs A E Vs nd).
      { revert E1. clear L. inversion H; subst; intros E1.
        - eapply J3_get; eauto.
        - rewrite app_length in E1. cbn [length] in E1. lia. }
      destruct ow; cbn [andb]; auto. eapply J3_up; eauto.
    + exists false. repeat split; intros; auto; contradiction.
  - exists false. repeat split; intros; auto; contradiction.
Qed.

Lemma J3_cycle_may : forall b ow V a m rq rs A E Vs nd i o a' (Q : nat -> Prop), J3 p K b (b && ow) V a m rq rs A E Vs nd -> acyc p a i o a' ->
  (i_mresp_en i = true -> exists l, rs = i_mresp i :: l) ->
  (b = false -> agK m V) ->
  (forall L, Q L -> (L <= nd)%nat -> b = true) -> (forall L, Q L -> L = length A -> absent p K A) -> (forall L, Q L -> (L <= length A)%nat) ->
  (i_req_en i = true -> wf_req p (i_req i) /\ (touches p (i_req i) K -> exists L, Q L) /\ (modifies p (i_req i) K -> ow = true)) ->
  exists b' nd', J3 p K b' (b' && ow) (vnext V i) a' m (rq ++ opt_list (o_mreq o)) (if i_mresp_en i then List.tl rs else rs)
    (A ++ (if i_req_en i then [i_req i] else [])) (E ++ opt_list (o_resp o)) (Vs ++ (if i_req_en i then [V] else [])) nd' /\
    (b = true -> b' = true) /\ (forall L, Q L -> (L <= nd')%nat -> b' = true) /\
    (i_req_en i = true -> touches p (i_req i) K -> b' = true).
Proof.
  intros b ow V a m rq rs A E Vs nd i o a' Q H (a1 & a2 & a3 & C1 & C2 & C3 & C4) R1 AG Q1 Q2 Q3 WR.
  pose proof (J3_pre _ _ _ _ _ _ _ _ _ _ _ _ _ _ _ H C1 C2 R1) as H2.
  set (rs1 := if i_mresp_en i then List.tl rs else rs) in *.
  assert (H3 : exists b' nd', J3 p K b' (b' && ow) V a3 m (rq ++ opt_list (o_mreq o)) rs1 A (E ++ opt_list (o_resp o)) Vs nd' /\
     (b = true -> b' = true) /\ (forall L, Q L -> (L <= nd')%nat -> b' = true)).
  { destruct C3 as [C3 | ->].
    - destruct (J3_done p W K _ _ _ _ _ _ _ _ _ _ _ _ H2 C3) as [H3 E3].
      destruct (J3_promote _ _ _ _ _ _ _ _ _ _ _ H3 AG) as (b' & H4 & B1 & B2). exists b', (length A). split; auto. split; auto.
      intros L QL LL. destruct (Nat.eq_dec L (length A)) as [EL|EL]; [apply B2; eauto|].
      apply B1. apply (Q1 L QL). lia.
    - exists b, nd. split; auto. }
  destruct H3 as (b' & nd' & H3 & B1 & B2). exists b', nd'.
  unfold o_acc, vnext in *. destruct (i_req_en i).
  - destruct (WR eq_refl) as (WF & TQ & MO).
    assert (TB : touches p (i_req i) K -> b' = true).
    { intros T. destruct (TQ T) as (L & QL). apply (B2 L QL). inversion C4; subst. apply J3_idle_nd in H3. rewrite H3. auto. }
    split; [|split; [auto | split; auto]]. eapply J3_acc; eauto. intros M. rewrite TB, MO by auto using mod_touch. auto.
  - subst. rewrite !app_nil_r. split; auto. split; auto. split; auto. intros X. discriminate X.
Qed.
Lemma flat_locals : forall l m m', Forall (wf_req p) l -> agK m m' -> agK (flat_mem p m l) (flat_mem p m' l).
Proof.
  induction l as [|r l IH]; intros m m' F AG; auto. inversion F; subst. cbn [flat_mem]. apply IH; auto. apply flat_local; auto.
Qed.
End F.

Section G.
Variable p : params.
Variable sz : nat -> N * N.
Variable n : nat.
Hypothesis W : wf_caches p sz n.
Notation pp := (sized p sz).
Variable K : N.
Hypothesis HK : K * 4 < 2 ^ p_abw p.
Variable s0 : nat -> st.
Variable m0 : mem.
Variables may own : nat -> nat -> bool.
Notation agK := (agree p (mk K true)).

Lemma clients_app : forall ts ts', clients p sz n s0 (ts ++ ts') -> clients p sz n s0 ts.
Proof.
  intros ts ts' C i I. destruct (C i I) as (C1 & C2 & C3). rewrite !proj_app in *. rewrite map_app, trace_app in C2.
  apply Forall_app in C3. split; auto. split; [|apply C3].
  assert (L : length (proj i ts) = length (trace_of (pp i) (s0 i) (map fst (proj i ts)))) by (rewrite trace_length, map_length; auto).
  apply (f_equal (firstn (length (proj i ts)))) in C2.
  rewrite firstn_app, Nat.sub_diag, firstn_all in C2. cbn [firstn] in C2. rewrite app_nil_r in C2.
  rewrite L, firstn_app, Nat.sub_diag, firstn_all in C2. cbn [firstn] in C2. rewrite app_nil_r in C2. auto.
Qed.
Lemma clients_last : forall ts t i, clients p sz n s0 (ts ++ [t]) -> (i < n)%nat ->
  t i = (fst (t i), output (pp i) (fst (run (pp i) (s0 i) (map fst (proj i ts)))) (fst (t i))) /\
  (i_req_en (fst (t i)) = true -> o_req_rdy (snd (t i)) = true /\ wf_req p (i_req (fst (t i)))).
Proof.
  intros ts t i C I. destruct (C i I) as (C1 & C2 & C3). rewrite proj_app in *. cbn [proj map] in *.
  rewrite map_app in C2. cbn [map] in C2. rewrite trace_snoc in C2. apply app_inj_tail in C2. destruct C2 as [_ C2].
  split; auto. intros E. apply Forall_app in C3. destruct C3 as [_ C3]. inversion C3 as [|? ? X _]; subst. auto.
Qed.
Lemma clients_legal : forall ts m rq rs, mmem p n m0 no_reqs no_resps ts m rq rs -> clients p sz n s0 ts ->
  forall i, (i < n)%nat -> legal_run (pp i) (s0 i) [] (map fst (proj i ts)) /\
    exists ms, outs (pp i) (s0 i) [] (map fst (proj i ts)) = ms ++ rq i /\ Forall2 (fun x q => mr_type x = mq_type q) (rs i) ms.
Proof.
  intros ts m rq rs H. induction H as [|ts m rq rs j q l H IH L E | ts m rq rs t H IH D]; intros C i I.
  - split; [exact Logic.I|]. exists []. split; [auto | constructor].
  - destruct (IH C i I) as (LG & ms & OU & F). split; auto. unfold setq. destruct (Nat.eqb_spec i j) as [->|NE].
    + exists (ms ++ [q]). rewrite OU, E, <- app_assoc. split; auto. apply Forall2_app; auto. constructor; auto. apply mem_exec_type.
    + exists ms. auto.
  - destruct (IH (clients_app _ _ C) i I) as (LG & ms & OU & F).
    destruct (clients_last _ _ _ C I) as [TO CL]. rewrite proj_app, map_app. cbn [proj map].
    destruct (t i) as [x o] eqn:TI. cbn [fst snd] in *. inversion TO as [EO]. rewrite <- EO.
    split.
    + apply legal_add; auto. constructor.
      * intros RE. destruct (CL RE) as (X1 & X2). rewrite EO in X1. split; auto. eapply wf_req_type; eauto.
      * intros ME. specialize (D i I). rewrite TI in D. destruct (D ME) as (l & RS). cbn [fst] in RS. rewrite RS in F.
        inversion F as [|? q ? ms' F1 F2]; subst. rewrite OU. exists q, (ms' ++ rq i). auto.
    + rewrite outs_snoc. unfold outst_next. rewrite OU. rewrite <- EO, ol_opt. specialize (D i I). rewrite TI in D. cbn [fst] in D.
      destruct (i_mresp_en x) eqn:ME.
      * destruct (D eq_refl) as (l & RS). rewrite RS in F. inversion F as [|? q ? ms' F1 F2]; subst. rewrite RS. cbn [List.tl app].
        exists ms'. rewrite app_assoc. auto.
      * exists ms. rewrite app_assoc. auto.
Qed.
Lemma clients_ast : forall ts m rq rs, mmem p n m0 no_reqs no_resps ts m rq rs -> clients p sz n s0 ts ->
  forall i, (i < n)%nat -> exists c0 a, clean_start (pp i) c0 /\ aruns (pp i) (mkA c0 None []) (proj i ts) a.
Proof.
  intros ts m rq rs H C i I. destruct (clients_legal _ _ _ _ H C i I) as [LG _]. destruct (C i I) as (C1 & C2 & _).
  destruct (refinement (pp i) (W i I) (s0 i) _ C1 LG) as (c0 & a & A1 & A2 & _). exists c0, a. split; auto.
  rewrite C2. auto.
Qed.

(** *** The memory after all accepted requests *)
Definition V (ts : list cyc) : mem := flat_mem p m0 (hist n ts).
Fixpoint seen_from (pre : list cyc) (i : nat) (ts : list cyc) : list mem :=
  match ts with
  | [] => []
  | t :: ts => (if i_req_en (fst (t i)) then [V pre] else []) ++ seen_from (pre ++ [t]) i ts
  end.
Definition seen := seen_from [].
Lemma seen_from_app : forall i ts ts' pre, seen_from pre i (ts ++ ts') = seen_from pre i ts ++ seen_from (pre ++ ts) i ts'.
Proof.
  induction ts as [|t ts IH]; intros ts' pre; cbn [app seen_from].
  - rewrite app_nil_r. auto.
  - rewrite IH, <- !app_assoc. auto.
Qed.
Lemma seen_snoc : forall i ts t, seen i (ts ++ [t]) = seen i ts ++ (if i_req_en (fst (t i)) then [V ts] else []).
Proof. intros. unfold seen. rewrite seen_from_app. cbn [seen_from app]. rewrite app_nil_r. auto. Qed.
Lemma seen_from_len : forall i ts pre, length (seen_from pre i ts) = length (accepted (proj i ts)).
Proof.
  induction ts as [|t ts IH]; intros pre; auto. cbn [seen_from proj map]. unfold accepted. cbn [flat_map].
  rewrite !app_length, IH. fold (proj i ts). unfold accepted. destruct (i_req_en (fst (t i))); auto.
Qed.
Lemma hist_app : forall ts ts', hist n (ts ++ ts') = hist n ts ++ hist n ts'.
Proof. intros. apply flat_map_app. Qed.
Lemma V_snoc : forall ts t, V (ts ++ [t]) = flat_mem p (V ts) (cyc_reqs n t).
Proof. intros. unfold V. rewrite hist_app, flat_mem_app. cbn [hist flat_map]. rewrite app_nil_r. auto. Qed.

Lemma acc1 : forall x : inp * outp, accepted [x] = if i_req_en (fst x) then [i_req (fst x)] else [].
Proof. intros. unfold accepted. cbn [flat_map]. rewrite app_nil_r. auto. Qed.
Lemma resp1 : forall x : inp * outp, responses [x] = opt_list (o_resp (snd x)).
Proof. intros. unfold responses. cbn [flat_map]. rewrite app_nil_r. auto. Qed.

Definition keeps (r : creq) : Prop := wf_req p r /\ ~ modifies p r K.
Lemma flat_keeps : forall l m, Forall keeps l -> agK (flat_mem p m l) m.
Proof.
  intros l m F a A M. apply mk_true in M. destruct M as [_ M]. rewrite (flat_keep_list p); auto.
  - eapply Forall_impl; [|exact F]. intros r [H _]. auto.
  - intros r R. rewrite Forall_forall in F. destruct (F r R) as [_ NT]. rewrite M. split; intros X; apply NT.
    + left. auto.
    + right. auto.
Qed.

(** only cache [i] may modify the word in this cycle *)
Lemma cyc_keep : forall t m i, (i < n)%nat ->
  (forall j, (j < n)%nat -> i_req_en (fst (t j)) = true -> wf_req p (i_req (fst (t j))) /\ (j <> i -> ~ modifies p (i_req (fst (t j))) K)) ->
  agK (flat_mem p m (cyc_reqs n t)) (vnext p m (fst (t i))).
Proof.
  intros t m i I H. unfold cyc_reqs.
  replace (seq 0 n) with (seq 0 i ++ i :: seq (S i) (n - S i)).
  2:{ replace n with (i + (1 + (n - S i)))%nat at 2 by lia. rewrite !seq_app. cbn. rewrite Nat.add_1_r. auto. }
  rewrite flat_map_app. cbn [flat_map]. rewrite !flat_mem_app.
  assert (KS : forall l, (forall j, In j l -> (j < n)%nat /\ j <> i) -> Forall keeps (flat_map (fun j => accepted [t j]) l)).
  { intros l HL. apply Forall_forall. intros r R. apply in_flat_map in R. destruct R as (j & J & R). destruct (HL j J) as [J1 J2].
    rewrite acc1 in R. destruct (i_req_en (fst (t j))) eqn:E; [|destruct R]. destruct R as [<- | []]. destruct (H j J1 E). split; auto. }
  eapply agree_trans; [apply flat_keeps; apply KS; intros j J; apply in_seq in J; lia|].
  rewrite acc1. unfold vnext. destruct (i_req_en (fst (t i))) eqn:E.
  - cbn [flat_mem]. destruct (H i I E) as [WF _]. apply (flat_local (pp i) (W i I) (mk K true)); auto. apply flat_keeps. apply KS. intros j J. apply in_seq in J. lia.
  - cbn [flat_mem]. apply flat_keeps. apply KS. intros j J. apply in_seq in J. lia.
Qed.
Lemma cyc_keep_all : forall t m,
  (forall j, (j < n)%nat -> i_req_en (fst (t j)) = true -> wf_req p (i_req (fst (t j))) /\ ~ modifies p (i_req (fst (t j))) K) ->
  agK (flat_mem p m (cyc_reqs n t)) m.
Proof.
  intros t m H. apply flat_keeps. unfold cyc_reqs. apply Forall_forall. intros r R. apply in_flat_map in R. destruct R as (j & J & R).
  apply in_seq in J. rewrite acc1 in R. destruct (i_req_en (fst (t j))) eqn:E; [|destruct R]. destruct R as [<- | []].
  destruct (H j ltac:(lia) E). split; auto.
Qed.

(** *** The invariant *)
Definition since (hz e i : nat) : Prop := (e < hz)%nat /\ forall t', (e <= t' < hz)%nat -> may t' i = true.
Definition acc_at (i e : nat) (ts : list cyc) : list creq := accepted (proj i (firstn e ts)).

(** [T]: the cycle whose permissions hold; [hz]: number of cycles whose
    permissions are known to be in force *)
Definition Inv (T hz : nat) (ts : list cyc) (m : mem) (rq : nat -> list mreq) (rs : nat -> list mresp) (ts' : list cyc) : Prop :=
  exists b : nat -> bool,
  (forall i, (i < n)%nat -> b i = true -> may T i = true) /\
  (forall i, (i < n)%nat -> exists a af nd, aruns (pp i) a (proj i ts') af /\
     J3 (pp i) K (b i) (b i && own T i) (V ts) a m (rq i) (rs i) (accepted (proj i ts)) (responses (proj i ts)) (seen i ts) nd /\
     (may T i = true -> forall e, since hz e i -> absent (pp i) K (acc_at i e ts) -> (length (acc_at i e ts) <= nd)%nat -> b i = true)) /\
  ((forall i, (i < n)%nat -> b i && own T i = false) -> agK m (V ts)).

Lemma fin_choice : forall (R : nat -> bool -> Prop) k, (forall i, (i < k)%nat -> exists x, R i x) ->
  exists f, forall i, (i < k)%nat -> R i (f i).
Proof.
  intros R. induction k as [|k IH]; intros H; [exists (fun _ => false); intros; lia|].
  destruct IH as (f & F); [intros; apply H; lia|]. destruct (H k) as (x & X); [lia|].
  exists (fun i => if Nat.eqb i k then x else f i). intros i I. destruct (Nat.eqb_spec i k) as [->|NE]; auto. apply F. lia.
Qed.
(** at most one cache may modify the word *)
Lemma no_writer : forall ts b T i, synced p sz n K may own ts -> (T <= length ts)%nat -> (i < n)%nat -> may T i = true -> b i = false ->
  forall j, (j < n)%nat -> b j && own T j = false.
Proof.
  intros ts b T i SY LT I MI BI j J. destruct (b j && own T j) eqn:E; auto. apply andb_prop in E. destruct E as [E1 E2].
  pose proof (sy_excl _ _ _ _ _ _ _ SY T j i LT J I E2 MI). congruence.
Qed.

Lemma firstn_le_app : forall A (l l' : list A) e, (e <= length l)%nat -> firstn e (l ++ l') = firstn e l.
Proof. intros A l l' e L. rewrite firstn_app. replace (e - length l)%nat with 0%nat by lia. cbn. apply app_nil_r. Qed.
Lemma acc_at_len : forall i e ts, (length (acc_at i e ts) <= length (accepted (proj i ts)))%nat.
Proof.
  intros. unfold acc_at. rewrite <- (firstn_skipn e ts) at 2. rewrite proj_app, accepted_app, app_length. lia.
Qed.
Lemma acc_at_all : forall i e ts, length (acc_at i e ts) = length (accepted (proj i ts)) -> acc_at i e ts = accepted (proj i ts).
Proof.
  intros i e ts H. unfold acc_at in *. rewrite <- (firstn_skipn e ts) in H at 2. rewrite <- (firstn_skipn e ts) at 2.
  rewrite proj_app, accepted_app in *. rewrite app_length in H.
  destruct (accepted (proj i (skipn e ts))); [rewrite app_nil_r; auto | cbn in H; lia].
Qed.

Lemma inv_cycle : forall ts t ts' m rq rs, synced p sz n K may own (ts ++ t :: ts') -> clients p sz n s0 (ts ++ [t]) ->
  (forall i, (i < n)%nat -> i_mresp_en (fst (t i)) = true -> exists l, rs i = i_mresp (fst (t i)) :: l) ->
  Inv (length ts) (S (length ts)) ts m rq rs (t :: ts') ->
  Inv (length ts) (S (length ts)) (ts ++ [t]) m (fun i => rq i ++ opt_list (o_mreq (snd (t i))))
      (fun i => if i_mresp_en (fst (t i)) then List.tl (rs i) else rs i) ts'.
Proof.
  intros ts t ts' m rq rs SY C D (b & B1 & B2 & B3).
  set (T := length ts) in *.
  assert (AT : forall i, nth_error (proj i (ts ++ t :: ts')) T = Some (t i)).
  { intros i. rewrite proj_app. cbn [proj map]. rewrite nth_error_app2; unfold T, proj; rewrite map_length; auto. rewrite Nat.sub_diag. auto. }
  assert (TCH : forall i, (i < n)%nat -> i_req_en (fst (t i)) = true -> touches p (i_req (fst (t i))) K ->
     exists e, since (S T) e i /\ absent (pp i) K (acc_at i e ts)).
  { intros i I RE TT. destruct (sy_touch _ _ _ _ _ _ _ SY i T (t i) I) as (e & E1 & E2 & E3); auto.
    exists e. split; [split; [lia | intros; apply E2; lia]|]. unfold acc_at. rewrite firstn_le_app in E3 by auto. auto. }
  assert (MAY : forall i, (i < n)%nat -> i_req_en (fst (t i)) = true -> touches p (i_req (fst (t i))) K -> may T i = true).
  { intros i I RE TT. destruct (TCH i I RE TT) as (e & [E1 E2] & _). apply E2. lia. }
  assert (OWN : forall i, (i < n)%nat -> i_req_en (fst (t i)) = true -> modifies p (i_req (fst (t i))) K -> own T i = true).
  { intros i I RE TT. eapply (sy_modify _ _ _ _ _ _ _ SY); eauto. }
  assert (WF : forall i, (i < n)%nat -> i_req_en (fst (t i)) = true -> wf_req p (i_req (fst (t i)))).
  { intros i I RE. apply (clients_last _ _ _ C I). auto. }
  assert (EA : forall i e, since (S T) e i -> acc_at i e (ts ++ [t]) = acc_at i e ts).
  { intros i e [E _]. unfold acc_at. rewrite firstn_le_app; auto. unfold T in E. lia. }
  (* one cache *)
  assert (STEP : forall i, (i < n)%nat -> exists b', (b' = true -> may T i = true) /\ (b i = true -> b' = true) /\
     (i_req_en (fst (t i)) = true -> touches p (i_req (fst (t i))) K -> b' = true) /\
     exists a af nd, aruns (pp i) a (proj i ts') af /\
     J3 (pp i) K b' (b' && own T i) (V (ts ++ [t])) a m (rq i ++ opt_list (o_mreq (snd (t i)))) (if i_mresp_en (fst (t i)) then List.tl (rs i) else rs i)
       (accepted (proj i (ts ++ [t]))) (responses (proj i (ts ++ [t]))) (seen i (ts ++ [t])) nd /\
     (may T i = true -> forall e, since (S T) e i -> absent (pp i) K (acc_at i e (ts ++ [t])) -> (length (acc_at i e (ts ++ [t])) <= nd)%nat -> b' = true)).
  { intros i I. destruct (B2 i I) as (a & af & nd & AR & JJ & RD). cbn [proj map] in AR. rewrite (surjective_pairing (t i)) in AR.
    inversion AR as [|? ? ? a1 ? ? AC AR']; subst.
    destruct (may T i) eqn:MI.
    - assert (AG : b i = false -> agK m (V ts)).
      { intros BF. apply B3. eapply no_writer; eauto. rewrite app_length; unfold T; lia. }
      set (Q := fun L => exists e, since (S T) e i /\ absent (pp i) K (acc_at i e ts) /\ L = length (acc_at i e ts)).
      destruct (J3_cycle_may (pp i) (W i I) K (b i) (own T i) _ _ _ _ _ _ _ _ _ _ _ _ Q JJ AC (D i I) AG) as (b' & nd' & JN & N1 & N2 & N3).
      { intros L (e & S1 & S2 & ->) LE. eauto. }
      { intros L (e & S1 & S2 & ->) LE. rewrite <- (acc_at_all _ _ _ LE). auto. }
      { intros L (e & S1 & S2 & ->). apply acc_at_len. }
      { intros RE. split; [exact (WF i I RE)|]. split; [|exact (OWN i I RE)]. intros TT. destruct (TCH i I RE TT) as (e & E1 & E2). exists (length (acc_at i e ts)), e. auto. }
      exists b'. split; auto. split; auto. split; auto. exists a1, af, nd'. split; auto. split.
      + rewrite proj_app, accepted_app, responses_app, seen_snoc. cbn [proj map]. rewrite acc1, resp1.
        eapply J3_V; [exact JN|]. apply agr_true. apply agree_sym. rewrite V_snoc. apply cyc_keep; auto.
        intros j J RE. split; auto. intros NE MM. apply NE. apply (sy_excl _ _ _ _ _ _ _ SY T j i); auto; rewrite app_length; unfold T; lia.
      + intros _ e SN AB LE. rewrite EA in AB, LE by auto. eapply N2; eauto. exists e. auto.
    - assert (BF : b i = false) by (destruct (b i) eqn:E; auto; rewrite B1 in MI; auto).
      rewrite BF in JJ.
      destruct (J3_cycle (pp i) (W i I) K _ _ _ _ _ _ _ _ _ _ _ _ _ _ JJ AC (D i I)) as (nd' & JN).
      { intros RE. split; [exact (WF i I RE)|]. intros TT. rewrite MAY in MI; auto. discriminate MI. }
      exists false. split; auto. split; [rewrite BF; auto|]. split; [intros RE TT; rewrite MAY in MI; auto|].
      exists a1, af, nd'. split; auto. split; [|intros X; discriminate X].
      rewrite proj_app, accepted_app, responses_app, seen_snoc. cbn [proj map]. rewrite acc1, resp1.
      eapply J3_V; [exact JN | apply agr_false]. }
  apply fin_choice in STEP. destruct STEP as (b' & ST).
  exists b'. split; [|split].
  - intros i I. apply (ST i I).
  - intros i I. apply (ST i I).
  - intros NW.
    assert (MN : forall j, (j < n)%nat -> i_req_en (fst (t j)) = true -> ~ modifies p (i_req (fst (t j))) K).
    { intros j J RE MM. destruct (ST j J) as (_ & _ & X & _). specialize (NW j J). rewrite X, OWN in NW by auto using mod_touch. discriminate NW. }
    eapply agree_trans.
    + apply B3. intros i I. destruct (ST i I) as (_ & X & _). specialize (NW i I). destruct (b i); auto. rewrite X in NW by auto. auto.
    + apply agree_sym. rewrite V_snoc. apply cyc_keep_all. intros j J RE. auto.
Qed.

Lemma inv_ext : forall ts0 ts m rq rs ts', synced p sz n K may own ts0 -> (length ts <= length ts0)%nat ->
  Inv (length ts) (length ts) ts m rq rs ts' -> Inv (length ts) (S (length ts)) ts m rq rs ts'.
Proof.
  intros ts0 ts m rq rs ts' SY LT0 (b & B1 & B2 & B3). set (T := length ts) in *.
  assert (STEP : forall i, (i < n)%nat -> exists b', (b' = true -> may T i = true) /\ (b i = true -> b' = true) /\
     exists a af nd, aruns (pp i) a (proj i ts') af /\
     J3 (pp i) K b' (b' && own T i) (V ts) a m (rq i) (rs i) (accepted (proj i ts)) (responses (proj i ts)) (seen i ts) nd /\
     (may T i = true -> forall e, since (S T) e i -> absent (pp i) K (acc_at i e ts) -> (length (acc_at i e ts) <= nd)%nat -> b' = true)).
  { intros i I. destruct (B2 i I) as (a & af & nd & AR & JJ & RD). destruct (may T i) eqn:MI.
    - assert (AG : b i = false -> agK m (V ts)).
      { intros BF. apply B3. eapply no_writer; eauto. }
      destruct (J3_promote (pp i) (W i I) K _ _ _ _ _ _ _ _ _ _ _ JJ AG) as (b' & JN & N1 & N2).
      exists b'. split; auto. split; auto. exists a, af, nd. split; auto. split; auto. intros _ e [S1 S2] AB LE.
      destruct (Nat.eq_dec e T) as [->|NE].
      + unfold acc_at, T in AB, LE. rewrite firstn_all in AB, LE. apply N2; auto. apply J3_nd in JN; auto. lia.
      + apply N1. apply (RD eq_refl e); auto. split; [lia|]. intros t' HT. apply S2. lia.
    - exists (b i). split; [intros X; rewrite <- MI; apply (B1 i I X)|]. split; auto. exists a, af, nd. split; auto. split; auto. intros X. discriminate X. }
  apply fin_choice in STEP. destruct STEP as (b' & ST). exists b'. split; [|split].
  - intros i I. apply (ST i I).
  - intros i I. apply (ST i I).
  - intros NW. apply B3. intros i I. destruct (ST i I) as (_ & X & _). specialize (NW i I). destruct (b i); auto. rewrite X in NW by auto. auto.
Qed.

Lemma inv_next : forall T ts m rq rs ts', length ts = S T -> synced p sz n K may own (ts ++ ts') ->
  Inv T (S T) ts m rq rs ts' -> Inv (S T) (S T) ts m rq rs ts'.
Proof.
  intros T ts m rq rs ts' LT SY (b & B1 & B2 & B3).
  assert (PAST : forall i, proj i (firstn (S T) (ts ++ ts')) = proj i ts).
  { intros i. rewrite firstn_app, <- LT, Nat.sub_diag, firstn_all. cbn [firstn]. rewrite app_nil_r. auto. }
  assert (LE : (T < length (ts ++ ts'))%nat) by (rewrite app_length; lia).
  assert (STEP : forall i, (i < n)%nat ->
     (exists a af nd, aruns (pp i) a (proj i ts') af /\
       J3 (pp i) K (b i && may (S T) i) (b i && may (S T) i && own (S T) i) (V ts) a m (rq i) (rs i)
         (accepted (proj i ts)) (responses (proj i ts)) (seen i ts) nd /\
       (may (S T) i = true -> forall e, since (S T) e i -> absent (pp i) K (acc_at i e ts) -> (length (acc_at i e ts) <= nd)%nat -> b i && may (S T) i = true)) /\
     (b i && own T i = true -> own (S T) i = false -> agK m (V ts))).
  { intros i I. destruct (B2 i I) as (a & af & nd & AR & JJ & RD). pose proof JJ as JN. apply J3_nd in JN; auto. destruct JN as [[N1 N2] _].
    assert (DN : b i = true -> own T i = true -> own (S T) i = false ->
      J3 (pp i) K true false (V ts) a m (rq i) (rs i) (accepted (proj i ts)) (responses (proj i ts)) (seen i ts) nd).
    { intros BI O1 O2. rewrite BI in JJ. destruct (sy_disown _ _ _ _ _ _ _ SY i T I LE O1 O2) as [R1 R2]. rewrite PAST in R1, R2.
      apply (J3_down (pp i) K HK (true && own T i)); auto.
      - intros l r NE1 TT. specialize (R1 l r NE1 TT). lia.
      - intros (A1 & r & A2 & EQ & WW & NF).
        assert (NR : nth_error (accepted (proj i ts)) (length A1) = Some r).
        { rewrite <- (firstn_skipn nd (accepted (proj i ts))), EQ, <- app_assoc, nth_error_app2, Nat.sub_diag by lia. auto. }
        destruct (R2 _ _ NR WW) as (l' & f & L1 & L2 & NF' & TF).
        assert (FE : firstn l' (accepted (proj i ts)) = firstn l' (firstn nd (accepted (proj i ts)))).
        { rewrite firstn_firstn. f_equal. lia. }
        rewrite <- (firstn_skipn nd (accepted (proj i ts))), nth_error_app1 in NF'.
        2:{ rewrite firstn_length_le; lia. }
        rewrite FE, EQ in TF. rewrite EQ in NF'.
        rewrite nth_error_app2 in NF' by lia. destruct (l' - length A1)%nat as [|k] eqn:EL; [lia|]. cbn in NF'.
        apply nth_error_split in NF'. destruct NF' as (B & C & EA & LB).
        apply (NF B f C EA). rewrite EA in TF.
        assert (XX : firstn l' (A1 ++ r :: B ++ f :: C) = A1 ++ r :: B).
        { replace (A1 ++ r :: B ++ f :: C) with ((A1 ++ r :: B) ++ f :: C) by (rewrite <- app_assoc; auto).
          rewrite firstn_app. replace (l' - length (A1 ++ r :: B))%nat with 0%nat by (rewrite app_length; cbn [length]; lia).
          rewrite firstn_all2 by (rewrite app_length; cbn [length]; lia). cbn [firstn]. apply app_nil_r. }
        rewrite XX in TF. auto. }
    split.
    2:{ intros BO OF. apply andb_prop in BO. destruct BO as [BI OT]. eapply (J3_clean (pp i)); eauto. }
    exists a, af, nd. split; auto. split.
    - destruct (b i) eqn:BI; [|exact JJ]. cbn [andb] in JJ |- *.
      assert (J1 : J3 (pp i) K true (own (S T) i) (V ts) a m (rq i) (rs i) (accepted (proj i ts)) (responses (proj i ts)) (seen i ts) nd).
      { destruct (own (S T) i) eqn:OS; [eapply J3_up; eauto|]. destruct (own T i) eqn:OT; auto. }
      destruct (may (S T) i) eqn:MS; cbn [andb]; auto.
      assert (OS : own (S T) i = false).
      { destruct (own (S T) i) eqn:OS; auto. rewrite (sy_may _ _ _ _ _ _ _ SY (S T) i LE I OS) in MS. discriminate MS. }
      rewrite OS in J1. eapply J3_leave; eauto. intros l r NE1 TT.
      pose proof (sy_leave _ _ _ _ _ _ _ SY i T I LE (B1 i I BI) MS) as R. cbv zeta in R. rewrite PAST in R. specialize (R l r NE1 TT). lia.
    - intros MS e SN AB LL. rewrite MS, andb_true_r. destruct SN as [S1 S2]. apply (RD (S2 T ltac:(lia)) e); auto. split; auto. }
  exists (fun i => b i && may (S T) i). split; [|split].
  - intros i I X. apply andb_prop in X. apply X.
  - intros i I. apply (STEP i I).
  - intros NW.
    assert (DEC : (exists i, (i < n)%nat /\ b i && own T i = true) \/ (forall i, (i < n)%nat -> b i && own T i = false)).
    { clear. induction n as [|k IH]; [right; intros; lia|]. destruct IH as [(i & I & B) | IH]; [left; exists i; split; auto; lia|].
      destruct (b k && own T k) eqn:E; [left; exists k; split; auto; lia|]. right. intros i I. destruct (Nat.eq_dec i k) as [->|]; auto. apply IH. lia. }
    destruct DEC as [(i & I & BI) | NB]; auto. apply (STEP i I); auto.
    specialize (NW i I). cbv beta in NW. apply andb_prop in BI. destruct BI as [BI _]. rewrite BI in NW. cbn [andb] in NW.
    destruct (own (S T) i) eqn:OS; auto. rewrite (sy_may _ _ _ _ _ _ _ SY (S T) i LE I OS) in NW. auto.
Qed.

Theorem inv_all : forall ts m rq rs, mmem p n m0 no_reqs no_resps ts m rq rs ->
  forall ts', synced p sz n K may own (ts ++ ts') -> clients p sz n s0 (ts ++ ts') ->
  (forall i, (i < n)%nat -> exists c0 af, clean_start (pp i) c0 /\ aruns (pp i) (mkA c0 None []) (proj i (ts ++ ts')) af) ->
  Inv (length ts) (S (length ts)) ts m rq rs ts'.
Proof.
  intros ts m rq rs H. induction H as [|ts m rq rs j q l H IH L E | ts m rq rs t H IH D]; intros ts' SY C AS.
  - exists (may 0). split; [|split].
    + auto.
    + intros i I. destruct (AS i I) as (c0 & af & CS & AR). exists (mkA c0 None []), af, 0%nat. split; auto. split; auto.
      apply (J3_start (pp i) (W i I) K); auto.
    + intros _. apply agree_refl.
  - destruct (IH ts' SY C AS) as (b & B1 & B2 & B3). exists b. split; auto.
    destruct (B2 j L) as (aj & afj & ndj & ARj & JJ & RDj). rewrite E in JJ.
    assert (OTH : forall i, (i < n)%nat -> i <> j -> agree p (mk K (b i)) m (fst (mem_exec p m q))).
    { intros i I NE. destruct (b j && own (length ts) j) eqn:BJ.
      - destruct (b i) eqn:BI; [|apply agr_false]. apply andb_prop in BJ. destruct BJ as [_ OJ].
        exfalso. apply NE. symmetry. eapply (sy_excl _ _ _ _ _ _ _ SY (length ts)); eauto. rewrite app_length; lia.
      - apply agr_true. eapply (J3_touch (pp j)); eauto. }
    split.
    + intros i I. unfold setq. destruct (Nat.eqb_spec i j) as [->|NE].
      * exists aj, afj, ndj. split; auto. split; auto. apply (J3_exec (pp j)); auto.
      * destruct (B2 i I) as (a & af & nd & AR & JI & RD). exists a, af, nd. split; auto. split; auto. eapply J3_other; eauto.
    + intros AF. pose proof (AF j L) as BJ. rewrite BJ in JJ. eapply agree_trans; [apply agree_sym; eapply (J3_touch (pp j)); eauto | auto].
  - rewrite <- app_assoc in SY, C, AS. cbn [app] in SY, C, AS.
    assert (C1 : clients p sz n s0 (ts ++ [t])).
    { apply (clients_app _ ts'). rewrite <- app_assoc. auto. }
    pose proof (inv_cycle _ _ _ _ _ _ SY C1 D (IH (t :: ts') SY C AS)) as HI.
    assert (LN : length (ts ++ [t]) = S (length ts)) by (rewrite app_length; cbn; lia).
    eapply inv_ext; eauto; [rewrite !app_length; cbn [length]; lia|]. rewrite LN. apply inv_next; auto. rewrite <- app_assoc. auto.
Qed.

Lemma inv_run : forall ts m rq rs, mmem p n m0 no_reqs no_resps ts m rq rs -> clients p sz n s0 ts -> synced p sz n K may own ts ->
  Inv (length ts) (S (length ts)) ts m rq rs [].
Proof.
  intros ts m rq rs H C SY. apply inv_all; auto; rewrite ?app_nil_r; auto. intros i I.
  destruct (clients_ast _ _ _ _ H C i I) as (c0 & a & CS & AR). eauto.
Qed.

(** *** Results *)
Theorem dyn_resp : forall ts1 t ts2 m rq rs i y, mmem p n m0 no_reqs no_resps (ts1 ++ t :: ts2) m rq rs -> clients p sz n s0 (ts1 ++ t :: ts2) ->
  synced p sz n K may own (ts1 ++ t :: ts2) -> (i < n)%nat -> i_req_en (fst (t i)) = true ->
  nth_error (responses (proj i (ts1 ++ t :: ts2))) (length (accepted (proj i ts1))) = Some y ->
  resp2 (pp i) K (flat_mem p m0 (hist n ts1)) (i_req (fst (t i))) y.
Proof.
  intros ts1 t ts2 m rq rs i y H C SY I RE NY. destruct (inv_run _ _ _ _ H C SY) as (b & _ & B2 & _).
  destruct (B2 i I) as (a & af & nd & _ & JJ & _). eapply (J3_resp (pp i)); eauto.
  - rewrite proj_app, accepted_app. cbn [proj map]. change (t i :: map (fun t0 => t0 i) ts2) with ([t i] ++ proj i ts2).
    rewrite accepted_app, acc1, RE. rewrite nth_error_app2, Nat.sub_diag by lia. auto.
  - unfold seen. rewrite seen_from_app. cbn [seen_from app]. rewrite RE. rewrite <- (seen_from_len i ts1 []).
    rewrite nth_error_app2, Nat.sub_diag by lia. auto.
Qed.
Theorem dyn_mem : forall ts m rq rs a, mmem p n m0 no_reqs no_resps ts m rq rs -> clients p sz n s0 ts -> synced p sz n K may own ts ->
  (forall i, (i < n)%nat -> own (length ts) i = false) -> a < 2 ^ p_abw p -> word_num a = K -> trunc 8 (m a) = trunc 8 (flat_mem p m0 (hist n ts) a).
Proof.
  intros ts m rq rs a H C SY NO A WK. destruct (inv_run _ _ _ _ H C SY) as (b & B1 & _ & B3). apply B3; auto.
  - intros i I. rewrite NO by auto. apply andb_false_r.
  - unfold mk. rewrite WK, N.eqb_refl. auto.
Qed.
End G.
