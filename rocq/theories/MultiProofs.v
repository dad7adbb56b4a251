(** One cache among others: its own invariant under interference. *)
From Coq Require Import Arith NArith List Bool Lia.
From Verif Require Import Bits Params Msg Units Rtl Mem Spec System Tl ParamsProofs RefineInv RefineProofs
  UnitProofs ViewDefs ViewOps ViewProofs SysProofs SysFacts Traffic MetaProofs PendProofs TrafProofs MultiSys.
Import ListNotations.
Open Scope N_scope.

Section M.
Variable p : params.
Hypothesis W : wf_params p.
Variable m0 : mem.
(** words owned by this cache *)
Variable mine : N -> bool.

Definition okr (r : creq) : Prop := forall k, write_word p r k -> mine k = true.

Definition agree (m m' : mem) : Prop :=
  forall a, a < 2 ^ p_abw p -> mine (word_num a) = true -> trunc 8 (m a) = trunc 8 (m' a).
Lemma agree_refl : forall m, agree m m.
Proof. intros m a _ _. auto. Qed.
Lemma agree_sym : forall m m', agree m m' -> agree m' m.
Proof. intros m m' H a A M. symmetry. auto. Qed.
Lemma agree_trans : forall m m' m'', agree m m' -> agree m' m'' -> agree m m''.
Proof. intros m m' m'' H H' a A M. rewrite H; auto. Qed.

(** a word written and not flushed since *)
Definition dirtied (A : list creq) (k : N) : Prop :=
  exists A1 r A2, A = A1 ++ r :: A2 /\ write_word p r k /\ Forall (fun v => cq_type v <> T_FLUSH) A2.
(** moment [k] (number of accepted requests) lies after every INV of [A] *)
Definition after_inv (A : list creq) (k : nat) : Prop :=
  forall A1 v A2, A = A1 ++ v :: A2 -> cq_type v = T_INV -> (length A1 + 1 < k)%nat.

Section L.
(** memory contents that occurred while [k] requests had been accepted *)
Variable Log : nat -> mem -> Prop.

Definition fresh (A : list creq) (H : nat) (a v : N) : Prop :=
  exists k mu, Log k mu /\ after_inv A k /\ (k <= H)%nat /\ v = trunc 8 (mu a).

Record resp_ok (A : list creq) (r : creq) (y : cresp) : Prop := mkResp {
  ro_echo : echo_y y = echo r;
  ro_test : cr_test y = snd (lru_step p (lru_run p lru_empty A) r);
  ro_read : cq_type r = T_READ -> forall j, j < req_bytes p r ->
    (mine (word_num (cq_addr r + j)) = true -> gb (cr_data y) j = trunc 8 (flat_mem p m0 A (cq_addr r + j))) /\
    (mine (word_num (cq_addr r + j)) = false -> fresh A (length A + 1) (cq_addr r + j) (gb (cr_data y) j));
  ro_size : cq_type r = T_READ -> cr_data y < 2 ^ (8 * req_bytes p r);
  ro_amo : is_amo (cq_type r) = true ->
    (mine (word_num (cq_addr r)) = true -> cr_data y = rd_bytes (flat_mem p m0 A) (cq_addr r) 4) /\
    (exists mu, Log (length A + 1) mu /\ cr_data y = rd_bytes mu (cq_addr r) 4);
  ro_zero : cq_type r <> T_READ -> is_amo (cq_type r) = false -> cr_data y = 0
}.

Record good (A : list creq) (c : cst) (g : mem) (Y : list cresp) (P : N -> bool) : Prop := mkGood {
  gd_wf : Forall (fun r => wf_req p r /\ okr r) A;
  gd_inv : cinv p c g;
  gd_lru : lruinv p (lru_run p lru_empty A) c;
  gd_pend : pendeq p P c;
  gd_dirt : forall k, k * 4 < 2 ^ p_abw p -> P k = true -> dirtied A k;
  gd_view : forall a, a < 2 ^ p_abw p -> mine (word_num a) = true -> view p c g a = trunc 8 (flat_mem p m0 A a);
  gd_fresh : forall a, a < 2 ^ p_abw p -> mine (word_num a) = false ->
    In (line_of p a) (lru_run p lru_empty A (line_of p a mod nblocks p)) -> fresh A (length A) a (view p c g a);
  gd_len : length Y = length A;
  gd_resp : forall n r y, nth_error A n = Some r -> nth_error Y n = Some y -> resp_ok (firstn n A) r y
}.

(** real answers [xs] to [ex], executed on memories that agree with the ghost *)
Fixpoint answers (K : nat) (g : mem) (ex : list mreq) (xs : list mresp) : Prop :=
  match ex, xs with
  | [], [] => True
  | e :: ex, x :: xs => (exists mu, Log K mu /\ agree mu g /\ x = snd (mem_exec p mu e)) /\
                        answers K (fst (mem_exec p g e)) ex xs
  | _, _ => False
  end.

Lemma mem_run_cons : forall m e ex, mem_run p m (e :: ex) =
  (fst (mem_run p (fst (mem_exec p m e)) ex), snd (mem_exec p m e) :: snd (mem_run p (fst (mem_exec p m e)) ex)).
Proof. intros. cbn [mem_run]. destruct (mem_exec p m e) as [m1 x]. cbn [fst snd]. destruct (mem_run p m1 ex); auto. Qed.

Lemma answers_snoc : forall K ex g xs e mu, answers K g ex xs -> Log K mu -> agree mu (fst (mem_run p g ex)) ->
  answers K g (ex ++ [e]) (xs ++ [snd (mem_exec p mu e)]).
Proof.
  induction ex as [|e' ex IH]; intros g xs e mu H L AG; destruct xs as [|x xs]; try contradiction.
  - cbn. split; auto. exists mu. auto.
  - destruct H as [H1 H2]. cbn [app answers]. split; auto. apply IH; auto. rewrite mem_run_cons in AG. auto.
Qed.
Lemma answers_snoc_inv : forall K ex g xs e, answers K g (ex ++ [e]) xs ->
  exists xs' mu, xs = xs' ++ [snd (mem_exec p mu e)] /\ Log K mu /\ agree mu (fst (mem_run p g ex)) /\ answers K g ex xs'.
Proof.
  induction ex as [|e' ex IH]; intros g xs e H; destruct xs as [|x xs]; try contradiction.
  - destruct H as [(mu & H1 & H2 & H3) H4]. destruct xs; [|contradiction]. exists [], mu. subst x. cbn. auto.
  - destruct H as [H1 H2]. destruct (IH _ _ _ H2) as (xs' & mu & -> & G1 & G2 & G3).
    exists (x :: xs'), mu. rewrite mem_run_cons. cbn [app fst]. split; auto. split; auto. split; auto. split; auto.
Qed.

(** *** What executing one of the cache's memory requests can change *)
Definition benign (P : N -> bool) (r : creq) (q : mreq) : Prop := forall x, x < 2 ^ p_abw p ->
  (forall m, fst (mem_exec p m q) x = m x) \/
  (P (word_num x) = true /\ forall m m', fst (mem_exec p m q) x = fst (mem_exec p m' q) x) \/
  (amo_word r (word_num x) /\ forall m m',
     (forall y, y < 2 ^ p_abw p -> word_num y = word_num x -> trunc 8 (m y) = trunc 8 (m' y)) ->
     fst (mem_exec p m q) x = fst (mem_exec p m' q) x).

Lemma word_mul4 : forall x, word_num x * 4 <= x.
Proof. intros. unfold word_num. rewrite N.mul_comm. apply N.mul_div_le. lia. Qed.

Lemma line4 : exists k, line_bytes p = 4 * k.
Proof. exists (dtyw p). apply lb_words; auto. Qed.
Lemma mul4 : forall a b, b mod (4 * a) = 0 -> exists z, b = 4 * z.
Proof.
  intros a b H. destruct (N.eq_dec a 0) as [->|NZ].
  - cbn in H. destruct b; [exists 0; auto | discriminate].
  - exists (a * (b / (4 * a))). pose proof (N.div_mod' b (4 * a)) as DM. rewrite H, N.add_0_r in DM.
    rewrite N.mul_assoc. auto.
Qed.
Lemma exec_wb : forall P M q r, wb_ok p P M q -> benign P r q.
Proof.
  intros P M q r [T [AD AL] LN SM MK DA] x X.
  assert (EX : forall m, fst (mem_exec p m q) x = wr_masked m (mq_addr q) (mq_mask q) (mq_data q) (p_clw p / 32) x).
  { intros m. unfold mem_exec. rewrite T. auto. }
  destruct (((mq_addr q <=? x) && (x <? mq_addr q + 4 * (p_clw p / 32))) && N.testbit (mq_mask q) ((x - mq_addr q) / 4)) eqn:E.
  - right. left. split.
    + apply andb_prop in E. destruct E as [E B]. apply andb_prop in E. destruct E as [E1 E2].
      apply N.leb_le in E1. rewrite MK in B. apply andb_prop in B. destruct B as [_ B].
      rewrite <- B. f_equal. unfold word_num. destruct line4 as (k & LB). rewrite LB in AD.
      destruct (mul4 _ _ AD) as (z & Z). rewrite Z. rewrite (N.mul_comm 4 z), N.div_mul by lia.
      replace x with ((x - z * 4) + z * 4) at 1 by lia. rewrite N.div_add by lia. lia.
    + intros m m'. rewrite !EX, !wr_masked_spec, E. auto.
  - left. intros m. rewrite EX, wr_masked_spec, E. auto.
Qed.

Lemma benign_sub : forall (P P' : N -> bool) r q, (forall k, P k = true -> P' k = true) -> benign P r q -> benign P' r q.
Proof.
  intros P P' r q S B x X. destruct (B x X) as [H | [(H1 & H2) | H]]; auto.
Qed.
Lemma exec_wbs : forall M qs P r, wbs_ok p P M qs -> Forall (benign P r) qs.
Proof.
  induction qs as [|q qs IH]; intros P r H; constructor; destruct H as [H1 H2].
  - eapply exec_wb; eauto.
  - eapply Forall_impl; [|apply IH; eauto]. intros q' B. eapply benign_sub; [|exact B].
    intros k. unfold clear. intros E. apply andb_prop in E. apply E.
Qed.

Lemma exec_traffic : forall P L M r g, wf_req p r -> req_traffic p P L M r g -> Forall (benign P r) g.
Proof.
  intros P L M r g WF T. unfold req_traffic in T. destruct (rw_req r) eqn:RW.
  { destruct (in_dec _ _ _); [subst; constructor|].
    destruct T as (wb & q & -> & WB & _ & _ & QT & _). apply Forall_app. split; [eapply exec_wbs; eauto|].
    constructor; auto. intros x X. left. intros m. unfold mem_exec. rewrite QT. auto. }
  destruct (is_amo (cq_type r)) eqn:IA.
  { destruct T as (wb & q & -> & WB & _ & _ & _ & QT & _ & QA & _). apply Forall_app. split; [eapply exec_wbs; eauto|].
    constructor; auto. intros x X.
    destruct (not_rw p r WF RW) as [WA | [TI | TF]]; [|rewrite TI in IA; discriminate | rewrite TF in IA; discriminate].
    pose proof WA as (_ & AL & _). destruct (amo_type p r WA) as (_ & _ & _ & _ & NR & NW).
    assert (EX : forall m, fst (mem_exec p m q) x =
       wr_bytes m (cq_addr r) 4 (amo_fun (cq_type r) (rd_bytes m (cq_addr r) 4) (slice (mq_data q) 0 32)) x).
    { intros m. unfold mem_exec. rewrite QT, QA, NR, NW. auto. }
    pose proof (N.div_mod' (cq_addr r) 4) as DM. rewrite AL in DM.
    destruct ((cq_addr r <=? x) && (x <? cq_addr r + N.of_nat 4)) eqn:E.
    - right. right. apply andb_prop in E. destruct E as [E1 E2]. apply N.leb_le in E1. apply N.ltb_lt in E2.
      change (N.of_nat 4) with 4 in E2.
      assert (WX : word_num x = word_num (cq_addr r)).
      { unfold word_num. set (z := cq_addr r / 4) in *. clearbody z. symmetry. apply N.div_unique with (x - cq_addr r); lia. }
      split; [split; auto|]. intros m m' H. rewrite !EX. replace (rd_bytes m' (cq_addr r) 4) with (rd_bytes m (cq_addr r) 4).
      + unfold wr_bytes. change (N.of_nat 4) with 4. rewrite (proj2 (N.leb_le _ _) E1), (proj2 (N.ltb_lt _ _) E2). auto.
      + apply rd_ext. intros k K. change (N.of_nat 4) with 4 in K. apply H.
        * destruct (off_aligned p (cq_addr r) 2) as [_ OF]; [pose proof (offw_ge3 p W); lia | auto |].
          apply (addr_add p W); [apply WF|]. change (2 ^ 2) with 4 in OF. lia.
        * rewrite WX. unfold word_num. set (z := cq_addr r / 4) in *. clearbody z. symmetry. apply N.div_unique with k; lia.
    - left. intros m. rewrite EX. unfold wr_bytes. rewrite E. auto. }
  destruct (cq_type r =? T_FLUSH).
  - destruct T as [T _]. eapply exec_wbs; eauto.
  - subst. constructor.
Qed.

Lemma benign_agree : forall P r q m m', benign P r q -> agree m m' -> agree (fst (mem_exec p m q)) (fst (mem_exec p m' q)).
Proof.
  intros P r q m m' B AG a A M. destruct (B a A) as [H | [(_ & H) | (_ & H)]].
  - rewrite !H. auto.
  - rewrite (H m m'). auto.
  - rewrite (H m m'); auto. intros y Y E. apply AG; auto. rewrite E. auto.
Qed.
Lemma benign_run : forall P r qs m m', Forall (benign P r) qs -> agree m m' ->
  agree (fst (mem_run p m qs)) (fst (mem_run p m' qs)).
Proof.
  induction qs as [|q qs IH]; intros m m' F AG; auto. inversion F; subst. rewrite !mem_run_cons. cbn [fst].
  apply IH; auto. eapply benign_agree; eauto.
Qed.
(** bytes that are neither pending nor AMO targets stay *)
Lemma benign_keep : forall P r qs m x, Forall (benign P r) qs -> x < 2 ^ p_abw p -> P (word_num x) = false ->
  ~ amo_word r (word_num x) -> fst (mem_run p m qs) x = m x.
Proof.
  induction qs as [|q qs IH]; intros m x F X PX NA; auto. inversion F as [|? ? B F']; subst. rewrite mem_run_cons. cbn [fst].
  rewrite IH; auto. destruct (B x X) as [H | [(H & _) | (H & _)]]; auto; [congruence | contradiction].
Qed.

(** *** Flat memory *)
Lemma flat_keep : forall r m a, wf_req p r -> ~ write_word p r (word_num a) -> ~ amo_word r (word_num a) -> fst (flat_exec p m r) a = m a.
Proof.
  intros r m a WF NW NA. unfold flat_exec. destruct (cq_type r =? T_READ); auto.
  destruct (N.eqb_spec (cq_type r) T_WRITE) as [T|T].
  - cbn [fst]. unfold wr_bytes. rewrite N2Nat.id. destruct (N.leb_spec (cq_addr r) a); auto.
    destruct (N.ltb_spec a (cq_addr r + req_bytes p r)); auto. exfalso. apply NW. split; auto.
    unfold word_num. split; apply N.div_le_mono; lia.
  - destruct (is_amo (cq_type r)) eqn:IA; auto. cbn [fst]. unfold wr_bytes. change (N.of_nat 4) with 4.
    destruct (N.leb_spec (cq_addr r) a); auto. destruct (N.ltb_spec a (cq_addr r + 4)); auto.
    exfalso. apply NA. split; auto.
    assert (AL : cq_addr r mod 4 = 0).
    { destruct WF as (_ & _ & [(E & _) | [(E & _) | [(_ & AL & _) | [E | E]]]]); auto; rewrite E in IA; discriminate. }
    unfold word_num. pose proof (N.div_mod' (cq_addr r) 4) as DM. rewrite AL in DM. set (z := cq_addr r / 4) in *. clearbody z.
    symmetry. apply N.div_unique with (a - cq_addr r); lia.
Qed.

Lemma flat_local : forall r m m', wf_req p r -> agree m m' -> agree (fst (flat_exec p m r)) (fst (flat_exec p m' r)).
Proof.
  intros r m m' WF AG a A M. unfold flat_exec. destruct (cq_type r =? T_READ); [apply AG; auto|].
  destruct (cq_type r =? T_WRITE).
  { cbn [fst]. unfold wr_bytes. destruct (_ && _); auto. }
  destruct (is_amo (cq_type r)) eqn:IA; [|apply AG; auto].
  cbn [fst]. unfold wr_bytes. change (N.of_nat 4) with 4.
  destruct (N.leb_spec (cq_addr r) a) as [E1|E1]; [|apply AG; auto]. destruct (N.ltb_spec a (cq_addr r + 4)) as [E2|E2]; [|apply AG; auto].
  cbn [andb]. do 3 f_equal. apply rd_ext. intros k K. change (N.of_nat 4) with 4 in K.
  assert (AL : cq_addr r mod 4 = 0).
  { destruct WF as (_ & _ & [(E & _) | [(E & _) | [(_ & AL & _) | [E | E]]]]); auto; rewrite E in IA; discriminate. }
  pose proof (N.div_mod' (cq_addr r) 4) as DM. rewrite AL in DM.
  apply AG.
  - destruct (off_aligned p (cq_addr r) 2) as [_ OF]; [pose proof (offw_ge3 p W); lia | auto |].
    apply (addr_add p W); [apply WF|]. change (2 ^ 2) with 4 in OF. lia.
  - rewrite <- M. f_equal. unfold word_num. set (z := cq_addr r / 4) in *. clearbody z.
    transitivity z; [symmetry; apply N.div_unique with k; lia | apply N.div_unique with (a - cq_addr r); lia].
Qed.


(** *** Completing one request *)
Lemma clears_le : forall qs (P : N -> bool) k, clears p P qs k = true -> P k = true.
Proof.
  induction qs as [|q qs IH]; intros P k H; auto. apply IH in H. unfold clear in H. apply andb_prop in H. apply H.
Qed.
Lemma wbs_writes : forall qs P M, wbs_ok p P M qs -> writes qs = qs.
Proof.
  induction qs as [|q qs IH]; intros P M H; auto. destruct H as [H1 H2]. cbn [writes filter].
  unfold is_write. rewrite (wb_type _ _ _ _ H1). change (T_WRITE =? T_WRITE) with true. cbn iota. f_equal. eapply IH; eauto.
Qed.
Lemma write_not : forall r k, cq_type r <> T_WRITE -> ~ write_word p r k.
Proof. intros r k N (H & _). auto. Qed.

Lemma dirt_next : forall A (P : N -> bool) L M r g, (forall k, k * 4 < 2 ^ p_abw p -> P k = true -> dirtied A k) ->
  req_traffic p P L M r g ->
  forall k, k * 4 < 2 ^ p_abw p -> mark p (clears p P (writes g)) r k = true -> dirtied (A ++ [r]) k.
Proof.
  intros A P L M r g D T k K H.
  assert (C : write_word p r k \/ clears p P (writes g) k = true).
  { unfold mark in H. destruct (N.eqb_spec (cq_type r) T_WRITE) as [E|E]; auto.
    apply orb_prop in H. destruct H as [H|H]; auto. left. apply andb_prop in H. destruct H as [H1 H2].
    apply N.leb_le in H1, H2. split; auto. }
  destruct C as [C | C].
  - exists A, r, []. auto.
  - destruct (N.eq_dec (cq_type r) T_FLUSH) as [F|F].
    + exfalso. unfold req_traffic, rw_req in T. rewrite F in T.
      change ((T_FLUSH =? T_READ) || (T_FLUSH =? T_WRITE)) with false in T. change (is_amo T_FLUSH) with false in T.
      change (T_FLUSH =? T_FLUSH) with true in T. cbn iota in T. destruct T as [T1 T2].
      rewrite (wbs_writes _ _ _ T1) in C. rewrite T2 in C by auto. discriminate.
    + apply clears_le in C. destruct (D k K C) as (A1 & v & A2 & -> & WV & FV).
      exists A1, v, (A2 ++ [r]). rewrite <- app_assoc. split; auto. split; auto. apply Forall_app. auto.
Qed.

Lemma dirtied_mine : forall A k, Forall (fun r => wf_req p r /\ okr r) A -> dirtied A k -> mine k = true.
Proof.
  intros A k F (A1 & r & A2 & -> & WW & _). apply Forall_app in F. destruct F as [_ F]. inversion F as [|? ? (_ & O) _]; subst. auto.
Qed.

Lemma view_agree : forall c g g' a, trunc 8 (g a) = trunc 8 (g' a) -> view p c g a = view p c g' a.
Proof. intros c g g' a E. unfold view. destruct (find _ _); auto. Qed.

Lemma after_drop : forall A B k, after_inv (A ++ B) k -> after_inv A k.
Proof. intros A B k H A1 v A2 -> T. apply (H A1 v (A2 ++ B)); auto. rewrite <- app_assoc. auto. Qed.
Lemma after_snoc : forall A r k, after_inv A k -> cq_type r <> T_INV -> after_inv (A ++ [r]) k.
Proof.
  intros A r k H N A1 v A2 E T. destruct A2 as [|z A2] using rev_ind.
  - apply app_inj_tail in E. destruct E as [_ E]. congruence.
  - clear IHA2. change (v :: A2 ++ [z]) with ((v :: A2) ++ [z]) in E. rewrite app_assoc in E.
    apply app_inj_tail in E. destruct E as [E _]. eapply H; eauto.
Qed.
Lemma fresh_snoc : forall A r H H' a v, fresh A H a v -> cq_type r <> T_INV -> (H <= H')%nat -> fresh (A ++ [r]) H' a v.
Proof.
  intros A r H H' a v (k & mu & L & AI & K & E) N LE. exists k, mu. split; auto. split; [apply after_snoc; auto|]. split; auto. lia.
Qed.
Lemma after_new : forall A, after_inv A (length A + 1).
Proof. intros A A1 v A2 -> _. rewrite app_length. cbn. lia. Qed.

(** the resident lines *)
Lemma lru_in_rw : forall L r x j, rw_req r = true -> In x (fst (lru_step p L r) j) ->
  (x = line_of p (cq_addr r) /\ j = line_of p (cq_addr r) mod nblocks p) \/ In x (L j).
Proof.
  intros L r x j R H. unfold lru_step in H. rewrite R in H. cbn [fst] in H.
  destruct (N.eqb_spec j (line_of p (cq_addr r) mod nblocks p)) as [->|NE]; auto.
  assert (I : In x (line_of p (cq_addr r) :: remove N.eq_dec (line_of p (cq_addr r)) (L (line_of p (cq_addr r) mod nblocks p)))).
  { rewrite <- (firstn_skipn (N.to_nat (p_assoc p))). apply in_or_app. left. exact H. }
  destruct I as [<- | I]; auto. right. apply in_remove in I. apply I.
Qed.
Lemma lru_has_rw : forall L r, rw_req r = true ->
  In (line_of p (cq_addr r)) (fst (lru_step p L r) (line_of p (cq_addr r) mod nblocks p)).
Proof.
  intros L r R. unfold lru_step. rewrite R. cbn [fst]. rewrite N.eqb_refl.
  destruct (wf_assoc p W) as [-> | ->]; [change (N.to_nat 1) with 1%nat | change (N.to_nat 2) with 2%nat]; left; auto.
Qed.
Lemma lru_in_amo : forall L r x j, rw_req r = false -> is_amo (cq_type r) = true -> In x (fst (lru_step p L r) j) ->
  In x (L j) /\ (j = line_of p (cq_addr r) mod nblocks p -> x <> line_of p (cq_addr r)).
Proof.
  intros L r x j R IA H. unfold lru_step in H. rewrite R, IA in H. cbn [fst] in H.
  destruct (N.eqb_spec j (line_of p (cq_addr r) mod nblocks p)) as [->|NE].
  - apply in_remove in H. split; [apply H|]. intros _. apply H.
  - split; [auto | intros; contradiction].
Qed.

Lemma nth_snoc : forall T (l : list T) x n y, nth_error (l ++ [x]) n = Some y -> (n = length l /\ y = x) \/ ((n < length l)%nat /\ nth_error l n = Some y).
Proof.
  intros T l x n y H. destruct (lt_dec n (length l)) as [L|L].
  - right. split; auto. rewrite nth_error_app1 in H by auto. auto.
  - left. rewrite nth_error_app2 in H by lia. destruct (n - length l)%nat as [|z] eqn:E.
    + cbn in H. inversion H. split; auto. lia.
    + cbn in H. destruct z; discriminate.
Qed.

Lemma fin_core : forall A c g Y P r d g1,
  good A c g Y P -> wf_req p r -> okr r ->
  agree g1 g -> cinv p c g1 ->
  let reqs := tl_reqs p c r in
  let c' := fst (tl_fin p c r d) in
  let y := snd (tl_fin p c r d) in
  let g' := fst (mem_run p g1 reqs) in
  c' = fst (tl_fin p c r (last_data (snd (mem_run p g1 reqs)))) ->
  (forall a, a < 2 ^ p_abw p -> mine (word_num a) = false ->
    In (line_of p a) (lru_run p lru_empty (A ++ [r]) (line_of p a mod nblocks p)) -> fresh (A ++ [r]) (length A + 1) a (view p c' g' a)) ->
  (echo_y y = echo r -> cr_test y = snd (lru_step p (lru_run p lru_empty A) r) -> resp_ok A r y) ->
  good (A ++ [r]) c' g' (Y ++ [y]) (mark p (clears p P (writes reqs)) r) /\
  agree g' (fst (mem_run p g reqs)).
Proof.
  intros A c g Y P r d g1 G WF OK AG C1 reqs c' y g' CE FR RO. destruct G as [GW GC GL GP GD GV GF GN GR].
  destruct (traf_step p W c g1 P (lru_run p lru_empty A) (view p c g1) r d C1 GP GL) as [TR PE]; auto.
  fold reqs in TR, PE. fold c' in PE.
  pose proof (exec_traffic _ _ _ _ _ WF TR) as BN.
  destruct (lru_fin p W (lru_run p lru_empty A) c r d GL (ci_uniq _ _ _ C1) (ci_rep _ _ _ C1) WF) as [LF LT].
  fold c' in LF. fold y in LT.
  destruct (tl_step p W c g1 r C1 WF) as (S1 & S2 & _). fold reqs in S1, S2. rewrite <- CE in S1, S2. fold g' in S1, S2.
  assert (LR : forall A0 L, lru_run p L (A0 ++ [r]) = fst (lru_step p (lru_run p L A0) r)).
  { induction A0 as [|z A0 IH]; intros L; cbn [app lru_run]; auto. }
  split; [|eapply benign_run; eauto]. constructor.
  - apply Forall_app. auto.
  - auto.
  - rewrite LR. auto.
  - auto.
  - eapply dirt_next; eauto.
  - intros a HA M. rewrite S2 by auto. rewrite flat_mem_app. cbn [flat_mem].
    assert (AV : agree (view p c g1) (flat_mem p m0 A)).
    { intros b HB MB. rewrite (view_agree c g1 g) by (apply AG; auto). rewrite GV by auto. apply trunc_small. apply trunc_lt. }
    rewrite <- (flat_local r _ _ WF AV a HA M). rewrite <- S2 by auto. symmetry. apply trunc_small. apply view_lt.
  - intros a HA M I. rewrite app_length. apply FR; auto.
  - rewrite !app_length. cbn. lia.
  - intros n r1 y1 N1 N2. apply nth_snoc in N1. apply nth_snoc in N2. rewrite firstn_app.
    destruct N1 as [(E1 & ->) | (L1 & N1)], N2 as [(E2 & ->) | (L2 & N2)]; try lia.
    + replace (n - length A)%nat with 0%nat by lia. subst n. rewrite firstn_all. cbn [firstn]. rewrite app_nil_r.
      apply RO; [|congruence]. unfold echo_y, echo, y. destruct (tl_fin_echo p c r d) as (-> & -> & ->). auto.
    + replace (n - length A)%nat with 0%nat by lia. cbn [firstn]. rewrite app_nil_r. auto.
Qed.


Lemma clean_other : forall A c g Y P a h, good A c g Y P -> a < 2 ^ p_abw p -> mine (word_num a) = false ->
  view p c h a = trunc 8 (h a).
Proof.
  intros A c g Y P a h G HA M. apply view_clean. intros w Hw. destruct (dirty_at p c w a) eqn:D; auto. exfalso.
  assert (DS : dset p c a = true) by (apply dset_true; eauto).
  rewrite <- (gd_pend _ _ _ _ _ G) in DS by auto.
  apply (gd_dirt _ _ _ _ _ G) in DS; [|pose proof (word_mul4 a); lia].
  apply (dirtied_mine _ _ (gd_wf _ _ _ _ _ G)) in DS. congruence.
Qed.

Lemma rd_size : forall m a n, rd_bytes m a n < 2 ^ (8 * N.of_nat n).
Proof.
  intros. apply lt_pow2_bits. intros b Hb. rewrite testbit_rd. destruct (N.ltb_spec b (8 * N.of_nat n)); auto. lia.
Qed.
Lemma lru_snoc : forall r A0 L, lru_run p L (A0 ++ [r]) = fst (lru_step p (lru_run p L A0) r).
Proof. intros r. induction A0 as [|z A0 IH]; intros L; cbn [app lru_run]; auto. Qed.

(** READ and WRITE, given a ghost memory on which they have the right effect *)
Lemma fin_rw : forall A c g Y P r d g1,
  good A c g Y P -> wf_req p r -> okr r -> rw_req r = true ->
  agree g1 g -> cinv p c g1 ->
  d = last_data (snd (mem_run p g1 (tl_reqs p c r))) ->
  (forall a, a < 2 ^ p_abw p -> mine (word_num a) = false -> line_of p a <> line_of p (cq_addr r) -> g1 a = g a) ->
  (forall a, a < 2 ^ p_abw p -> mine (word_num a) = false -> line_of p a = line_of p (cq_addr r) ->
     fresh A (length A + 1) a (trunc 8 (g1 a))) ->
  exists g' P', good (A ++ [r]) (fst (tl_fin p c r d)) g' (Y ++ [snd (tl_fin p c r d)]) P' /\
    agree g' (fst (mem_run p g (tl_reqs p c r))).
Proof.
  intros A c g Y P r d g1 G WF OK RW AG C1 DD G1 G2.
  destruct (rw_type r RW) as (NA & NI & NF).
  assert (TI : cq_type r <> T_INV) by (apply N.eqb_neq; auto).
  assert (NAW : forall k, ~ amo_word r k) by (intros k (X & _); congruence).
  destruct (tl_step p W c g1 r C1 WF) as (_ & S2 & S3). rewrite <- DD in S2, S3.
  assert (VW : forall a, a < 2 ^ p_abw p -> mine (word_num a) = false ->
     view p (fst (tl_fin p c r d)) (fst (mem_run p g1 (tl_reqs p c r))) a = trunc 8 (g1 a)).
  { intros a HA M. rewrite S2, flat_keep; auto.
    - eapply clean_other; eauto.
    - intros X. apply OK in X. congruence. }
  assert (FR : forall a, a < 2 ^ p_abw p -> mine (word_num a) = false ->
    In (line_of p a) (lru_run p lru_empty (A ++ [r]) (line_of p a mod nblocks p)) -> fresh A (length A + 1) a (trunc 8 (g1 a))).
  { intros a HA M I. destruct (N.eq_dec (line_of p a) (line_of p (cq_addr r))) as [E|E]; [apply G2; auto|].
    rewrite G1 by auto. rewrite lru_snoc in I. apply lru_in_rw in I; auto. destruct I as [(I & _) | I]; [contradiction|].
    pose proof (gd_fresh _ _ _ _ _ G a HA M I) as (k & mu & F1 & F2 & F3 & F4).
    rewrite (clean_other _ _ _ _ _ _ _ G HA M) in F4. exists k, mu. repeat split; auto. lia. }
  do 2 eexists. eapply (fin_core A c g Y P r d g1); auto.
  - rewrite DD. auto.
  - intros a HA M I. rewrite VW by auto. eapply fresh_snoc; eauto.
  - intros E1 E2. constructor; auto.
    + intros TR j J. rewrite S3. unfold flat_exec. rewrite TR. change (T_READ =? T_READ) with true. cbn [snd].
      rewrite gb_rd by (rewrite N2Nat.id; auto).
      assert (WR : wf_read p r) by (destruct (rw_cases p r WF RW) as [X | (X & _)]; auto; rewrite TR in X; discriminate).
      assert (HJ : cq_addr r + j < 2 ^ p_abw p) by (pose proof (req_in_range p W r WF (or_introl WR)); lia).
      split; intros M.
      * rewrite (view_agree c g1 g) by (apply AG; auto). rewrite (gd_view _ _ _ _ _ G) by auto. apply trunc_small. apply trunc_lt.
      * rewrite (clean_other _ _ _ _ _ _ _ G HJ M). rewrite (trunc_small 8 (trunc 8 _)) by apply trunc_lt.
        apply FR; auto. rewrite lru_snoc.
        destruct (addr_add p W (cq_addr r) j) as (B1 & B2 & B3 & B4).
        { apply WF. }
        { destruct (read_geo p W r WF WR) as [X _]. lia. }
        assert (LE : line_of p (cq_addr r + j) = line_of p (cq_addr r)).
        { rewrite !(line_eq p W) by (auto; apply WF). congruence. }
        rewrite LE. apply lru_has_rw; auto.
    + intros TR. rewrite S3. unfold flat_exec. rewrite TR. change (T_READ =? T_READ) with true. cbn [snd].
      pose proof (rd_size (view p c g1) (cq_addr r) (N.to_nat (req_bytes p r))) as X. rewrite N2Nat.id in X. auto.
    + intros X. congruence.
    + intros NR _. rewrite S3. unfold flat_exec. apply N.eqb_neq in NR. rewrite NR, NA. destruct (cq_type r =? T_WRITE); auto.
Qed.

Theorem fin : forall A c g Y P r xs,
  good A c g Y P -> wf_req p r -> okr r -> answers (length A + 1) g (tl_reqs p c r) xs ->
  exists g' P', good (A ++ [r]) (fst (tl_fin p c r (last_data xs))) g' (Y ++ [snd (tl_fin p c r (last_data xs))]) P' /\
    agree g' (fst (mem_run p g (tl_reqs p c r))).
Proof.
  intros A c g Y P r xs G WF OK AN.
  pose proof (gd_inv _ _ _ _ _ G) as C. pose proof (gd_lru _ _ _ _ _ G) as GL. pose proof WF as (HA & _).
  pose proof (ci_uniq _ _ _ C) as U. pose proof (ci_rep _ _ _ C) as RP.
  destruct (rw_req r) eqn:RW.
  - destruct (rw_type r RW) as (NA & NI & NF).
    pose proof (in_lru p W _ c r GL U RP HA) as IL. rewrite <- (line_set p W _ HA) in IL.
    destruct (tl_hit p c r) eqn:HI.
    + (* hit *)
      assert (RQ : tl_reqs p c r = []) by (unfold tl_reqs, tl_isamo; rewrite NI, NF, NA, HI; auto).
      assert (XS : xs = []) by (rewrite RQ in AN; destruct xs; [auto | contradiction]). rewrite XS. clear AN XS.
      apply (fin_rw A c g Y P r _ g); auto using agree_refl.
      * rewrite RQ. auto.
      * intros a Ha M E. pose proof (gd_fresh _ _ _ _ _ G a Ha M) as F. rewrite E in F.
        destruct (F (proj2 IL eq_refl)) as (k & mu & F1 & F2 & F3 & F4).
        rewrite (clean_other _ _ _ _ _ _ _ G Ha M) in F4. exists k, mu. repeat split; auto. lia.
    + (* miss *)
      assert (RQ : tl_reqs p c r = wbs p c r ++ [refill_req p c r]) by (unfold tl_reqs, tl_isamo; rewrite NI, NF, NA, HI; auto).
      rewrite RQ in AN. apply answers_snoc_inv in AN. destruct AN as (xs' & mu & -> & LG & AGM & _).
      set (g1 := fun a => if mine (word_num a) then g a else if line_of p a =? line_of p (cq_addr r) then mu a else g a).
      assert (AG : agree g1 g) by (intros a Ha M; unfold g1; rewrite M; auto).
      assert (C1 : cinv p c g1).
      { constructor; auto. intros w i o Hw Hi Ho V D. rewrite (ci_coh _ _ _ C) by auto.
        set (a := mk_addr p (ltag p c w i) i o).
        assert (Hp : i < 2 ^ idxw p) by (apply (idx_pow p W); auto).
        assert (Ha : a < 2 ^ p_abw p) by (apply (mk_addr_lt p W); unfold ltag; apply te_tag_lt).
        assert (LN : line_of p a <> line_of p (cq_addr r)).
        { intros E. rewrite !(line_eq p W) in E by auto. apply (lno_inj2 p W) in E; [|apply a_idx_lt; auto|apply a_idx_lt; auto].
          unfold a in E. rewrite a_tag_mk, a_idx_mk in E by (auto; unfold ltag; apply te_tag_lt). destruct E as [E1 E2].
          pose proof (look_spec p W c r U) as LK. rewrite HI in LK.
          inversion LK as [|w1 L1 L2 L3 L4 L5 L6|L1 L2].
          - assert (w = tl_hw p c r).
            { apply (U w (tl_hw p c r) i); auto using lval_present; rewrite ?E2; auto.
              - unfold present. apply N.eqb_neq in L3. rewrite L3. apply orb_true_r.
              - rewrite L4, <- E1, E2. auto. }
            subst w. congruence.
          - apply (L1 w); auto; rewrite <- E2; auto using lval_present. }
        unfold g1. apply N.eqb_neq in LN. rewrite LN. destruct (mine (word_num a)); auto. }
      destruct (traf_step p W c g1 P (lru_run p lru_empty A) (view p c g1) r 0 C1 (gd_pend _ _ _ _ _ G) GL) as [TR _]; auto.
      pose proof (exec_traffic _ _ _ _ _ WF TR) as BN. rewrite RQ in BN. apply Forall_app in BN. destruct BN as [BN _].
      assert (LA : line_addr p (cq_addr r) < 2 ^ p_abw p) by (apply (mk_addr_lt p W); apply a_tag_lt).
      apply (fin_rw A c g Y P r _ g1); auto.
      * rewrite RQ, mem_run_app. cbn [snd]. unfold last_data. rewrite !fold_left_app. rewrite mem_run_cons. cbn [snd fold_left mem_run].
        unfold mem_exec, refill_req. cbn [mq_type mq_len mq_addr mq_opq]. change (T_READ =? T_READ) with true.
        change (0 =? 0) with true. cbn [snd mr_data].
        apply rd_ext. intros k K. rewrite N2Nat.id, (clw_bytes p W) in K.
        assert (OB : a_off p (line_addr p (cq_addr r)) = 0) by (unfold line_addr; apply base_off0; auto).
        destruct (addr_add p W (line_addr p (cq_addr r)) k LA) as (B1 & B2 & B3 & B4); [lia|].
        set (b := line_addr p (cq_addr r) + k) in *.
        assert (Hp : a_idx p (cq_addr r) < 2 ^ idxw p) by (apply (idx_pow p W); apply a_idx_lt; auto).
        assert (LB : line_of p b = line_of p (cq_addr r)).
        { rewrite !(line_eq p W) by auto. rewrite B2, B3. unfold line_addr. rewrite a_tag_mk, a_idx_mk by (auto; apply a_tag_lt). auto. }
        destruct (mine (word_num b)) eqn:M.
        -- rewrite AGM by auto. apply (benign_run P r (wbs p c r) g g1); auto. apply agree_sym; auto.
        -- rewrite (benign_keep P r); auto.
           ++ unfold g1. rewrite M, LB, N.eqb_refl. auto.
           ++ destruct (P (word_num b)) eqn:PB; auto. apply (gd_dirt _ _ _ _ _ G) in PB; [|pose proof (word_mul4 b); lia].
              apply (dirtied_mine _ _ (gd_wf _ _ _ _ _ G)) in PB. congruence.
           ++ intros (X & _). congruence.
      * intros a Ha M E. unfold g1. apply N.eqb_neq in E. rewrite M, E. auto.
      * intros a Ha M E. exists (length A + 1)%nat, mu. split; auto. split; [apply after_new|]. split; [lia|].
        unfold g1. rewrite M, E, N.eqb_refl. auto.
  - destruct (not_rw p r WF RW) as [WA | [TI | TF]].
    + (* AMO *)
      destruct (amo_type p r WA) as (_ & IA & NI & NF & NR & NW).
      assert (RQ : tl_reqs p c r = wbs p c r ++ [amo_req p c r]) by (unfold tl_reqs, tl_isamo; rewrite NI, NF, IA; auto).
      assert (CI : forall d d', fst (tl_fin p c r d) = fst (tl_fin p c r d')) by (intros; unfold tl_fin, tl_isamo; rewrite NI, NF, IA; auto).
      assert (AD : mq_addr (amo_req p c r) = cq_addr r) by (unfold amo_req, off_len; cbn [mq_addr fst]; apply mk_addr_parts; auto).
      assert (DX : forall mm, mr_data (snd (mem_exec p mm (amo_req p c r))) = rd_bytes mm (cq_addr r) 4).
      { intros mm. unfold mem_exec. rewrite AD. unfold amo_req. cbn [mq_type]. rewrite NR, NW. auto. }
      rewrite RQ in AN. apply answers_snoc_inv in AN. destruct AN as (xs' & mu & -> & LG & AGM & _).
      assert (TNI : cq_type r <> T_INV) by (apply N.eqb_neq; auto).
      do 2 eexists. eapply (fin_core A c g Y P r _ g); auto using agree_refl.
      * intros a Ha M I. rewrite (CI _ (last_data (snd (mem_run p g (tl_reqs p c r))))).
        destruct (tl_step p W c g r C WF) as (_ & S2 & _). rewrite S2 by auto.
        rewrite lru_snoc in I. apply lru_in_amo in I; auto. destruct I as [I1 I2].
        rewrite flat_keep; auto.
        -- eapply fresh_snoc; [apply (gd_fresh _ _ _ _ _ G); auto | auto | lia].
        -- apply write_not. apply N.eqb_neq; auto.
        -- intros (_ & E). assert (LE : line_of p a = line_of p (cq_addr r)).
           { unfold line_of. pose proof (lb_pos p W) as LP. destruct line4 as (k & LB4). rewrite LB4 in *.
             rewrite <- !N.div_div by lia. unfold word_num in E. rewrite E. auto. }
           apply I2; auto. rewrite LE. auto.
      * intros E1 E2. constructor; auto.
        -- intros X. rewrite X in NR. discriminate.
        -- intros X. rewrite X in NR. discriminate.
        -- intros _.
           assert (DT : cr_data (snd (tl_fin p c r (last_data (xs' ++ [snd (mem_exec p mu (amo_req p c r))])))) = rd_bytes mu (cq_addr r) 4).
           { unfold tl_fin, tl_isamo. rewrite NI, NF, IA. cbn [snd tl_resp cr_data]. unfold last_data. rewrite fold_left_app. cbn [fold_left].
             rewrite DX. unfold slice. rewrite N.shiftr_0_r, N.sub_0_r. apply trunc_small. apply (rd_size mu (cq_addr r) 4). }
           split; [|exists mu; auto]. intros M.
           rewrite DT. destruct (tl_step p W c g r C WF) as (_ & _ & S3).
           assert (DG : cr_data (snd (tl_fin p c r (last_data (snd (mem_run p g (tl_reqs p c r)))))) = rd_bytes (fst (mem_run p g (wbs p c r))) (cq_addr r) 4).
           { rewrite RQ, mem_run_app. cbn [snd]. unfold tl_fin, tl_isamo. rewrite NI, NF, IA. cbn [snd tl_resp cr_data]. unfold last_data. rewrite fold_left_app.
             rewrite mem_run_cons. cbn [snd fold_left mem_run]. rewrite DX. unfold slice. rewrite N.shiftr_0_r, N.sub_0_r. apply trunc_small.
             apply (rd_size _ (cq_addr r) 4). }
           rewrite DG in S3. unfold flat_exec in S3. rewrite NR, NW, IA in S3. cbn [snd] in S3.
           assert (WORD : forall k, k < N.of_nat 4 -> cq_addr r + k < 2 ^ p_abw p /\ mine (word_num (cq_addr r + k)) = true).
           { intros k K. change (N.of_nat 4) with 4 in K. pose proof WA as (_ & AL & _). split.
             - destruct (off_aligned p (cq_addr r) 2) as [_ OF]; [pose proof (offw_ge3 p W); lia | auto |].
               apply (addr_add p W); [apply WF|]. change (2 ^ 2) with 4 in OF. lia.
             - rewrite <- M. f_equal. unfold word_num. pose proof (N.div_mod' (cq_addr r) 4) as DM. rewrite AL in DM.
               set (z := cq_addr r / 4) in *. clearbody z. symmetry. apply N.div_unique with k; lia. }
           transitivity (rd_bytes (fst (mem_run p g (wbs p c r))) (cq_addr r) 4).
           ++ apply rd_ext. intros k K. destruct (WORD k K). apply AGM; auto.
           ++ rewrite S3. apply rd_ext. intros k K. destruct (WORD k K). rewrite (gd_view _ _ _ _ _ G) by auto.
              apply trunc_small. apply trunc_lt.
        -- intros _ X. congruence.
    + (* INV *)
      do 2 eexists. eapply (fin_core A c g Y P r _ g); auto using agree_refl.
      * unfold tl_fin. rewrite TI. auto.
      * intros a Ha M I. exfalso. rewrite lru_snoc in I. unfold lru_step in I. rewrite RW, TI in I.
        change (is_amo T_INV) with false in I. change (T_INV =? T_INV) with true in I. destruct I.
      * intros E1 E2. constructor; auto; try (rewrite TI; discriminate). intros _ _. unfold tl_fin. rewrite TI. auto.
    + (* FLUSH *)
      do 2 eexists. eapply (fin_core A c g Y P r _ g); auto using agree_refl.
      * unfold tl_fin. rewrite TF. auto.
      * intros a Ha M I.
        assert (CI : forall d d', fst (tl_fin p c r d) = fst (tl_fin p c r d')) by (intros; unfold tl_fin; rewrite TF; auto).
        rewrite (CI _ (last_data (snd (mem_run p g (tl_reqs p c r))))).
        destruct (tl_step p W c g r C WF) as (_ & S2 & _). rewrite S2 by auto.
        rewrite lru_snoc in I. unfold lru_step in I. rewrite RW, TF in I.
        change (is_amo T_FLUSH) with false in I. change (T_FLUSH =? T_INV) with false in I. cbn [fst] in I.
        rewrite flat_keep; auto.
        -- eapply fresh_snoc; [apply (gd_fresh _ _ _ _ _ G); auto | rewrite TF; discriminate | lia].
        -- apply write_not. rewrite TF. discriminate.
        -- intros (X & _). rewrite TF in X. discriminate.
      * intros E1 E2. constructor; auto; try (rewrite TF; discriminate). intros _ _. unfold tl_fin. rewrite TF. auto.
Qed.

End L.
End M.
