(** Clients that obey the handshake but send requests of any size, and which
    words of memory such a client can change (property C26). *)
From Coq Require Import NArith List Bool Lia.
From Verif Require Import Bits Params Msg Units Rtl Mem Spec System Tl ParamsProofs RefineInv RefineProofs
  UnitProofs ViewDefs SysProofs SysFacts Facts2 Harness.
Import ListNotations.
Open Scope N_scope.

(** *** Specification *)
(** Only the handshake, the type and the address width are respected: any
    length, any alignment. *)
Definition handshake_ok (p : params) (tr : trace) : Prop :=
  Forall (fun io => i_req_en (fst io) = true ->
    o_req_rdy (snd io) = true /\ cq_addr (i_req (fst io)) < 2 ^ p_abw p /\
    (let t := cq_type (i_req (fst io)) in
     t = T_READ \/ t = T_WRITE \/ (T_AMO_ADD <= t /\ t < T_INV) \/ t = T_INV \/ t = T_FLUSH)) tr.
Definition any_run (p : params) (s0 : st) (is : list inp) (m0 m : mem) (rq : list mreq) (rs : list mresp) : Prop :=
  reset_state p s0 /\ handshake_ok p (trace_of p s0 is) /\ mem_trace p m0 [] [] (trace_of p s0 is) m rq rs.

(** Byte [x] lies in the first 32-bit word of the WRITE [r], or (len = 3) in the
    word after it, cyclically in the line. *)
Definition first_word (p : params) (r : creq) (x : N) : Prop :=
  let L := p_clw p / 8 in
  cq_type r = T_WRITE /\ x / L = cq_addr r / L /\
  ((x mod L) / 4 = (cq_addr r mod L) / 4 \/
   cq_len r = 3 /\ (x mod L) / 4 = ((cq_addr r mod L) / 4 + 1) mod (L / 4)).
(** Byte [x] is one of the four bytes of the atomic [r]. *)
Definition amo_word (r : creq) (x : N) : Prop :=
  T_AMO_ADD <= cq_type r /\ cq_type r < T_INV /\ cq_addr r <= x /\ x < cq_addr r + 4.

(** *** Proofs *)
Lemma type_ok : forall t, t = T_READ \/ t = T_WRITE \/ (T_AMO_ADD <= t /\ t < T_INV) \/ t = T_INV \/ t = T_FLUSH -> wf_type t.
Proof.
  intros t [H | [H | [[H1 H2] | [H | H]]]]; unfold wf_type; auto.
  right; right; left. unfold is_amo. apply andb_true_iff. split; [apply N.leb_le | apply N.ltb_lt]; auto.
Qed.
Lemma amo_range : forall t, is_amo t = true -> T_AMO_ADD <= t /\ t < T_INV.
Proof. intros t H. unfold is_amo in H. apply andb_true_iff in H. rewrite N.leb_le, N.ltb_lt in H. auto. Qed.

Section W.
Variable p : params.
Hypothesis W : wf_params p.

Lemma any_legal : forall m rq rs tr m' rq' rs', mem_trace p m rq rs tr m' rq' rs' ->
  forall is s out, tr = trace_of p s is -> handshake_ok p tr ->
  (exists ms, out = ms ++ rq /\ Forall2 (fun x q => mr_type x = mq_type q) rs ms) ->
  legal_run p s out is.
Proof.
  induction 1 as [m rq rs | m q rq rs tr m' rq' rs' MT IH | m rq rs i o tr m' rq' rs' NE MT IH
                  | m rq x rs i o tr m' rq' rs' NE EX MT IH]; intros is s out TR CL (ms & OUT & F).
  - destruct is as [|i is]; [exact I|]. rewrite trace_cons in TR. discriminate.
  - apply IH; auto. exists (ms ++ [q]). rewrite <- app_assoc. split; auto.
    apply Forall2_app; auto. constructor; auto. apply mem_exec_type.
  - destruct is as [|i' is]; [discriminate|]. rewrite trace_cons in TR. inversion TR; subst; clear TR.
    inversion CL as [|? ? CL1 CL2]; subst. cbn [legal_run]. split.
    + constructor; [|congruence]. intros E. destruct (CL1 E) as (C1 & _ & C2). split; auto. apply type_ok; auto.
    + apply IH; auto. unfold outst_next. rewrite NE. exists ms. rewrite ol_opt, app_assoc. auto.
  - destruct is as [|i' is]; [discriminate|]. rewrite trace_cons in TR. inversion TR; subst; clear TR.
    inversion CL as [|? ? CL1 CL2]; subst. inversion F as [|? q ? ms' F1 F2]; subst. cbn [legal_run]. split.
    + constructor.
      * intros E. destruct (CL1 E) as (C1 & _ & C2). split; auto. apply type_ok; auto.
      * intros _. exists q, (ms' ++ rq). auto.
    + apply IH; auto. unfold outst_next. rewrite NE. exists ms'. rewrite ol_opt. cbn [tl app]. rewrite app_assoc. auto.
Qed.

(** tag lookup, without assumptions on the cache *)
Lemma pu_any : forall tag ents l h ih w,
  (w < p_assoc p /\ (h || ih = true -> te_tag p (ents w) = tag)) -> (forall i, In i l -> i < p_assoc p) ->
  let '(h', ih', w') := fold_left (pu_way p tag ents) l (h, ih, w) in
  w' < p_assoc p /\ (h' || ih' = true -> te_tag p (ents w') = tag).
Proof.
  induction l as [|i l IH]; intros h ih w H HL; cbn [fold_left]; auto.
  unfold pu_way at 2.
  assert (Hi : i < p_assoc p) by (apply HL; left; auto).
  assert (HL' : forall j, In j l -> j < p_assoc p) by (intros; apply HL; right; auto).
  destruct (te_val p (ents i) && (te_tag p (ents i) =? tag)) eqn:E1;
  destruct (line_dirty p true (ents i) && negb (te_val p (ents i)) && (te_tag p (ents i) =? tag)) eqn:E2;
  apply IH; auto; split; auto.
  - intros _. apply andb_true_iff in E2. apply N.eqb_eq. apply E2.
  - intros _. apply andb_true_iff in E1. apply N.eqb_eq. apply E1.
  - intros _. apply andb_true_iff in E2. apply N.eqb_eq. apply E2.
Qed.
Lemma assoc_pos : 0 < p_assoc p.
Proof. destruct (wf_assoc p W) as [-> | ->]; lia. Qed.
Lemma look_any : forall c r, tl_hw p c r < p_assoc p /\
  (tl_hit p c r || tl_inval p c r = true -> te_tag p (tl_ent p c r (tl_hw p c r)) = a_tag p (cq_addr r)).
Proof.
  intros. unfold tl_hit, tl_inval, tl_hw, tl_pu, pu_compare. cbn [negb andb].
  pose proof (pu_any (a_tag p (cq_addr r)) (tl_ent p c r) (range (p_assoc p)) false false 0) as H.
  destruct (fold_left _ _ _) as [[h ih] w]. cbn [fst snd]. apply H.
  - split; [apply assoc_pos | discriminate].
  - intros i I. apply in_range in I. auto.
Qed.

(** dirty word [k] of line (t, i) is due to a WRITE in [A] *)
Definition hwrite (A : list creq) (t i k : N) : Prop :=
  exists r, In r A /\ cq_type r = T_WRITE /\ cq_addr r < 2 ^ p_abw p /\ a_tag p (cq_addr r) = t /\ a_idx p (cq_addr r) = i /\
    (k = word_of p (a_off p (cq_addr r)) \/ cq_len r = 3 /\ k = word_of_succ p (a_off p (cq_addr r))).
Definition Kc (A : list creq) (c : cst) : Prop :=
  (forall w i k, w < p_assoc p -> i < nblocks p -> N.testbit (te_dty p (ct c w i)) k = true ->
     hwrite A (te_tag p (ct c w i)) i k) /\
  (forall i, cr c i < p_assoc p).

Lemma hwrite_more : forall A B t i k, hwrite A t i k -> hwrite (A ++ B) t i k.
Proof. intros A B t i k (r & I & H). exists r. split; auto. apply in_or_app. auto. Qed.
Lemma Kc_more : forall A B c, Kc A c -> Kc (A ++ B) c.
Proof. intros A B c [H1 H2]. split; auto. intros. apply hwrite_more. auto. Qed.

Lemma set_dirty_bits : forall d off len k, N.testbit (set_dirty p d off len) k = true ->
  N.testbit d k = true \/ k = word_of p off \/ len = 3 /\ k = word_of_succ p off.
Proof.
  intros d off len k. unfold set_dirty. destruct (N.eqb_spec len 3) as [E|E].
  - destruct (N.eq_dec k (word_of_succ p off)) as [->|N1]; auto.
    rewrite N.setbit_neq by auto. destruct (N.eq_dec k (word_of p off)) as [->|N2]; auto.
    rewrite N.setbit_neq by auto. auto.
  - destruct (N.eq_dec k (word_of p off)) as [->|N2]; auto. rewrite N.setbit_neq by auto. auto.
Qed.

Lemma trunc_bit : forall n x k, N.testbit (trunc n x) k = true -> N.testbit x k = true.
Proof. intros n x k. rewrite testbit_trunc. intros H. apply andb_true_iff in H. apply H. Qed.

Lemma trunc_tag : forall a, trunc (tagw p) (a_tag p a) = a_tag p a.
Proof. intros. apply trunc_small. apply a_tag_lt; auto. Qed.

Definition ctx (A : list creq) (r : creq) : Prop := In r A /\ cq_addr r < 2 ^ p_abw p.

Lemma way_any : forall c r, Kc [] c \/ (forall i, cr c i < p_assoc p) -> tl_way p c r < p_assoc p.
Proof.
  intros c r H. assert (R : forall i, cr c i < p_assoc p) by (destruct H as [[_ H] | H]; auto).
  unfold tl_way. pose proof (proj1 (look_any c r)). unfold tl_rep.
  destruct (tl_isamo r), (tl_hit p c r), (tl_inval p c r); auto.
Qed.

(** the dirty bits carried across a miss belong to the requested line *)
Lemma tl_dirty_hw : forall A c r k, Kc A c -> tl_isamo r = false -> tl_hit p c r = false ->
  N.testbit (tl_dirty p c r) k = true -> hwrite A (a_tag p (cq_addr r)) (a_idx p (cq_addr r)) k.
Proof.
  intros A c r k [K R] NA NH B. unfold tl_dirty, tl_evict, tl_way in B. rewrite NA, NH in B.
  destruct (look_any c r) as [L1 L2]. rewrite NH in L2. cbn [orb] in L2.
  destruct (tl_inval p c r) eqn:IV; cbn [negb andb] in B.
  - rewrite <- (L2 eq_refl). apply K; auto. apply a_idx_lt; auto.
  - unfold line_dirty in B. cbn [andb] in B.
    destruct (N.eqb_spec (te_dty p (tl_ent p c r (tl_rep p c r))) 0) as [E|E]; cbn [negb] in B.
    + rewrite E, N.bits_0 in B. discriminate.
    + rewrite N.bits_0 in B. discriminate.
Qed.

Lemma tset_in : forall T w i v w' i', tset T w i v w' i' = if (w' =? w) && (i' =? i) then v else T w' i'.
Proof. reflexivity. Qed.

Lemma crep_any : forall c r, (forall i, cr c i < p_assoc p) -> forall i, tl_crep p c r i < p_assoc p.
Proof.
  intros c r R i. unfold tl_crep. destruct (tl_rep_en p c r); auto. unfold upd. destruct (i =? _); auto.
  unfold tl_rep', repl_policy, not1. destruct (wf_assoc p W) as [A | A]; rewrite A.
  - change (1 =? 2) with false. cbn iota. destruct (tl_isamo r); lia.
  - change (2 =? 2) with true. cbn iota.
    repeat match goal with |- context [if ?b then _ else _] => destruct b end; lia.
Qed.

Lemma Kc_fin : forall A c r d, Kc A c -> ctx A r -> Kc A (fst (tl_fin p c r d)).
Proof.
  intros A c r d KC (IR & AR). pose proof KC as [K R]. unfold tl_fin.
  destruct (N.eqb_spec (cq_type r) T_INV) as [TI|TI].
  { split; cbn [fst ct cr]; auto. intros w i k Hw Hi B. unfold tmap in *. destruct (inrange p w i); auto.
    destruct (te_inv p (ct c w i)) as (_ & E2 & E3). rewrite E2 in B. rewrite E3. auto. }
  destruct (N.eqb_spec (cq_type r) T_FLUSH) as [TF|TF].
  { split; cbn [fst ct cr]; auto. intros w i k Hw Hi B. unfold tmap in *. destruct (inrange p w i); auto.
    destruct (te_clean p (ct c w i)) as (_ & E2 & E3). rewrite E2, N.bits_0 in B. discriminate. }
  destruct (tl_isamo r) eqn:TA.
  { split; cbn [fst ct cr]; [|apply crep_any; auto]. intros w i k Hw Hi B. unfold tl_amo_tag in *.
    destruct (_ || _); auto. rewrite tset_in in *. destruct (_ && _); auto.
    rewrite te_dty_all in B. apply trunc_bit in B. rewrite N.bits_0 in B. discriminate. }
  destruct (tl_hit p c r) eqn:HT.
  { split; cbn [fst ct cr]; [|apply crep_any; auto]. intros w i k Hw Hi B. unfold tl_wtag in *.
    destruct (tl_clean_hit p c r) eqn:CH; auto. rewrite tset_in in *.
    destruct (N.eqb_spec w (tl_hw p c r)) as [EW|NW]; cbn [andb] in *; auto.
    destruct (N.eqb_spec i (a_idx p (cq_addr r))) as [EI|NI]; auto.
    rewrite te_tag_all, trunc_tag. rewrite te_dty_all in B. apply trunc_bit in B. apply set_dirty_bits in B.
    unfold tl_clean_hit in CH. apply andb_true_iff in CH. destruct CH as [_ CH]. apply N.eqb_eq in CH.
    destruct B as [B | B].
    - destruct (look_any c r) as [L1 L2]. rewrite HT in L2. rewrite <- (L2 eq_refl). rewrite EI. apply K; auto. apply a_idx_lt; auto.
    - exists r. repeat split; auto. }
  cbv zeta. split; cbn [fst ct cr]; [|apply crep_any; auto].
  assert (K1 : forall w i k, w < p_assoc p -> i < nblocks p -> N.testbit (te_dty p (tl_refill_tag p c r (ct c) w i)) k = true ->
     hwrite A (te_tag p (tl_refill_tag p c r (ct c) w i)) i k).
  { intros w i k Hw Hi B. unfold tl_refill_tag in *. rewrite tset_in in *.
    destruct (N.eqb_spec w (tl_way p c r)) as [EW|NW]; cbn [andb] in *; auto.
    destruct (N.eqb_spec i (a_idx p (cq_addr r))) as [EI|NI]; auto.
    unfold ent_refill in *. rewrite te_tag_all, trunc_tag. rewrite te_dty_all in B. apply trunc_bit in B.
    rewrite EI. apply tl_dirty_hw with c; auto. }
  intros w i k Hw Hi B. unfold tl_replay_tag in *. destruct (N.eqb_spec (cq_type r) T_WRITE) as [TW|TW]; auto.
  rewrite tset_in in *.
  destruct (N.eqb_spec w (tl_way p c r)) as [EW|NW]; cbn [andb] in *; auto.
  destruct (N.eqb_spec i (a_idx p (cq_addr r))) as [EI|NI]; auto.
  rewrite te_tag_all, trunc_tag. rewrite te_dty_all in B. apply trunc_bit in B. apply set_dirty_bits in B.
  destruct B as [B | B].
  - rewrite EI. apply tl_dirty_hw with c; auto.
  - exists r. repeat split; auto.
Qed.

Lemma F1 : forall T (P : T -> Prop) q, P q -> Forall P [q].
Proof. intros. constructor; auto. Qed.

(** memory requests *)
Definition qok (A : list creq) (q : mreq) : Prop :=
  (mq_type q = T_READ) \/
  (mq_type q = T_WRITE /\ exists t i, t < 2 ^ tagw p /\ i < nblocks p /\ mq_addr q = mk_addr p t i 0 /\
     forall k, N.testbit (mq_mask q) k = true -> k < dtyw p /\ hwrite A t i k) \/
  (exists r, In r A /\ T_AMO_ADD <= cq_type r /\ cq_type r < T_INV /\ mq_type q = cq_type r /\ mq_addr q = cq_addr r).
Lemma qok_more : forall A B q, qok A q -> qok (A ++ B) q.
Proof.
  intros A B q [H | [(T & t & i & H1 & H2 & H3 & H4) | (r & I & H)]].
  - left; auto.
  - right; left. split; auto. exists t, i. split; auto. split; auto. split; auto. intros k Hk. destruct (H4 k Hk).
    split; auto. apply hwrite_more; auto.
  - right; right. exists r. split; auto. apply in_or_app; auto.
Qed.
Lemma qok_match : forall A r e q, mreq_match r e q -> qok A e -> qok A q.
Proof.
  intros A r e q (E1 & E2 & E3 & E4 & E5 & _) H. unfold qok in *. rewrite <- E1, <- E2, <- E4. auto.
Qed.

Lemma dty_bit_lt : forall e k, N.testbit (te_dty p e) k = true -> k < dtyw p.
Proof.
  intros e k H. destruct (N.lt_ge_cases k (dtyw p)); auto. rewrite (testbit_high (dtyw p)) in H; auto; try discriminate.
  apply te_dty_lt; auto.
Qed.

Lemma line_addr_mk : forall t i, t < 2 ^ tagw p -> i < nblocks p -> line_addr p (mk_addr p t i 0) = mk_addr p t i 0.
Proof.
  intros t i T I. unfold line_addr. rewrite a_tag_mk, a_idx_mk; auto; apply idx_pow; auto.
Qed.

Lemma wb_any : forall A c w i opq, Kc A c -> w < p_assoc p -> i < nblocks p ->
  qok A (mkMReq T_WRITE opq (line_addr p (mk_addr p (te_tag p (ct c w i)) i 0)) 0 (te_dty p (ct c w i)) (cd c (indexer p i w))).
Proof.
  intros A c w i opq [K R] Hw Hi. right; left. cbn [mq_type mq_addr mq_mask]. split; auto.
  exists (te_tag p (ct c w i)), i. split; [apply te_tag_lt; auto|]. split; auto. split.
  - apply line_addr_mk; auto. apply te_tag_lt; auto.
  - intros k B. split; [apply dty_bit_lt with (ct c w i); auto | auto].
Qed.

Lemma qok_reqs : forall A c r, Kc A c -> ctx A r -> Forall (qok A) (tl_reqs p c r).
Proof.
  intros A c r KC (IR & AR). unfold tl_reqs.
  destruct (cq_type r =? T_INV); [constructor|].
  destruct (cq_type r =? T_FLUSH).
  { assert (H : forall n, N.of_nat n <= total_lines p -> Forall (qok A) (flush_reqs p c (cq_opq r) n)).
    { induction n as [|n IH]; intros L; cbn [flush_reqs]; [constructor|].
      apply Forall_app. split; [|apply IH; lia]. destruct (line_dirty _ _ _); [apply F1 | constructor].
      unfold flush_req. cbv zeta. apply wb_any; auto; [apply lway_lt | apply lidx_lt]; auto. lia. }
    apply H. rewrite N2Nat.id. lia. }
  assert (EV : Forall (qok A) (if tl_evict p c r then [evict_req p c r (tl_way p c r)] else [])).
  { destruct (tl_evict p c r); [apply F1 | constructor]. unfold evict_req, tl_ent, tl_row.
    apply wb_any; auto; [apply way_any; right; apply KC | apply a_idx_lt; auto]. }
  destruct (tl_isamo r) eqn:TA.
  { apply Forall_app. split; auto. apply F1. right; right. exists r. split; auto.
    destruct (amo_range _ TA). repeat split; auto.
    unfold amo_req. cbn [mq_addr]. unfold off_len. cbn [fst]. apply mk_addr_parts; auto. }
  destruct (tl_hit p c r); [constructor|]. apply Forall_app. split; auto. apply F1. left. reflexivity.
Qed.

(** *** Along a run of the transaction machine *)
Record KA (A : list creq) (S : list mreq) (a : ast) : Prop := mkKA {
  ka_c : Kc A (a_c a);
  ka_s : Forall (qok A) S;
  ka_u : forall u, a_cur a = Some u -> ctx A (u_req u) /\ Forall (qok A) (u_todo u) }.

Lemma KA_cyc : forall A S a i o a', KA A S a -> acyc p a i o a' -> (i_req_en i = true -> cq_addr (i_req i) < 2 ^ p_abw p) ->
  KA (A ++ if i_req_en i then [i_req i] else []) (S ++ opt_list (o_mreq o)) a'.
Proof.
  intros A S a i o a' H (a1 & a2 & a3 & R & S1 & D & AC) HA.
  assert (H1 : KA A S a1).
  { unfold o_recv in R. destruct (i_mresp_en i); [|subst; auto]. inversion R; subst. destruct H as [H1 H2 H3].
    constructor; auto. cbn [a_cur] in *. intros u E. inversion E; subst. cbn. apply (H3 _ eq_refl). }
  assert (H2 : KA A (S ++ opt_list (o_mreq o)) a2).
  { unfold o_send in S1. destruct (o_mreq o) as [q|], (o_resp o); try contradiction; cbn [opt_list]; rewrite ?app_nil_r.
    - inversion S1; subst. destruct H1 as [K1 K2 K3]. destruct (K3 _ eq_refl) as [C1 C2]. cbn [u_todo u_req] in *.
      inversion C2; subst. constructor; auto.
      + apply Forall_app. split; auto. apply F1. eapply qok_match; eauto.
      + cbn [a_cur]. intros u E. inversion E; subst. cbn. auto.
    - inversion S1; subst. destruct H1 as [K1 K2 K3]. constructor; auto.
    - subst; auto. }
  assert (H3 : KA A (S ++ opt_list (o_mreq o)) a3).
  { destruct D as [D | ->]; auto. inversion D; subst. destruct H2 as [K1 K2 K3]. destruct (K3 _ eq_refl) as [C1 _].
    cbn [u_req a_c] in *. constructor; cbn [a_c a_cur]; auto; [|discriminate]. apply Kc_fin; auto. }
  unfold o_acc in AC. destruct (i_req_en i).
  - inversion AC; subst. destruct H3 as [K1 K2 K3]. cbn [a_c] in *.
    assert (CT : ctx (A ++ [i_req i]) (i_req i)) by (split; [apply in_or_app; right; left; auto | auto]).
    constructor; cbn [a_c a_cur].
    + apply Kc_more; auto.
    + eapply Forall_impl; [|eauto]. intros; apply qok_more; auto.
    + intros u E. inversion E; subst. cbn [u_req u_todo]. split; auto. apply qok_reqs; auto. apply Kc_more; auto.
  - rewrite app_nil_r. subst; auto.
Qed.

Lemma KA_runs : forall a tr a', aruns p a tr a' -> forall A S, KA A S a ->
  Forall (fun io => i_req_en (fst io) = true -> cq_addr (i_req (fst io)) < 2 ^ p_abw p) tr ->
  KA (A ++ accepted tr) (S ++ memreqs tr) a'.
Proof.
  induction 1 as [a | a i o a1 tr a2 AC AR IH]; intros A S H F.
  - unfold accepted, memreqs. cbn. rewrite !app_nil_r. auto.
  - inversion F; subst. unfold accepted, memreqs in *. cbn [flat_map fst snd]. rewrite !app_assoc.
    apply IH; auto. eapply KA_cyc; eauto.
Qed.

Theorem any_qok : forall s0 is m0 m rq rs, any_run p s0 is m0 m rq rs ->
  Forall (qok (accepted (trace_of p s0 is))) (memreqs (trace_of p s0 is)).
Proof.
  intros s0 is m0 m rq rs (R & HS & MT).
  assert (LG : legal_run p s0 [] is) by (eapply any_legal; eauto; exists []; split; auto).
  destruct (refinement p W s0 is R LG) as (c0 & a' & (CS1 & CS2) & AR & _).
  pose proof (KA_runs _ _ _ AR [] []) as H. cbn [app] in H. apply H.
  - constructor; cbn [a_c a_cur]; auto; [|discriminate]. split.
    + intros w i k Hw Hi B. destruct (CS1 w i Hw Hi) as [_ E]. rewrite E, N.bits_0 in B. discriminate.
    + intros i. rewrite CS2. apply assoc_pos.
  - unfold handshake_ok, trace_of in HS. eapply Forall_impl; [|exact HS]. cbn beta. intros io X E. apply X; auto.
Qed.

(** *** In terms of bytes *)
Lemma lb : p_clw p / 8 = 2 ^ offw p.
Proof. apply (clw_bytes p W). Qed.
Lemma div4_off : forall o, word_of p o = trunc (offw p - 2) (o / 4).
Proof. intros. unfold word_of, slice. rewrite N.shiftr_div_pow2. reflexivity. Qed.
Lemma word_small : forall o, o < 2 ^ offw p -> word_of p o = o / 4.
Proof.
  intros o O. rewrite div4_off. apply trunc_small. rewrite <- (dtyw_off p W).
  apply N.div_lt_upper_bound; [lia|]. rewrite <- (off_words p W). auto.
Qed.
Lemma lb4 : p_clw p / 8 / 4 = dtyw p.
Proof. rewrite lb, (off_words p W), N.mul_comm, N.div_mul; lia. Qed.

Lemma hwrite_bytes : forall A t i k j, t < 2 ^ tagw p -> i < nblocks p -> k < dtyw p -> j < 4 -> hwrite A t i k ->
  exists r, In r A /\ first_word p r (mk_addr p t i 0 + 4 * k + j).
Proof.
  intros A t i k j T I K Jj (r & IR & TY & AR & ET & EI & KK). exists r. split; auto.
  set (x := mk_addr p t i 0 + 4 * k + j).
  pose proof (addr_split p W _ AR) as AS. rewrite ET, EI in AS.
  assert (O : 4 * k + j < 2 ^ offw p) by (rewrite (off_words p W); lia).
  pose proof (a_off_lt p (cq_addr r)) as AO.
  assert (LA : exists b, mk_addr p t i 0 = 2 ^ offw p * b).
  { exists (mk_addr p t i 0 / 2 ^ offw p). pose proof (line_addr_al p W t i) as LA.
    rewrite lb in LA. pose proof (N.div_mod' (mk_addr p t i 0) (2 ^ offw p)). lia. }
  destruct LA as (b & LA). pose proof (pow2_pos (offw p)) as PP.
  assert (X1 : x / 2 ^ offw p = b) by (symmetry; apply N.div_unique with (4 * k + j); unfold x; lia).
  assert (X2 : x mod 2 ^ offw p = 4 * k + j) by (symmetry; apply N.mod_unique with b; unfold x; lia).
  assert (Y1 : cq_addr r / 2 ^ offw p = b) by (symmetry; apply N.div_unique with (a_off p (cq_addr r)); lia).
  assert (Y2 : cq_addr r mod 2 ^ offw p = a_off p (cq_addr r)) by (symmetry; apply a_off_mod).
  assert (Q : (4 * k + j) / 4 = k) by (symmetry; apply N.div_unique with j; lia).
  unfold first_word. cbv zeta. rewrite lb4, lb, X1, Y1, X2, Y2, Q. split; auto. split; auto.
  destruct KK as [KK | [L3 KK]]; [left | right; split; auto]; rewrite KK.
  - apply word_small; auto.
  - unfold word_of_succ. rewrite trunc_mod, <- (dtyw_off p W), word_small; auto.
Qed.

Theorem any_mask : forall s0 is m0 m rq rs, any_run p s0 is m0 m rq rs ->
  forall q k, In q (memreqs (trace_of p s0 is)) -> mq_type q = T_WRITE -> N.testbit (mq_mask q) k = true ->
  exists r, In r (accepted (trace_of p s0 is)) /\ first_word p r (mq_addr q + 4 * k).
Proof.
  intros s0 is m0 m rq rs R q k IQ TQ B. pose proof (any_qok _ _ _ _ _ _ R) as F.
  rewrite Forall_forall in F. destruct (F q IQ) as [H | [(_ & t & i & H1 & H2 & H3 & H4) | (r & _ & H1 & _ & H2 & _)]].
  - rewrite H in TQ. discriminate.
  - destruct (H4 k B) as [H5 H6]. rewrite H3. replace (mk_addr p t i 0 + 4 * k) with (mk_addr p t i 0 + 4 * k + 0) by lia.
    apply hwrite_bytes; auto. lia.
  - rewrite TQ in H2. rewrite <- H2 in H1. discriminate H1 || (exfalso; revert H1; unfold T_AMO_ADD, T_WRITE; lia).
Qed.

Lemma exec_bytes : forall A m q x, qok A q ->
  (forall r, In r A -> ~ first_word p r x /\ ~ amo_word r x) -> fst (mem_exec p m q) x = m x.
Proof.
  intros A m q x H N. unfold mem_exec.
  destruct (N.eqb_spec (mq_type q) T_READ) as [TR|TR]; auto.
  destruct H as [H | [(TW & t & i & H1 & H2 & H3 & H4) | (r & IR & H1 & H2 & H3 & H5)]]; [congruence| |].
  - rewrite TW, N.eqb_refl. cbn [fst]. rewrite wr_masked_spec, H3.
    destruct (N.leb_spec (mk_addr p t i 0) x) as [L1|L1]; cbn [andb]; auto.
    destruct (N.ltb_spec x (mk_addr p t i 0 + 4 * (p_clw p / 32))) as [L2|L2]; cbn [andb]; auto.
    set (a := mk_addr p t i 0) in *.
    destruct (N.testbit (mq_mask q) ((x - a) / 4)) eqn:B; auto. exfalso.
    destruct (H4 _ B) as [H5 H6]. pose proof (N.div_mod' (x - a) 4) as DM. pose proof (N.mod_lt (x - a) 4 ltac:(lia)) as ML.
    destruct (hwrite_bytes A t i ((x - a) / 4) ((x - a) mod 4) H1 H2 H5 ML H6) as (r & IR & FW). fold a in FW.
    replace (a + 4 * ((x - a) / 4) + (x - a) mod 4) with x in FW by lia.
    apply (proj1 (N r IR)). auto.
  - assert (E : (mq_type q =? T_WRITE) = false).
    { rewrite H3. apply N.eqb_neq. unfold T_AMO_ADD, T_WRITE in *. lia. }
    rewrite E. cbn [fst]. unfold wr_bytes. change (N.of_nat 4) with 4.
    destruct (N.leb_spec (mq_addr q) x) as [L1|L1]; cbn [andb]; auto.
    destruct (N.ltb_spec x (mq_addr q + 4)) as [L2|L2]; auto. exfalso.
    apply (proj2 (N r IR)). rewrite H5 in *. repeat split; auto.
Qed.

Theorem any_mem : forall s0 is m0 m rq rs, any_run p s0 is m0 m rq rs ->
  forall x, (forall r, In r (accepted (trace_of p s0 is)) -> ~ first_word p r x /\ ~ amo_word r x) -> m x = m0 x.
Proof.
  intros s0 is m0 m rq rs R x N. pose proof (any_qok _ _ _ _ _ _ R) as F. destruct R as (_ & _ & MT).
  destruct (mem_trace_run _ _ _ _ _ _ _ _ MT) as (ex & E1 & E2 & _). cbn [app] in E1. subst m.
  rewrite E1 in F. apply Forall_app in F. destruct F as [F _]. clear E1 MT. revert m0.
  induction F as [|q ex Q F IH]; intros m0; auto. cbn [mem_run].
  destruct (mem_exec p m0 q) as [m1 y] eqn:EX. specialize (IH m1). destruct (mem_run p m1 ex) as [m2 ys]. cbn [fst] in *.
  rewrite IH. pose proof (exec_bytes _ m0 q x Q N) as EB. rewrite EX in EB. auto.
Qed.
End W.

(** *** Concrete runs *)
Definition any_reqb (p : params) (r : creq) : bool :=
  (cq_addr r <? 2 ^ p_abw p) &&
  ((cq_type r =? T_READ) || (cq_type r =? T_WRITE) || is_amo (cq_type r) || (cq_type r =? T_INV) || (cq_type r =? T_FLUSH)).
Lemma run_any : forall p prog cs, forallb (any_reqb p) prog = true ->
  any_run p (s0_a p) (is_a p prog cs) mem_a (fst (end_a p prog cs)) [] (snd (end_a p prog cs)).
Proof.
  intros p prog cs H. unfold any_run, s0_a, is_a, end_a. split; [apply mk_reset_ok|].
  set (P := fun r => any_reqb p r = true).
  assert (F : Forall P prog) by (apply Forall_forall; intros r I; rewrite forallb_forall in H; apply H; auto).
  destruct (drive_gen P p cs (mk_reset p junk_t junk_d) mem_a [] prog F) as [D1 D2]. split; auto.
  eapply Forall_impl; [|exact D1]. cbn beta. intros io X E. destruct (X E) as [X1 X2]. unfold P, any_reqb, is_amo in X2.
  repeat rewrite ?andb_true_iff, ?orb_true_iff, ?N.eqb_eq, ?N.ltb_lt, ?N.leb_le in X2. cbv zeta. tauto.
Qed.
