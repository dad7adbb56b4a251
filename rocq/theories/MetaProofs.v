(** Effect of one request on tags, valid and dirty bits and replacement state. *)
From Coq Require Import NArith List Bool Lia.
From Verif Require Import Bits Params Msg Units Tl Mem Spec ParamsProofs UnitProofs ViewDefs ViewOps ViewProofs Traffic.
Import ListNotations.
Open Scope N_scope.

Section M.
Variable p : params.
Hypothesis W : wf_params p.

Lemma rw_cases : forall r, wf_req p r -> rw_req r = true -> wf_read p r \/ wf_write p r.
Proof.
  intros r (_ & _ & H) T. unfold rw_req in T. destruct H as [H | [H | [H | [H | H]]]]; auto; exfalso.
  - destruct H as ((L1 & L2) & _). unfold T_AMO_ADD, T_AMO_XOR, T_READ, T_WRITE in *.
    destruct (N.eqb_spec (cq_type r) 0), (N.eqb_spec (cq_type r) 1); try lia; discriminate.
  - rewrite H in T. discriminate.
  - rewrite H in T. discriminate.
Qed.
Lemma not_rw : forall r, wf_req p r -> rw_req r = false -> wf_amo p r \/ cq_type r = T_INV \/ cq_type r = T_FLUSH.
Proof.
  intros r (_ & _ & H) T. unfold rw_req in T. destruct H as [H | [H | H]]; auto; exfalso; destruct H as (E & _); rewrite E in T; discriminate.
Qed.
Lemma amo_type : forall r, wf_amo p r -> rw_req r = false /\ is_amo (cq_type r) = true /\ (cq_type r =? T_INV) = false /\
  (cq_type r =? T_FLUSH) = false /\ (cq_type r =? T_READ) = false /\ (cq_type r =? T_WRITE) = false.
Proof.
  intros r ((L1 & L2) & _). unfold rw_req, is_amo, T_INV, T_FLUSH, T_READ, T_WRITE, T_AMO_ADD, T_AMO_XOR in *.
  destruct (N.leb_spec 3 (cq_type r)), (N.ltb_spec (cq_type r) 14), (N.eqb_spec (cq_type r) 14), (N.eqb_spec (cq_type r) 15),
    (N.eqb_spec (cq_type r) 0), (N.eqb_spec (cq_type r) 1); try lia; auto.
Qed.
Lemma rw_type : forall r, rw_req r = true -> is_amo (cq_type r) = false /\ (cq_type r =? T_INV) = false /\ (cq_type r =? T_FLUSH) = false.
Proof.
  intros r H. unfold rw_req in H. apply orb_true_iff in H. rewrite !N.eqb_eq in H. destruct H as [-> | ->]; auto.
Qed.

(** *** exact set of words marked by a WRITE *)
Lemma set_dirty_exact : forall r d k, wf_req p r -> wf_write p r ->
  N.testbit (set_dirty p d (a_off p (cq_addr r)) (cq_len r)) k =
  N.testbit d k || ((a_off p (cq_addr r) / 4 <=? k) && (k <=? (a_off p (cq_addr r) + req_bytes p r - 1) / 4)).
Proof.
  intros r d k WF WR. pose proof WR as (T & AL & _). pose proof (write_size p W r WF WR) as S.
  assert (P : exists k, req_bytes p r = 2 ^ k /\ k <= offw p).
  { pose proof (offw_ge3 p W).
    destruct S as [(_ & _ & ->) | (_ & _ & [-> | [-> | ->]])];
    [exists 3|exists 0|exists 1|exists 2]; split; auto; lia. }
  destruct P as (e & NK & K).
  destruct (off_aligned p (cq_addr r) e K) as [OA OF]; [rewrite <- NK; auto|]. rewrite <- NK in *.
  pose proof (a_off_lt p (cq_addr r)) as OL.
  assert (WD : forall j, j < 2 ^ offw p -> word_of p j = j / 4) by (intros; apply word_of_div; auto).
  set (off := a_off p (cq_addr r)) in *. set (n := req_bytes p r) in *. clearbody off n.
  unfold set_dirty. destruct S as [(L3 & D & N8) | (L3 & SZ & N4)].
  - rewrite L3. cbn [N.eqb Pos.eqb]. rewrite !N.setbit_eqb. unfold word_of_succ. rewrite WD by auto. rewrite N8 in *.
    assert (exists q, off = 8 * q) as (q & Q) by (exists (off / 8); pose proof (N.div_mod' off 8); lia).
    assert (E1 : off / 4 = 2 * q) by (rewrite Q; symmetry; apply N.div_unique with 0; lia).
    assert (E2 : (off + 8 - 1) / 4 = 2 * q + 1) by (rewrite Q; symmetry; apply N.div_unique with 3; lia).
    rewrite E1, E2. rewrite trunc_small.
    + destruct (N.eqb_spec (2 * q + 1) k), (N.eqb_spec (2 * q) k), (N.leb_spec (2 * q) k), (N.leb_spec k (2 * q + 1)); try lia;
        cbn [orb andb]; rewrite ?orb_true_r, ?orb_false_r; auto.
    + rewrite <- (dtyw_off p W). rewrite (off_words p W) in OF. lia.
  - destruct (N.eqb_spec (cq_len r) 3); [congruence|]. rewrite N.setbit_eqb, WD by auto.
    assert (E2 : (off + n - 1) / 4 = off / 4).
    { pose proof (N.div_mod' off 4) as DM. pose proof (N.mod_lt off 4 ltac:(lia)) as ML.
      symmetry. apply N.div_unique with (off mod 4 + n - 1).
      - destruct N4 as [E | [E | E]]; rewrite E in *.
        + lia.
        + pose proof (N.div_mod' off 2) as DM2. rewrite OA in DM2.
          set (q := off / 4) in *. set (z := off mod 4) in *. set (q2 := off / 2) in *. clearbody q z q2.
          assert (z = 0 \/ z = 2) by lia. lia.
        + rewrite OA. lia.
      - set (q := off / 4) in *. set (z := off mod 4) in *. clearbody q z. destruct N4 as [-> | [-> | ->]]; lia. }
    rewrite E2. set (q := off / 4) in *. clearbody q.
    destruct (N.eqb_spec q k), (N.leb_spec q k), (N.leb_spec k q); try lia; cbn [orb andb]; rewrite ?orb_true_r, ?orb_false_r; auto.
Qed.

Lemma word_dirty_set : forall r e, wf_req p r -> wf_write p r ->
  word_dirty p e (a_off p (cq_addr r)) (cq_len r) = true ->
  set_dirty p (te_dty p e) (a_off p (cq_addr r)) (cq_len r) = te_dty p e.
Proof.
  intros r e WF WR D. unfold word_dirty, set_dirty in *. destruct (cq_len r =? 3).
  - apply andb_prop in D. destruct D as [D1 D2]. apply N.bits_inj; intro k. rewrite !N.setbit_eqb.
    destruct (N.eqb_spec (word_of p (a_off p (cq_addr r))) k) as [E|E]; [subst; rewrite D1; rewrite orb_true_r; auto|].
    destruct (N.eqb_spec (word_of_succ p (a_off p (cq_addr r))) k) as [E'|E']; [subst; rewrite D2; auto | auto].
  - apply N.bits_inj; intro k. rewrite !N.setbit_eqb.
    destruct (N.eqb_spec (word_of p (a_off p (cq_addr r))) k) as [E|E]; [subst; rewrite D; auto | auto].
Qed.

(** *** READ and WRITE *)
Lemma meta_way : forall c r, uniq p c -> (forall i, i < nblocks p -> cr c i < p_assoc p) -> tl_isamo r = false ->
  tl_way p c r < p_assoc p /\ tl_dirty p c r < 2 ^ dtyw p.
Proof.
  intros c r U R NA. pose proof (look_spec p W c r U) as LK. unfold tl_dirty, tl_way. rewrite NA.
  split.
  - destruct (tl_hit p c r), (tl_inval p c r); inversion LK; auto; apply R, a_idx_lt; auto.
  - destruct (tl_evict p c r); [apply pow2_pos | apply te_dty_lt].
Qed.

Lemma meta_rw : forall c r d, wf_req p r -> rw_req r = true -> uniq p c ->
  (forall i, i < nblocks p -> cr c i < p_assoc p) ->
  let c' := fst (tl_fin p c r d) in
  let i0 := a_idx p (cq_addr r) in let w0 := tl_way p c r in
  let D := if tl_hit p c r then te_dty p (ct c w0 i0) else tl_dirty p c r in
  (forall w i, w <> w0 \/ i <> i0 -> ct c' w i = ct c w i) /\
  lval p c' w0 i0 = true /\ ltag p c' w0 i0 = a_tag p (cq_addr r) /\
  te_dty p (ct c' w0 i0) = (if cq_type r =? T_WRITE then set_dirty p D (a_off p (cq_addr r)) (cq_len r) else D) /\
  cr c' = upd (cr c) i0 (tl_rep' p c r) /\ cr_test (snd (tl_fin p c r d)) = b2n (tl_hit p c r).
Proof.
  intros c r d WF T U R c' i0 w0 D. destruct (rw_type r T) as (NA & NI & NF).
  assert (NA' : tl_isamo r = false) by exact NA.
  destruct (meta_way c r U R NA') as [Hw DL]. fold w0 in Hw.
  assert (FN : tl_fin p c r d = if tl_hit p c r then
    (mkC (tl_wtag p c r (ct c)) (tl_wdat p r (cd c) (tl_hw p c r) (tl_data p r)) (tl_crep p c r),
     tl_resp r 1 (tl_read p r (cd c (tl_row p r (tl_hw p c r)))))
  else
    let D1 := tl_refill_dat p c r (cd c) d in
    (mkC (tl_replay_tag p c r (tl_refill_tag p c r (ct c)))
         (tl_wdat p r D1 (tl_way p c r) (tl_data_replay p r)) (tl_crep p c r),
     tl_resp r 0 (tl_read p r (D1 (tl_row p r (tl_way p c r)))))).
  { unfold tl_fin. rewrite NI, NF, NA'. auto. }
  assert (CRP : tl_crep p c r = upd (cr c) i0 (tl_rep' p c r)).
  { unfold tl_crep, tl_rep_en. rewrite NA'. auto. }
  pose proof (look_spec p W c r U) as LK. fold i0 in LK.
  assert (TAG : trunc (tagw p) (a_tag p (cq_addr r)) = a_tag p (cq_addr r)) by (apply trunc_small, a_tag_lt).
  unfold c', D. rewrite FN. clear c' D FN.
  destruct (tl_hit p c r) eqn:HI; cbn [fst snd ct cr cr_test tl_resp].
  - assert (W0 : w0 = tl_hw p c r) by (unfold w0, tl_way; rewrite NA', HI; auto).
    inversion LK as [w1 H1 H2 H3 H4 H5 | |]. clear LK.
    unfold tl_wtag, tl_clean_hit. rewrite <- H5, <- W0. cbn [negb andb]. fold i0. unfold tl_ent. fold i0.
    rewrite <- W0 in H2, H3.
    assert (E : word_dirty p (ct c w0 i0) (a_off p (cq_addr r)) (cq_len r) = true -> cq_type r = T_WRITE ->
       set_dirty p (te_dty p (ct c w0 i0)) (a_off p (cq_addr r)) (cq_len r) = te_dty p (ct c w0 i0)).
    { intros WD TW. apply word_dirty_set; auto. destruct (rw_cases r WF T) as [(X & _)|X]; auto. rewrite X in TW. discriminate. }
    destruct (N.eqb_spec (cq_type r) T_WRITE) as [TW|TW].
    + destruct (word_dirty p (ct c w0 i0) (a_off p (cq_addr r)) (cq_len r)) eqn:WD; cbn [negb andb].
      * split; auto. split; auto. split; auto. split; [symmetry; apply E; auto|]. split; auto.
      * split; [intros; apply tset_other; auto|]. unfold lval, ltag. cbn [ct]. rewrite tset_same, te_val_all, te_tag_all, te_dty_all, TAG.
        split; auto. split; auto. split; [|split; auto]. apply trunc_small, set_dirty_lt; auto. apply te_dty_lt.
    + rewrite andb_false_r. split; auto.
  - unfold tl_replay_tag, tl_refill_tag. fold w0. fold i0.
    destruct (N.eqb_spec (cq_type r) T_WRITE) as [TW|TW].
    + split; [intros; rewrite !tset_other by auto; auto|].
      unfold lval, ltag. cbn [ct]. rewrite !tset_same, te_val_all, te_tag_all, te_dty_all, TAG.
      split; auto. split; auto. split; [|split; auto]. apply trunc_small, set_dirty_lt; auto.
    + split; [intros; rewrite !tset_other by auto; auto|].
      unfold lval, ltag, ent_refill. cbn [ct]. rewrite !tset_same. unfold ent_refill. rewrite te_val_all, te_tag_all, te_dty_all, TAG.
      split; auto. split; auto. split; [|split; auto]. apply trunc_small; auto.
Qed.

(** *** AMO *)
Lemma meta_amo : forall c r d, wf_amo p r ->
  let c' := fst (tl_fin p c r d) in
  let i0 := a_idx p (cq_addr r) in let w0 := tl_hw p c r in
  (forall w i, w <> w0 \/ i <> i0 -> ct c' w i = ct c w i) /\
  (if tl_hit p c r || tl_inval p c r
   then lval p c' w0 i0 = false /\ te_dty p (ct c' w0 i0) = 0 /\ cr c' = upd (cr c) i0 (tl_rep' p c r)
   else c' = mkC (ct c) (cd c) (cr c)) /\
  cr_test (snd (tl_fin p c r d)) = 0.
Proof.
  intros c r d WA c' i0 w0. destruct (amo_type r WA) as (NR & IA & NI & NF & _).
  assert (FN : tl_fin p c r d = (mkC (tl_amo_tag p c r (ct c)) (cd c) (tl_crep p c r), tl_resp r 0 (slice d 0 32))).
  { unfold tl_fin. unfold tl_isamo. rewrite NI, NF, IA. auto. }
  unfold c'. rewrite FN. cbn [fst snd ct cr]. clear c' FN. unfold tl_amo_tag, tl_crep, tl_rep_en, tl_isamo. rewrite IA.
  fold w0. fold i0. destruct (tl_hit p c r || tl_inval p c r) eqn:HI.
  - split; [intros; apply tset_other; auto|]. split; [|auto]. unfold lval. cbn [ct]. rewrite tset_same, te_val_all, te_dty_all.
    split; auto.
  - split; auto.
Qed.

(** *** Line numbers *)
Lemma line_bytes_pow : line_bytes p = 2 ^ offw p.
Proof. apply (clw_bytes p W). Qed.
Lemma line_eq : forall a, a < 2 ^ p_abw p -> line_of p a = a_tag p a * nblocks p + a_idx p a.
Proof.
  intros a A. unfold line_of. rewrite line_bytes_pow, (nblocks_pow p W).
  unfold a_tag, a_idx, slice. rewrite !N.shiftr_div_pow2, !trunc_mod.
  replace (offw p + idxw p - offw p) with (idxw p) by lia.
  replace (offw p + idxw p + tagw p - (offw p + idxw p)) with (tagw p) by lia.
  rewrite (N.mod_small (a / 2 ^ (offw p + idxw p))).
  - rewrite N.pow_add_r, <- N.div_div by (apply N.pow_nonzero; lia).
    rewrite (N.div_mod' (a / 2 ^ offw p) (2 ^ idxw p)) at 1. rewrite N.mul_comm. auto.
  - apply N.div_lt_upper_bound; [apply N.pow_nonzero; lia|]. rewrite <- N.pow_add_r. rewrite (abw_sum p W) in A. auto.
Qed.
Lemma nb_pos : 0 < nblocks p.
Proof. pose proof (nblocks_ge2 p W). lia. Qed.
Lemma line_set : forall a, a < 2 ^ p_abw p -> line_of p a mod nblocks p = a_idx p a.
Proof.
  intros a A. rewrite line_eq by auto. pose proof nb_pos. rewrite N.add_comm, N.mod_add by lia. apply N.mod_small, a_idx_lt; auto.
Qed.
Lemma lno_inj : forall t t' i, t * nblocks p + i = t' * nblocks p + i -> t = t'.
Proof. intros t t' i H. pose proof nb_pos. nia. Qed.
Lemma lno_inj2 : forall t t' i i', i < nblocks p -> i' < nblocks p -> t * nblocks p + i = t' * nblocks p + i' -> t = t' /\ i = i'.
Proof. intros t t' i i' H H' E. pose proof nb_pos. assert (t = t') by nia. subst. split; auto. lia. Qed.

(** *** LRU *)
Definition mru (c : cst) (i : N) : list N := if p_assoc p =? 2 then [not1 (cr c i); cr c i] else [0].
Definition lno (c : cst) (i w : N) : N := ltag p c w i * nblocks p + i.
Definition lruinv (L : N -> list N) (c : cst) : Prop := forall i, i < nblocks p ->
  L i = map (lno c i) (filter (fun w => lval p c w i) (mru c i)) /\
  (p_assoc p = 2 -> lval p c (cr c i) i = true -> lval p c (not1 (cr c i)) i = true).

Lemma lru_same : forall L L' c c' i, (forall w, w < p_assoc p -> ct c' w i = ct c w i) -> cr c' i = cr c i -> cr c i < p_assoc p ->
  L' i = L i ->
  (L i = map (lno c i) (filter (fun w => lval p c w i) (mru c i)) /\
  (p_assoc p = 2 -> lval p c (cr c i) i = true -> lval p c (not1 (cr c i)) i = true)) ->
  L' i = map (lno c' i) (filter (fun w => lval p c' w i) (mru c' i)) /\
  (p_assoc p = 2 -> lval p c' (cr c' i) i = true -> lval p c' (not1 (cr c' i)) i = true).
Proof.
  intros L L' c c' i E R RL EL (H1 & H2). rewrite EL, H1. unfold mru, lno, ltag, lval in *. rewrite R.
  assert (N1 : p_assoc p = 2 -> not1 (cr c i) < p_assoc p) by (intros A; rewrite A; unfold not1; lia).
  split.
  - destruct (wf_assoc p W) as [A | A]; rewrite A in *.
    + change (1 =? 2) with false. cbn [filter map]. rewrite (E 0) by lia. destruct (te_val p (ct c 0 i)); cbn [map]; auto. rewrite (E 0) by lia. auto.
    + change (2 =? 2) with true. cbn [filter]. rewrite !E by (auto; lia).
      destruct (te_val p (ct c (not1 (cr c i)) i)), (te_val p (ct c (cr c i) i)); cbn [map]; rewrite ?E by (auto; lia); auto.
  - intros A. rewrite !E by (auto; lia). auto.
Qed.

Lemma in_lru : forall L c r, lruinv L c -> uniq p c -> (forall i, i < nblocks p -> cr c i < p_assoc p) -> cq_addr r < 2 ^ p_abw p ->
  (In (line_of p (cq_addr r)) (L (a_idx p (cq_addr r))) <-> tl_hit p c r = true).
Proof.
  intros L c r LI U R A. pose proof (look_spec p W c r U) as LK.
  set (i := a_idx p (cq_addr r)) in *. assert (Hi : i < nblocks p) by (apply a_idx_lt; auto).
  destruct (LI i Hi) as (-> & _). rewrite in_map_iff.
  assert (X : (exists w, w < p_assoc p /\ lval p c w i = true /\ ltag p c w i = a_tag p (cq_addr r)) <-> tl_hit p c r = true).
  { split.
    - intros (w & Hw & V & T). destruct (tl_hit p c r) eqn:HI; auto. exfalso.
      inversion LK as [|w1 L1 L2 L3 L4 L5 L6|L1 L2].
      + assert (w = tl_hw p c r); [|subst w; congruence]. apply (U w (tl_hw p c r) i); auto using lval_present; try congruence.
        unfold present. apply N.eqb_neq in L3. rewrite L3. apply orb_true_r.
      + apply (L1 w); auto using lval_present.
    - intros HI. rewrite HI in LK. inversion LK as [w H1 H2 H3| |]. exists (tl_hw p c r). auto. }
  rewrite <- X. unfold lno. rewrite (line_eq (cq_addr r)) by auto. fold i. split.
  - intros (w & E & IN). apply lno_inj in E. apply filter_In in IN. destruct IN as [IN V]. exists w. split; auto.
    unfold mru in IN. specialize (R i Hi). destruct (wf_assoc p W) as [AA | AA]; rewrite AA in *.
    + change (1 =? 2) with false in IN. destruct IN as [<- | []]. lia.
    + change (2 =? 2) with true in IN. unfold not1 in IN. destruct IN as [<- | [<- | []]]; lia.
  - intros (w & Hw & V & T). exists w. rewrite T. split; auto. apply filter_In. split; auto.
    unfold mru. specialize (R i Hi). destruct (wf_assoc p W) as [AA | AA]; rewrite AA in *.
    + change (1 =? 2) with false. left. lia.
    + change (2 =? 2) with true. unfold not1. cbn [In]. lia.
Qed.

(** replacement bit after a READ or WRITE: the other way *)
Lemma rep_rw : forall c r, p_assoc p = 2 -> tl_isamo r = false -> tl_rep' p c r = not1 (tl_way p c r).
Proof.
  intros c r A NA. unfold tl_rep', tl_way, repl_policy. rewrite NA, A. change (2 =? 2) with true. cbn iota.
  destruct (tl_hit p c r), (tl_inval p c r); auto.
Qed.

Lemma upd_same : forall (f : N -> N) k v, upd f k v k = v.
Proof. intros. unfold upd. rewrite N.eqb_refl. auto. Qed.
Lemma upd_other : forall (f : N -> N) k v j, j <> k -> upd f k v j = f j.
Proof. intros f k v j H. unfold upd. destruct (N.eqb_spec j k); auto. congruence. Qed.

Lemma lru_rw : forall L c r d, lruinv L c -> uniq p c -> (forall i, i < nblocks p -> cr c i < p_assoc p) -> wf_req p r ->
  rw_req r = true ->
  lruinv (fst (lru_step p L r)) (fst (tl_fin p c r d)) /\ snd (lru_step p L r) = cr_test (snd (tl_fin p c r d)).
Proof.
  intros L c r d LI U R WF T. pose proof WF as (HA & _).
  destruct (meta_rw c r d WF T U R) as (M1 & M2 & M3 & _ & M5 & M6).
  destruct (rw_type r T) as (NA & _). assert (NA' : tl_isamo r = false) by exact NA.
  destruct (meta_way c r U R NA') as [Hw _].
  pose proof (in_lru L c r LI U R HA) as IL.
  unfold lru_step. rewrite T. cbn [fst snd]. rewrite (line_set (cq_addr r)) by auto.
  set (i0 := a_idx p (cq_addr r)) in *. set (l := line_of p (cq_addr r)) in *. set (w0 := tl_way p c r) in *.
  set (c' := fst (tl_fin p c r d)) in *.
  assert (Hi0 : i0 < nblocks p) by (apply a_idx_lt; auto).
  split.
  2:{ rewrite M6. destruct (in_dec N.eq_dec l (L i0)) as [I|I]; destruct (tl_hit p c r); auto; exfalso.
      - apply IL in I. discriminate.
      - apply I, IL; auto. }
  assert (LC : l = ltag p c' w0 i0 * nblocks p + i0) by (rewrite M3; apply line_eq; auto).
  intros i Hi. destruct (N.eqb_spec i i0) as [E|E].
  - subst i. specialize (LI i0 Hi0). destruct LI as (EL & VI). specialize (R i0 Hi0).
    assert (NW : forall w, w < p_assoc p -> lval p c w i0 = true -> w <> w0 -> lno c i0 w <> l).
    { intros w Lw V N E. unfold lno in E. rewrite LC, M3 in E. apply lno_inj in E.
      assert (H : tl_hit p c r = true -> tl_hw p c r = w0) by (intros H; unfold w0, tl_way; rewrite NA', H; auto).
      pose proof (look_spec p W c r U) as LK. fold i0 in LK.
      inversion LK as [w1 L1 L2 L3 L4 L5 L6|w1 L1 L2 L3 L4 L5 L6|L1 L2 L3].
      - apply N. rewrite <- H by auto. apply (U w (tl_hw p c r) i0); auto using lval_present; congruence.
      - apply N. replace w0 with (tl_hw p c r) by (unfold w0, tl_way; rewrite NA', <- L5, <- L6; auto).
        apply (U w (tl_hw p c r) i0); auto using lval_present; try congruence.
        unfold present. apply N.eqb_neq in L3. rewrite L3. apply orb_true_r.
      - apply (L1 w); auto using lval_present. }
    unfold mru in *. rewrite M5, upd_same.
    destruct (wf_assoc p W) as [A | A]; rewrite A in *.
    + change (1 =? 2) with false in *. assert (W0 : w0 = 0) by lia. rewrite W0 in *.
      cbn [filter map]. rewrite M2. cbn [map]. change (N.to_nat 1) with 1%nat. cbn [firstn].
      split; [f_equal; exact LC | discriminate].
    + change (2 =? 2) with true in *. rewrite (rep_rw c r A NA'). fold w0.
      assert (NN : not1 (not1 w0) = w0) by (unfold not1; lia). rewrite NN.
      cbn [filter]. rewrite M2.
      assert (EO : ct c' (not1 w0) i0 = ct c (not1 w0) i0) by (apply M1; left; unfold not1; lia).
      assert (VO : lval p c' (not1 w0) i0 = lval p c (not1 w0) i0) by (unfold lval; rewrite EO; auto).
      assert (TO : lno c' i0 (not1 w0) = lno c i0 (not1 w0)) by (unfold lno, ltag; rewrite EO; auto).
      rewrite VO. split; [|auto]. change (N.to_nat 2) with 2%nat. rewrite EL.
      assert (LC' : lno c' i0 w0 = l) by (symmetry; exact LC).
      assert (RR : cr c i0 = w0 /\ not1 (cr c i0) = not1 w0 \/ cr c i0 = not1 w0 /\ not1 (cr c i0) = w0) by (unfold not1; lia).
      assert (H0 : lval p c w0 i0 = true -> lno c i0 w0 <> l -> tl_hit p c r = false).
      { intros V N. destruct (tl_hit p c r) eqn:HI; auto. exfalso. apply N. rewrite LC, M3. unfold lno. do 2 f_equal.
        pose proof (look_spec p W c r U) as LK. rewrite HI in LK. inversion LK as [w1 L1 L2 L3| |].
        unfold w0, tl_way. rewrite NA', HI. auto. }
      assert (HN : lval p c w0 i0 = true -> lno c i0 w0 <> l -> cr c i0 = w0).
      { intros V N. specialize (H0 V N). unfold w0, tl_way. rewrite NA', H0.
        pose proof (look_spec p W c r U) as LK. rewrite H0 in LK. fold i0 in LK. destruct (tl_inval p c r) eqn:IV.
        - inversion LK as [|w1 L1 L2 L3 L4 L5|]. unfold w0, tl_way in V. rewrite NA', H0, IV in V. congruence.
        - reflexivity. }
      assert (N1 : not1 w0 < 2) by (unfold not1; lia). assert (N2 : not1 w0 <> w0) by (unfold not1; lia).
      destruct (lval p c (not1 w0) i0) eqn:V1.
      * pose proof (NW (not1 w0) N1 V1 N2) as X1.
        destruct (lval p c w0 i0) eqn:V0.
        -- destruct (N.eq_dec (lno c i0 w0) l) as [Y|Y].
           ++ destruct RR as [(E1 & E2) | (E1 & E2)]; rewrite E2, E1; cbn [filter]; rewrite ?V0, ?V1; cbn [map firstn remove]; rewrite LC', TO;
              destruct (N.eq_dec l (lno c i0 (not1 w0))), (N.eq_dec l (lno c i0 w0)); try congruence; auto.
           ++ specialize (HN eq_refl Y). destruct RR as [(E1 & E2) | (E1 & _)]; [|congruence].
              rewrite E2, E1; cbn [filter]; rewrite ?V0, ?V1; cbn [map firstn remove]; rewrite LC', TO.
              destruct (N.eq_dec l (lno c i0 (not1 w0))), (N.eq_dec l (lno c i0 w0)); try congruence; auto.
        -- destruct RR as [(E1 & E2) | (E1 & E2)].
           ++ rewrite E2, E1; cbn [filter]; rewrite ?V0, ?V1; cbn [map firstn remove]; rewrite LC', TO.
              destruct (N.eq_dec l (lno c i0 (not1 w0))); try congruence; auto.
           ++ exfalso. rewrite E2, E1 in VI. rewrite V1, V0 in VI. discriminate VI; auto.
      * destruct (lval p c w0 i0) eqn:V0.
        -- destruct RR as [(E1 & E2) | (E1 & E2)].
           ++ exfalso. rewrite E2, E1 in VI. rewrite V1, V0 in VI. discriminate VI; auto.
           ++ rewrite E2, E1; cbn [filter]; rewrite ?V0, ?V1; cbn [map firstn remove]; rewrite LC'.
              destruct (N.eq_dec (lno c i0 w0) l) as [Y|Y].
              ** destruct (N.eq_dec l (lno c i0 w0)); try congruence; auto.
              ** specialize (HN eq_refl Y). exfalso. unfold not1 in *. lia.
        -- destruct RR as [(E1 & E2) | (E1 & E2)]; rewrite E2, E1; cbn [filter]; rewrite ?V0, ?V1; cbn [map firstn remove]; rewrite LC'; auto.
  - apply lru_same with L c; auto.
    + rewrite M5. apply upd_other; auto.
Qed.

Lemma lru_amo : forall L c r d, lruinv L c -> uniq p c -> (forall i, i < nblocks p -> cr c i < p_assoc p) -> wf_req p r ->
  wf_amo p r ->
  lruinv (fst (lru_step p L r)) (fst (tl_fin p c r d)) /\ snd (lru_step p L r) = cr_test (snd (tl_fin p c r d)).
Proof.
  intros L c r d LI U R WF WA. pose proof WF as (HA & _). destruct (amo_type r WA) as (NR & IA & _).
  destruct (meta_amo c r d WA) as (M1 & M2 & M3).
  unfold lru_step. rewrite NR, IA. cbn [fst snd]. rewrite (line_set (cq_addr r)) by auto. rewrite M3. split; auto.
  set (i0 := a_idx p (cq_addr r)) in *. set (l := line_of p (cq_addr r)) in *. set (w0 := tl_hw p c r) in *.
  set (c' := fst (tl_fin p c r d)) in *.
  assert (Hi0 : i0 < nblocks p) by (apply a_idx_lt; auto).
  assert (LC : l = a_tag p (cq_addr r) * nblocks p + i0) by (apply line_eq; auto).
  pose proof (look_spec p W c r U) as LK. fold i0 in LK.
  intros i Hi. destruct (N.eqb_spec i i0) as [E|E].
  - subst i. assert (NI := in_lru L c r LI U R HA). specialize (LI i0 Hi0). destruct LI as (EL & VI). specialize (R i0 Hi0).
    assert (NW : forall w, w < p_assoc p -> lval p c w i0 = true -> lno c i0 w = l -> tl_hit p c r = true /\ w = w0).
    { intros w Lw V E. unfold lno in E. rewrite LC in E. apply lno_inj in E.
      inversion LK as [w1 L1 L2 L3 L4 L5 L6|w1 L1 L2 L3 L4 L5 L6|L1 L2 L3].
      - split; auto. apply (U w (tl_hw p c r) i0); auto using lval_present; congruence.
      - exfalso. assert (w = tl_hw p c r); [|subst w; congruence].
        apply (U w (tl_hw p c r) i0); auto using lval_present; try congruence.
        unfold present. apply N.eqb_neq in L3. rewrite L3. apply orb_true_r.
      - exfalso. apply (L1 w); auto using lval_present. }
    assert (W0 : tl_hit p c r = true -> w0 < p_assoc p /\ lval p c w0 i0 = true /\ lno c i0 w0 = l).
    { intros HI. rewrite HI in LK. inversion LK as [w1 L1 L2 L3| |]. split; auto. split; auto. unfold lno. rewrite LC. unfold w0. congruence. }
    assert (W1 : tl_inval p c r = true -> w0 < p_assoc p /\ lval p c w0 i0 = false).
    { intros HI. rewrite HI in LK. inversion LK as [|w1 L1 L2 L3|]. split; auto. }
    rewrite EL. unfold mru in *.
    destruct (tl_hit p c r || tl_inval p c r) eqn:HI.
    + destruct M2 as (V' & _ & CR'). rewrite CR', upd_same.
      assert (HW : w0 < p_assoc p) by (destruct (tl_hit p c r); [apply W0; auto | apply W1; auto]).
      unfold tl_rep', repl_policy. unfold tl_isamo. rewrite IA. fold w0.
      destruct (wf_assoc p W) as [A | A]; rewrite A in *.
      * change (1 =? 2) with false in *. assert (Z0 : w0 = 0) by lia. rewrite Z0 in *.
        cbn [filter map]. rewrite V'. cbn [map].
        destruct (lval p c 0 i0) eqn:V0; cbn [map remove]; [|split; [auto|discriminate]].
        split; [|discriminate]. destruct (N.eq_dec l (lno c i0 0)) as [Y|Y]; auto. exfalso.
        destruct (tl_hit p c r) eqn:HH; [destruct (W0 eq_refl) as (_ & _ & Z); congruence|].
        destruct (W1 HI); congruence.
      * change (2 =? 2) with true in *. cbn iota. assert (NN : not1 (not1 w0) = w0) by (unfold not1; lia). rewrite NN.
        cbn [filter]. rewrite V'.
        assert (EO : ct c' (not1 w0) i0 = ct c (not1 w0) i0) by (apply M1; left; unfold not1; lia).
        assert (VO : lval p c' (not1 w0) i0 = lval p c (not1 w0) i0) by (unfold lval; rewrite EO; auto).
        assert (TO : lno c' i0 (not1 w0) = lno c i0 (not1 w0)) by (unfold lno, ltag; rewrite EO; auto).
        rewrite VO. split; [|intros _ X; discriminate].
        assert (N1 : not1 w0 < 2) by (unfold not1; lia). assert (N2 : not1 w0 <> w0) by (unfold not1; lia).
        assert (RR : cr c i0 = w0 /\ not1 (cr c i0) = not1 w0 \/ cr c i0 = not1 w0 /\ not1 (cr c i0) = w0) by (unfold not1; lia).
        assert (X1 : lval p c (not1 w0) i0 = true -> lno c i0 (not1 w0) <> l).
        { intros V E. destruct (NW (not1 w0) N1 V E). congruence. }
        assert (X0 : lval p c w0 i0 = true -> lno c i0 w0 = l).
        { intros V. destruct (tl_hit p c r) eqn:HH; [apply W0; auto|]. destruct (W1 HI); congruence. }
        destruct (lval p c (not1 w0) i0) eqn:V1; destruct (lval p c w0 i0) eqn:V0;
          try specialize (X1 eq_refl); try specialize (X0 eq_refl);
          destruct RR as [(E1 & E2) | (E1 & E2)]; rewrite E2, E1; cbn [filter]; rewrite ?V0, ?V1; cbn [map remove]; rewrite ?TO;
          destruct (N.eq_dec l (lno c i0 (not1 w0))), (N.eq_dec l (lno c i0 w0)); try congruence; auto.
    + apply orb_false_iff in HI. destruct HI as [H1 H2].
      assert (EC : ct c' = ct c /\ cr c' = cr c) by (rewrite M2; auto). destruct EC as [EC1 EC2].
      rewrite <- EL, notin_remove, EL by (intros IN; apply NI in IN; congruence).
      unfold lno, lval, ltag in *. rewrite EC1, EC2. split; auto.
  - apply lru_same with L c; auto. destruct (tl_hit p c r || tl_inval p c r).
    + destruct M2 as (_ & _ & ->). apply upd_other; auto.
    + rewrite M2. auto.
Qed.

Lemma ct_tmap : forall f T w i, w < p_assoc p -> i < nblocks p -> tmap p f T w i = f (T w i).
Proof.
  intros f T w i Hw Hi. unfold tmap, inrange. apply N.ltb_lt in Hw, Hi. rewrite Hw, Hi. auto.
Qed.

Theorem lru_fin : forall L c r d, lruinv L c -> uniq p c -> (forall i, i < nblocks p -> cr c i < p_assoc p) -> wf_req p r ->
  lruinv (fst (lru_step p L r)) (fst (tl_fin p c r d)) /\ snd (lru_step p L r) = cr_test (snd (tl_fin p c r d)).
Proof.
  intros L c r d LI U R WF. destruct (rw_req r) eqn:T; [apply lru_rw; auto|].
  destruct (not_rw r WF T) as [WA | [TI | TF]]; [apply lru_amo; auto | |].
  - unfold lru_step, tl_fin. rewrite T, TI. change (is_amo T_INV) with false. change (T_INV =? T_INV) with true. cbn [fst snd].
    split; auto. intros i Hi. specialize (R i Hi).
    assert (V : forall w, w < p_assoc p -> lval p (mkC (tmap p (ent_inv p) (ct c)) (cd c) (cr c)) w i = false).
    { intros w Hw. unfold lval. cbn [ct]. rewrite ct_tmap by auto. apply te_inv. }
    cbn [cr]. unfold mru. cbn [cr]. destruct (wf_assoc p W) as [A | A]; rewrite A in *.
    + change (1 =? 2) with false. cbn [filter]. rewrite V by lia. split; [auto | discriminate].
    + change (2 =? 2) with true. cbn [filter]. rewrite !V by (unfold not1; lia). split; auto.
  - unfold lru_step, tl_fin. rewrite T, TF. change (is_amo T_FLUSH) with false. change (T_FLUSH =? T_FLUSH) with true.
    change (T_FLUSH =? T_INV) with false. cbn [fst snd].
    split; auto. intros i Hi. specialize (R i Hi). destruct (LI i Hi) as (E & V).
    set (c' := mkC (tmap p (ent_clean p) (ct c)) (cd c) (cr c)).
    assert (EV : forall w, w < p_assoc p -> lval p c' w i = lval p c w i /\ ltag p c' w i = ltag p c w i).
    { intros w Hw. unfold lval, ltag, c'. cbn [ct]. rewrite ct_tmap by auto. split; apply te_clean. }
    rewrite E. unfold mru, lno. change (cr c') with (cr c). destruct (wf_assoc p W) as [A | A]; rewrite A in *.
    + change (1 =? 2) with false. cbn [filter]. destruct (EV 0) as [-> E2]; [lia|].
      destruct (lval p c 0 i); cbn [map]; rewrite ?E2; split; auto; discriminate.
    + change (2 =? 2) with true. cbn [filter]. destruct (EV (cr c i) R) as [-> E2].
      destruct (EV (not1 (cr c i))) as [-> E4]; [unfold not1; lia|].
      split; [|auto]. destruct (lval p c (cr c i) i), (lval p c (not1 (cr c i)) i); cbn [map]; rewrite ?E2, ?E4; auto.
Qed.

Lemma lru_init : forall c, (forall w i, w < p_assoc p -> i < nblocks p -> te_val p (ct c w i) = false /\ te_dty p (ct c w i) = 0) ->
  (forall j, cr c j = 0) -> lruinv lru_empty c.
Proof.
  intros c H R i Hi. unfold mru. rewrite R. unfold lval. destruct (wf_assoc p W) as [A | A]; rewrite A in *.
  - change (1 =? 2) with false. cbn [filter]. destruct (H 0 i) as [-> _]; auto; try lia. split; [auto | discriminate].
  - change (2 =? 2) with true. change (not1 0) with 1. cbn [filter]. destruct (H 0 i) as [-> _]; auto; try lia.
    destruct (H 1 i) as [-> _]; [lia|auto|]. split; auto; intros _ X; discriminate.
Qed.
End M.
