(** One request on the cache equals one request on the flat memory a program sees. *)
From Coq Require Import NArith List Bool Lia.
From Verif Require Import Bits Params Msg Units Mem Spec Tl ParamsProofs UnitProofs ViewDefs ViewOps.
Import ListNotations.
Open Scope N_scope.

(** data of the last memory response, 0 if there was none *)
Definition last_data (xs : list mresp) : N := fold_left (fun _ x => mr_data x) xs 0.

Section V.
Variable p : params.
Hypothesis W : wf_params p.

(** *** Memory side of a write-back *)
Lemma wb_mem : forall m t i mask d x, t < 2 ^ tagw p -> i < nblocks p -> x < 2 ^ p_abw p ->
  wr_masked m (mk_addr p t i 0) mask d (p_clw p / 32) x =
  if (a_tag p x =? t) && (a_idx p x =? i) && N.testbit mask (a_off p x / 4) then gb d (a_off p x) else m x.
Proof.
  intros m t i mask d x T I X. rewrite wr_masked_spec, (clw_words p).
  rewrite <- (off_words p W). pose proof (in_line p W t i x T I X) as IL.
  destruct ((a_tag p x =? t) && (a_idx p x =? i)) eqn:E.
  - apply andb_prop in E. destruct E as [E1 E2]. apply N.eqb_eq in E1, E2.
    rewrite (proj2 IL (conj E1 E2)). rewrite (line_off p W t i x) by auto. auto.
  - destruct ((mk_addr p t i 0 <=? x) && (x <? mk_addr p t i 0 + 2 ^ offw p)) eqn:R; auto.
    exfalso. destruct (proj1 IL eq_refl) as [R1 R2]. rewrite R1, R2, !N.eqb_refl in E. discriminate.
Qed.

Lemma line_addr_base : forall t i, t < 2 ^ tagw p -> i < nblocks p ->
  line_addr p (mk_addr p t i 0) = mk_addr p t i 0.
Proof.
  intros t i T I. apply (idx_pow p W) in I. unfold line_addr. rewrite a_tag_mk, a_idx_mk by auto. auto.
Qed.

(** *** Alignment *)
Lemma off_aligned : forall a k, k <= offw p -> a mod 2 ^ k = 0 ->
  a_off p a mod 2 ^ k = 0 /\ a_off p a + 2 ^ k <= 2 ^ offw p.
Proof.
  intros a k K A. pose proof (a_off_lt p a) as LT.
  assert (E : 2 ^ offw p = 2 ^ k * 2 ^ (offw p - k)) by (rewrite <- N.pow_add_r; f_equal; lia).
  pose proof (pow2_pos k) as P1. pose proof (pow2_pos (offw p - k)) as P2.
  assert (X : a_off p a mod 2 ^ k = 0).
  { rewrite a_off_mod, E, N.mod_mul_r, A, N.add_0_l, N.mul_comm, N.mod_mul by lia. auto. }
  split; auto. pose proof (N.div_mod' (a_off p a) (2 ^ k)) as DM. rewrite X in DM.
  rewrite E in *. set (q := a_off p a / 2 ^ k) in *. clearbody q.
  assert (q < 2 ^ (offw p - k)) by nia. nia.
Qed.

(** *** Writes *)
Record wr_geo (r : creq) (n : nat) : Prop := mkWg {
  wg_n : N.of_nat n = req_bytes p r;
  wg_fit : a_off p (cq_addr r) + N.of_nat n <= 2 ^ offw p;
  wg_line : forall L o, o < 2 ^ offw p ->
    gb (mwrite L (tl_data p r) (wben_req p (a_off p (cq_addr r)) (cq_len r))) o =
    if (a_off p (cq_addr r) <=? o) && (o <? a_off p (cq_addr r) + N.of_nat n)
    then gb (trunc (p_dbw p) (cq_data r)) (o - a_off p (cq_addr r)) else gb L o;
  wg_replay : tl_data_replay p r = tl_data p r;
  wg_set : forall d k, k < N.of_nat n ->
    N.testbit (set_dirty p d (a_off p (cq_addr r)) (cq_len r)) ((a_off p (cq_addr r) + k) / 4) = true;
  wg_wd : forall e k, k < N.of_nat n -> word_dirty p e (a_off p (cq_addr r)) (cq_len r) = true ->
    N.testbit (te_dty p e) ((a_off p (cq_addr r) + k) / 4) = true;
  wg_lt : forall d, d < 2 ^ dtyw p -> set_dirty p d (a_off p (cq_addr r)) (cq_len r) < 2 ^ dtyw p
}.

Lemma set_dirty_mono : forall d off len k, N.testbit d k = true -> N.testbit (set_dirty p d off len) k = true.
Proof.
  intros. unfold set_dirty. destruct (len =? 3); rewrite ?N.setbit_eqb, H, ?orb_true_r; auto.
Qed.

Lemma word_of_lt : forall off, word_of p off < dtyw p.
Proof.
  intros. unfold word_of. rewrite (dtyw_off p W). apply slice_lt.
Qed.
Lemma word_of_succ_lt : forall off, word_of_succ p off < dtyw p.
Proof. intros. unfold word_of_succ. rewrite (dtyw_off p W). apply trunc_lt. Qed.

Lemma setbit_lt : forall d k n, d < 2 ^ n -> k < n -> N.setbit d k < 2 ^ n.
Proof.
  intros. apply lt_pow2_bits. intros i Hi. rewrite N.setbit_eqb, (testbit_high n d i) by auto.
  destruct (N.eqb_spec k i); auto. lia.
Qed.
Lemma set_dirty_lt : forall d off len, d < 2 ^ dtyw p -> set_dirty p d off len < 2 ^ dtyw p.
Proof.
  intros. unfold set_dirty. destruct (len =? 3); auto using setbit_lt, word_of_lt, word_of_succ_lt.
Qed.

Lemma write_size : forall r, wf_req p r -> wf_write p r ->
  (cq_len r = 3 /\ p_dbw p = 32 /\ req_bytes p r = 8) \/
  (cq_len r <> 3 /\ size_ok p (cq_len r) (req_bytes p r) /\ (req_bytes p r = 1 \/ req_bytes p r = 2 \/ req_bytes p r = 4)).
Proof.
  intros r (_ & LL & _) (T & AL & S). unfold req_bytes in *. rewrite T in *. rewrite N.eqb_refl in *. cbn [andb] in *.
  destruct (N.eqb_spec (cq_len r) 3) as [E|E].
  - left. destruct S as [S|[S|[S|(_ & S)]]]; lia.
  - right. destruct S as [S|[S|[S|(S & _)]]]; try lia; (split; [auto|]); (split; [|auto]); unfold size_ok, pow2_size, lenw in *;
    destruct (wf_dbw p W) as [D | [D | D]]; rewrite D in *; cbn in LL;
    destruct (N.eqb_spec (cq_len r) 0) as [Z|Z]; cbn in S; try lia; cbn; try lia.
Qed.

Lemma off_pow : 4 <= 2 ^ offw p /\ 8 <= 2 ^ offw p.
Proof.
  pose proof (offw_ge3 p W). change 4 with (2 ^ 2). change 8 with (2 ^ 3).
  split; apply N.pow_le_mono_r; lia.
Qed.

Lemma gb_masked : forall L M L' off n, (forall b, N.testbit L' b =
    if (8 * off <=? b) && (b <? 8 * (off + n)) then N.testbit M (b - 8 * off) else N.testbit L b) ->
  forall o, gb L' o = if (off <=? o) && (o <? off + n) then gb M (o - off) else gb L o.
Proof.
  intros L M L' off n H o. apply N.bits_inj; intro i. rewrite testbit_gb, H.
  destruct (N.leb_spec off o), (N.ltb_spec o (off + n)); cbn [andb]; rewrite testbit_gb;
  destruct (N.ltb_spec i 8); cbn [andb]; auto.
  - destruct (N.leb_spec (8 * off) (8 * o + i)), (N.ltb_spec (8 * o + i) (8 * (off + n))); try lia; cbn [andb].
    f_equal. lia.
  - destruct (N.leb_spec (8 * off) (8 * o + i)), (N.ltb_spec (8 * o + i) (8 * (off + n))); try lia; auto.
  - destruct (N.leb_spec (8 * off) (8 * o + i)), (N.ltb_spec (8 * o + i) (8 * (off + n))); try lia; auto.
  - destruct (N.leb_spec (8 * off) (8 * o + i)), (N.ltb_spec (8 * o + i) (8 * (off + n))); try lia; auto.
Qed.

Lemma write_geo : forall r, wf_req p r -> wf_write p r -> wr_geo r (N.to_nat (req_bytes p r)).
Proof.
  intros r WF WR. pose proof WR as (T & AL & _). pose proof (write_size r WF WR) as S.
  assert (NA : tl_isamo r = false) by (unfold tl_isamo; rewrite T; reflexivity).
  assert (P : exists k, req_bytes p r = 2 ^ k /\ k <= offw p).
  { pose proof (offw_ge3 p W).
    destruct S as [(_ & _ & ->) | (_ & _ & [-> | [-> | ->]])];
    [exists 3|exists 0|exists 1|exists 2]; split; auto; lia. }
  destruct P as (k & NK & K).
  destruct (off_aligned (cq_addr r) k K) as [OA OF]; [rewrite <- NK; auto|]. rewrite <- NK in *.
  pose proof (a_off_lt p (cq_addr r)) as OL.
  assert (WD : forall j, j < 2 ^ offw p -> word_of p j = j / 4) by (intros; apply word_of_div; auto).
  unfold tl_data, tl_data_replay.
  set (off := a_off p (cq_addr r)) in *. set (n := req_bytes p r) in *.
  constructor; rewrite ?N2Nat.id; fold off; fold n; auto.
  - (* line *)
    intros L o Ho. unfold tl_data. rewrite NA. apply gb_masked. intros b.
    destruct S as [(L3 & D & N8) | (L3 & SZ & N4)].
    + rewrite L3, N8, write_bits_dw by (auto; rewrite <- N8; auto).
      destruct ((8 * off <=? b) && (b <? 8 * (off + 8))); auto. rewrite testbit_trunc, D. auto.
    + rewrite (write_bits p W _ _ _ _ _ _ SZ) by auto. fold n.
      destruct ((8 * off <=? b) && (b <? 8 * (off + n))) eqn:R; auto.
      rewrite testbit_trunc. pose proof (size_le p W _ _ SZ) as [LE _]. fold n in LE.
      apply andb_prop in R. destruct R as [R1 R2]. apply N.leb_le in R1. apply N.ltb_lt in R2.
      destruct (N.ltb_spec (b - 8 * off) (p_dbw p)); auto. lia.
  - (* replay *)
    unfold tl_data_replay, tl_data. rewrite NA.
    destruct S as [(L3 & D & N8) | (L3 & SZ & N4)].
    + rewrite L3. apply replicate_replay_dw; auto.
    + eapply replicate_replay; eauto.
  - (* dirty bits *)
    intros d j Hj. unfold set_dirty.
    destruct S as [(L3 & D & N8) | (L3 & SZ & N4)].
    + rewrite L3. cbn [N.eqb Pos.eqb]. rewrite !N.setbit_eqb. unfold word_of_succ. rewrite WD by auto.
      rewrite N8 in *.
      assert (exists q, off = 8 * q) as (q & Q) by (exists (off / 8); pose proof (N.div_mod' off 8); lia).
      rewrite trunc_small.
      * destruct (N.lt_ge_cases j 4) as [J|J].
        -- replace ((off + j) / 4) with (off / 4); [rewrite N.eqb_refl, orb_true_r; auto|].
           rewrite Q. replace (8 * q / 4) with (2 * q) by (apply N.div_unique with 0; lia).
           apply N.div_unique with j; lia.
        -- replace ((off + j) / 4) with (off / 4 + 1); [rewrite N.eqb_refl; auto|].
           rewrite Q. replace (8 * q / 4) with (2 * q) by (apply N.div_unique with 0; lia).
           apply N.div_unique with (j - 4); lia.
      * rewrite <- (dtyw_off p W). rewrite (off_words p W) in OF. rewrite Q in *.
        replace (8 * q / 4) with (2 * q) by (apply N.div_unique with 0; lia). lia.
    + destruct (N.eqb_spec (cq_len r) 3); [congruence|]. rewrite N.setbit_eqb, WD by auto.
      replace ((off + j) / 4) with (off / 4); [rewrite N.eqb_refl; auto|].
      pose proof (N.div_mod' off 4) as DM. pose proof (N.mod_lt off 4 ltac:(lia)) as ML.
      assert (off mod 4 + j < 4).
      { assert (off mod n = 0) as OA' by auto. 
        destruct N4 as [-> | [E2 | E4]]; [lia | rewrite E2 in * | rewrite E4 in *; lia].
        pose proof (N.div_mod' off 2) as DM2. rewrite OA' in DM2.
        set (q := off / 4) in *. set (z := off mod 4) in *. set (q2 := off / 2) in *. clearbody q z q2.
        assert (z = 0 \/ z = 2) by lia. lia. }
      apply N.div_unique with (off mod 4 + j); auto.
      set (q := off / 4) in *. set (z := off mod 4) in *. clearbody q z. lia.
  - intros e j Hj WDt. unfold word_dirty in WDt.
    destruct S as [(L3 & D & N8) | (L3 & SZ & N4)].
    + rewrite L3 in WDt. cbn [N.eqb Pos.eqb] in WDt. apply andb_prop in WDt. destruct WDt as [W1 W2].
      unfold word_of_succ in W2. rewrite WD in W1, W2 by auto. rewrite N8 in *.
      assert (exists q, off = 8 * q) as (q & Q) by (exists (off / 8); pose proof (N.div_mod' off 8); lia).
      rewrite trunc_small in W2.
      * destruct (N.lt_ge_cases j 4) as [J|J].
        -- replace ((off + j) / 4) with (off / 4); auto.
           rewrite Q. replace (8 * q / 4) with (2 * q) by (apply N.div_unique with 0; lia).
           apply N.div_unique with j; lia.
        -- replace ((off + j) / 4) with (off / 4 + 1); auto.
           rewrite Q. replace (8 * q / 4) with (2 * q) by (apply N.div_unique with 0; lia).
           apply N.div_unique with (j - 4); lia.
      * rewrite <- (dtyw_off p W). rewrite (off_words p W) in OF. rewrite Q in *.
        replace (8 * q / 4) with (2 * q) by (apply N.div_unique with 0; lia). lia.
    + destruct (N.eqb_spec (cq_len r) 3); [congruence|]. rewrite WD in WDt by auto.
      replace ((off + j) / 4) with (off / 4); auto.
      pose proof (N.div_mod' off 4) as DM. pose proof (N.mod_lt off 4 ltac:(lia)) as ML.
      assert (off mod 4 + j < 4).
      { assert (off mod n = 0) as OA' by auto. 
        destruct N4 as [-> | [E2 | E4]]; [lia | rewrite E2 in * | rewrite E4 in *; lia].
        pose proof (N.div_mod' off 2) as DM2. rewrite OA' in DM2.
        set (q := off / 4) in *. set (z := off mod 4) in *. set (q2 := off / 2) in *. clearbody q z q2.
        assert (z = 0 \/ z = 2) by lia. lia. }
      apply N.div_unique with (off mod 4 + j); auto.
      set (q := off / 4) in *. set (z := off mod 4) in *. clearbody q z. lia.
  - intros; apply set_dirty_lt; auto.
Qed.


(** *** Reads *)
Lemma read_size : forall r, wf_req p r -> wf_read p r -> size_ok p (cq_len r) (req_bytes p r).
Proof.
  intros r (_ & LL & _) (T & S & _). unfold req_bytes in *. rewrite T in *. cbn [N.eqb andb] in *.
  change (T_READ =? T_WRITE) with false in *. cbn [andb] in *.
  unfold size_ok. split; auto. unfold pow2_size, lenw in *.
  destruct (wf_dbw p W) as [D | [D | D]]; rewrite D in *; cbn in LL;
    destruct (N.eqb_spec (cq_len r) 0) as [Z|Z]; cbn in S; try lia; cbn; try lia.
Qed.

Lemma read_geo : forall r, wf_req p r -> wf_read p r ->
  a_off p (cq_addr r) + req_bytes p r <= 2 ^ offw p /\
  forall L, tl_read p r L = slice L (8 * a_off p (cq_addr r)) (8 * a_off p (cq_addr r) + 8 * req_bytes p r).
Proof.
  intros r WF WR. pose proof WR as (T & PS & AL). pose proof (read_size r WF WR) as SZ.
  pose proof (size_le p W _ _ SZ) as [_ LE].
  assert (P : exists k, req_bytes p r = 2 ^ k).
  { destruct PS as [-> | [-> | [-> | [-> | ->]]]]; [exists 0|exists 1|exists 2|exists 3|exists 4]; auto. }
  destruct P as (k & NK). rewrite NK in *.
  destruct (off_aligned (cq_addr r) k) as [OA OF]; auto.
  { apply N.pow_le_mono_r_iff in LE; auto; lia. }
  split; auto. intros L. unfold tl_read. rewrite T. change (T_READ =? T_READ) with true.
  rewrite (read_slice p W (cq_len r) (2 ^ k)); auto. apply a_off_lt.
Qed.

Lemma view_valid : forall c m w a o, cinv p c m -> w < p_assoc p -> a < 2 ^ p_abw p ->
  lval p c w (a_idx p a) = true -> ltag p c w (a_idx p a) = a_tag p a -> a_off p a = o ->
  view p c m a = lbyte p c w (a_idx p a) o.
Proof.
  intros c m w a o C Hw Ha V T <-. pose proof (ci_uniq _ _ _ C) as U.
  destruct (dirty_at p c w a) eqn:D.
  - apply view_dirty; auto.
  - rewrite view_clean.
    + rewrite (ci_coh _ _ _ C); auto using a_idx_lt, a_off_lt.
      * rewrite T, mk_addr_parts by auto. auto.
      * unfold dirty_at in D. rewrite T, N.eqb_refl in D. auto.
    + intros w' Hw'. destruct (dirty_at p c w' a) eqn:D'; auto. exfalso.
      assert (w' = w).
      { apply dirty_at_inv in D'. destruct D' as [D1 D2].
        apply (U w' w (a_idx p a)); eauto using ldty_present, lval_present, a_idx_lt. congruence. }
      subst. congruence.
Qed.

Lemma read_line : forall c m w r, cinv p c m -> wf_req p r -> wf_read p r -> w < p_assoc p ->
  lval p c w (a_idx p (cq_addr r)) = true -> ltag p c w (a_idx p (cq_addr r)) = a_tag p (cq_addr r) ->
  tl_read p r (cd c (tl_row p r w)) = rd_bytes (view p c m) (cq_addr r) (N.to_nat (req_bytes p r)).
Proof.
  intros c m w r C WF WR Hw V T. destruct (read_geo r WF WR) as [OF RD]. rewrite RD.
  pose proof WF as (HA & _). symmetry.
  erewrite rd_slice with (L := cd c (tl_row p r w)) (o := a_off p (cq_addr r)); [rewrite N2Nat.id; auto|].
  intros k K. rewrite N2Nat.id in K.
  destruct (addr_add p W (cq_addr r) k HA) as (A1 & A2 & A3 & A4); [lia|].
  rewrite (view_valid c m w (cq_addr r + k) (a_off p (cq_addr r) + k)); try congruence; auto.
  - rewrite A3. unfold lbyte. apply trunc_gb.
Qed.

(** *** Replacement pointer *)
Lemma repl_lt : forall c r m, cinv p c m -> forall i, i < nblocks p -> tl_crep p c r i < p_assoc p.
Proof.
  intros c r m C i Hi. unfold tl_crep.
  assert (X : tl_rep' p c r < p_assoc p).
  { unfold tl_rep', repl_policy, not1. destruct (wf_assoc p W) as [A | A]; rewrite A.
    - change (1 =? 2) with false. destruct (tl_isamo r); reflexivity.
    - change (2 =? 2) with true. destruct (tl_isamo r); cbn iota; [lia|].
      destruct (tl_hit p c r || tl_inval p c r); lia. }
  destruct (tl_rep_en p c r).
  - unfold upd. destruct (i =? a_idx p (cq_addr r)); auto. apply (ci_rep _ _ _ C); auto.
  - apply (ci_rep _ _ _ C); auto.
Qed.

Lemma op_cr : forall c m f, cinv p c m -> (forall i, i < nblocks p -> f i < p_assoc p) ->
  cinv p (mkC (ct c) (cd c) f) m.
Proof. intros c m f C F. constructor; [exact (ci_uniq _ _ _ C) | exact (ci_coh _ _ _ C) | exact F]. Qed.
Lemma view_cr : forall c m f a, view p (mkC (ct c) (cd c) f) m a = view p c m a.
Proof. reflexivity. Qed.

Lemma tset_other : forall T w i v w' i', w' <> w \/ i' <> i -> tset T w i v w' i' = T w' i'.
Proof.
  intros T w i v w' i' H. unfold tset. destruct (N.eqb_spec w' w), (N.eqb_spec i' i); auto. lia.
Qed.
Lemma tset_same : forall T w i v, tset T w i v w i = v.
Proof. intros. unfold tset. rewrite !N.eqb_refl. auto. Qed.

Lemma row_other : forall D w i v w' i' o, w < p_assoc p -> i < nblocks p -> w' < p_assoc p -> i' < nblocks p ->
  w' <> w \/ i' <> i -> gb (upd D (indexer p i w) v (indexer p i' w')) o = gb (D (indexer p i' w')) o.
Proof.
  intros. unfold upd. destruct (N.eqb_spec (indexer p i' w') (indexer p i w)) as [E|E]; auto.
  apply (indexer_inj p W) in E; auto. lia.
Qed.
Lemma row_same : forall (D : N -> N) k v, upd D k v k = v.
Proof. intros. unfold upd. rewrite N.eqb_refl. auto. Qed.

(** *** The steps of one request *)

(** write-back by eviction *)
Definition c_clean (c : cst) (w i : N) : cst := mkC (tset (ct c) w i (ent_clean p (ct c w i))) (cd c) (cr c).

Lemma c_clean_lupd : forall c m w i, cinv p c m -> lupd p c (c_clean c w i) w i.
Proof.
  intros c m w i C. constructor; cbn [ct cd cr c_clean].
  - intros. apply tset_other; auto.
  - auto.
  - exact (ci_rep _ _ _ C).
Qed.

Lemma step_evict : forall c m w i opq ln, cinv p c m -> w < p_assoc p -> i < nblocks p ->
  let q := mkMReq T_WRITE opq (line_addr p (mk_addr p (ltag p c w i) i 0)) ln
             (te_dty p (ct c w i)) (cd c (indexer p i w)) in
  let m' := fst (mem_exec p m q) in
  cinv p (c_clean c w i) m' /\
  forall a, a < 2 ^ p_abw p -> view p (c_clean c w i) m' a = view p c m a.
Proof.
  intros c m w i opq ln C Hw Hi q m'.
  assert (TT : ltag p c w i < 2 ^ tagw p) by apply te_tag_lt.
  destruct (te_clean p (ct c w i)) as (E1 & E2 & E3).
  apply (op_wb p W c (c_clean c w i) m w i C Hw Hi (c_clean_lupd c m w i C) m').
  - unfold lval. cbn [ct c_clean]. rewrite tset_same. auto.
  - cbn [ct c_clean]. rewrite tset_same. auto.
  - unfold ltag. cbn [ct c_clean]. rewrite tset_same. auto.
  - auto.
  - intros x X. unfold m', q, mem_exec. cbn [mq_type mq_addr mq_mask mq_data].
    change (T_WRITE =? T_READ) with false. change (T_WRITE =? T_WRITE) with true. cbn [fst].
    rewrite line_addr_base by auto. rewrite wb_mem by auto. auto.
Qed.

Lemma evict_req_eq : forall c r w, evict_req p c r w =
  mkMReq T_WRITE (cq_opq r) (line_addr p (mk_addr p (ltag p c w (a_idx p (cq_addr r))) (a_idx p (cq_addr r)) 0)) 0
    (te_dty p (ct c w (a_idx p (cq_addr r)))) (cd c (indexer p (a_idx p (cq_addr r)) w)).
Proof. reflexivity. Qed.

(** a WRITE into a valid line *)
Lemma step_write : forall c c' m w r, cinv p c m -> wf_req p r -> wf_write p r -> w < p_assoc p ->
  let i := a_idx p (cq_addr r) in
  lupd p c c' w i ->
  lval p c w i = true -> ltag p c w i = a_tag p (cq_addr r) ->
  lval p c' w i = true -> ltag p c' w i = a_tag p (cq_addr r) ->
  (te_dty p (ct c' w i) = set_dirty p (te_dty p (ct c w i)) (a_off p (cq_addr r)) (cq_len r) \/
   te_dty p (ct c' w i) = te_dty p (ct c w i) /\ word_dirty p (ct c w i) (a_off p (cq_addr r)) (cq_len r) = true) ->
  cd c' (tl_row p r w) = mwrite (cd c (tl_row p r w)) (tl_data p r) (wben_req p (a_off p (cq_addr r)) (cq_len r)) ->
  cinv p c' m /\ forall a, a < 2 ^ p_abw p -> view p c' m a = fst (flat_exec p (view p c m) r) a.
Proof.
  intros c c' m w r C WF WR Hw i LU V T V' T' D DA.
  pose proof (write_geo r WF WR) as G. pose proof WF as (HA & _). pose proof WR as (TY & _).
  assert (Hi : i < nblocks p) by (apply a_idx_lt; auto).
  destruct (op_write p W c c' m w i C Hw Hi LU (a_off p (cq_addr r)) (N.to_nat (req_bytes p r))
              (trunc (p_dbw p) (cq_data r))) as [C' VW]; auto.
  - apply (wg_fit _ _ G).
  - congruence.
  - intros k DK. unfold ldty in *. destruct D as [-> | [-> _]]; auto. apply set_dirty_mono; auto.
  - intros k K. unfold ldty. destruct D as [-> | [-> WD]]; [apply (wg_set _ _ G); auto | apply (wg_wd _ _ G); auto].
  - intros o Ho. unfold lbyte. change (indexer p i w) with (tl_row p r w). rewrite DA. apply (wg_line _ _ G); auto.
  - split; auto. intros a Ha. rewrite VW by auto. unfold flat_exec. rewrite TY.
    change (T_WRITE =? T_READ) with false. change (T_WRITE =? T_WRITE) with true. cbn [fst].
    rewrite T. unfold i. rewrite mk_addr_parts by auto. auto.
Qed.


Lemma refill_bytes : forall L data d o, o < 2 ^ offw p ->
  gb (mwrite L data (wben_dirty p d)) o = if N.testbit d (o / 4) then gb L o else gb data o.
Proof.
  intros L data d o Ho.
  assert (X : forall i, i < 8 -> N.testbit (wben_dirty p d) (8 * o + i) = negb (N.testbit d (o / 4))).
  { intros i Hi. unfold wben_dirty. rewrite testbit_bits_of, (wbenw_clw p W), (clw_off p W).
    destruct (N.ltb_spec (8 * o + i) (8 * 2 ^ offw p)); try lia. cbn [andb].
    replace ((8 * o + i) / 32) with (o / 4); auto.
    pose proof (N.div_mod' o 4) as DM. pose proof (N.mod_lt o 4 ltac:(lia)) as ML.
    apply N.div_unique with (8 * (o mod 4) + i); set (q := o / 4) in *; set (z := o mod 4) in *; clearbody q z; lia. }
  destruct (N.testbit d (o / 4)) eqn:E; cbn [negb] in X; apply gb_ext; intros i Hi; rewrite testbit_mwrite, X; auto.
Qed.

Definition c_refill (c : cst) (r : creq) (d : N) : cst :=
  mkC (tl_refill_tag p c r (ct c)) (tl_refill_dat p c r (cd c) d) (tl_crep p c r).
Definition evict_mem (c : cst) (r : creq) (m : mem) : mem :=
  if tl_evict p c r then fst (mem_exec p m (evict_req p c r (tl_way p c r))) else m.

Lemma is_rw : forall r, wf_read p r \/ wf_write p r -> tl_isamo r = false.
Proof. intros r [(-> & _) | (-> & _)] || intros r [H | H]; unfold tl_isamo; [destruct H as (-> & _) | destruct H as (-> & _)]; reflexivity. Qed.

Lemma te_dty_nz : forall e, line_dirty p true e = negb (te_dty p e =? 0).
Proof. reflexivity. Qed.

Lemma step_refill : forall c m r, cinv p c m -> wf_req p r -> tl_isamo r = false ->
  tl_hit p c r = false ->
  let i := a_idx p (cq_addr r) in
  let w := tl_way p c r in
  let m1 := evict_mem c r m in
  let d := rd_bytes m1 (line_addr p (cq_addr r)) (N.to_nat (p_clw p / 8)) in
  let c2 := c_refill c r d in
  w < p_assoc p /\ cinv p c2 m1 /\ (forall a, a < 2 ^ p_abw p -> view p c2 m1 a = view p c m a) /\
  lval p c2 w i = true /\ ltag p c2 w i = a_tag p (cq_addr r) /\ te_dty p (ct c2 w i) = tl_dirty p c r.
Proof.
  intros c m r C WF NA NH i w m1 d c2.
  pose proof WF as (HA & _).
  assert (Hi : i < nblocks p) by (apply a_idx_lt; auto).
  assert (Hp : i < 2 ^ idxw p) by (apply idx_pow; auto).
  pose proof (look_spec p W c r (ci_uniq _ _ _ C)) as LK. rewrite NH in LK. fold i in LK.
  set (c1 := if tl_evict p c r then c_clean c w i else c).
  assert (W0 : w < p_assoc p /\
     (tl_inval p c r = true /\ tl_evict p c r = false /\ ltag p c w i = a_tag p (cq_addr r) /\ tl_dirty p c r = te_dty p (ct c w i)
        /\ te_dty p (ct c w i) <> 0
      \/ tl_inval p c r = false /\ tl_dirty p c r = 0 /\ te_dty p (ct c1 w i) = 0 /\
         (forall w', w' < p_assoc p -> present p c w' i = true -> ltag p c w' i <> a_tag p (cq_addr r)))).
  { unfold c1, w, tl_way, tl_dirty, tl_evict. rewrite NA, NH. cbn [negb andb].
    destruct (tl_inval p c r) eqn:IV; inversion LK as [| w1 L1 L2 L3 L4 L5 | L1 L2]; clear LK; cbn [negb andb].
    - split; [auto|]. left. unfold tl_way. rewrite NA, NH, IV. repeat split; auto.
    - split; [apply (ci_rep _ _ _ C); auto|]. right.
      split; auto. unfold tl_way. rewrite NA, NH, IV. unfold tl_ent, tl_rep. fold i.
      rewrite te_dty_nz. destruct (N.eqb_spec (te_dty p (ct c (cr c i) i)) 0) as [Z|Z]; cbn [negb].
      + repeat split; auto.
      + repeat split; auto. cbn [ct c_clean]. rewrite tset_same. apply te_clean. }
  destruct W0 as [Hw WC]. fold i.
  assert (M1 : cinv p c1 m1 /\ forall a, a < 2 ^ p_abw p -> view p c1 m1 a = view p c m a).
  { unfold c1, m1, evict_mem. destruct (tl_evict p c r); auto.
    rewrite evict_req_eq. apply step_evict; auto. }
  destruct M1 as [C1 V1].
  assert (TA : a_tag p (cq_addr r) < 2 ^ tagw p) by apply a_tag_lt.
  assert (E2 : ct c2 w i = ent_refill p c r (ct c w i)) by (unfold c2; cbn [ct c_refill]; unfold tl_refill_tag; apply tset_same).
  assert (DL : tl_dirty p c r < 2 ^ dtyw p).
  { destruct WC as [(_ & _ & _ & -> & _) | (_ & -> & _)]; [apply te_dty_lt | apply pow2_pos]. }
  assert (F1 : lval p c2 w i = true) by (unfold lval; rewrite E2; apply te_val_all).
  assert (F2 : ltag p c2 w i = a_tag p (cq_addr r)).
  { unfold ltag. rewrite E2. unfold ent_refill. rewrite te_tag_all. apply trunc_small; auto. }
  assert (F3 : te_dty p (ct c2 w i) = tl_dirty p c r).
  { rewrite E2. unfold ent_refill. rewrite te_dty_all. apply trunc_small; auto. }
  assert (DE : te_dty p (ct c1 w i) = tl_dirty p c r).
  { destruct WC as [(_ & E & _ & -> & _) | (_ & -> & X & _)]; auto. unfold c1. rewrite E. auto. }
  split; auto.
  assert (LU : lupd p c1 c2 w i).
  { constructor.
    - intros w' i' Hw' Hi' N. transitivity (ct c w' i').
      + unfold c2, c_refill. cbn [ct]. unfold tl_refill_tag. apply tset_other; auto.
      + unfold c1. destruct (tl_evict p c r); auto. unfold c_clean; cbn [ct]. symmetry. apply tset_other; auto.
    - intros w' i' o Hw' Hi' N Ho. transitivity (lbyte p c w' i' o).
      + unfold lbyte, c2, c_refill. cbn [cd]. unfold tl_refill_dat. apply row_other; auto.
      + unfold c1. destruct (tl_evict p c r); auto.
    - intros. apply (repl_lt c r m C); auto. }
  assert (X : cinv p c2 m1 /\ forall a, a < 2 ^ p_abw p -> view p c2 m1 a = view p c1 m1 a).
  { apply (op_refill p W c1 c2 m1 w i C1 Hw Hi LU F1).
    - destruct WC as [(_ & E & T & D & _) | (_ & D & X & _)].
      + left. rewrite F2, F3. unfold c1. rewrite E. auto.
      + right. rewrite F3. auto.
    - intros o Ho. unfold ldty. rewrite F2, F3. unfold lbyte.
      assert (CD : cd c2 (indexer p i w) = mwrite (cd c (indexer p i w)) d (wben_dirty p (tl_dirty p c r))).
      { unfold c2, c_refill. cbn [cd]. unfold tl_refill_dat. apply row_same. }
      rewrite CD, refill_bytes by auto.
      assert (CE : cd c1 = cd c) by (unfold c1; destruct (tl_evict p c r); auto). rewrite CE.
      destruct (N.testbit (tl_dirty p c r) (o / 4)); auto.
      unfold d. rewrite gb_rd by (rewrite N2Nat.id, (clw_bytes p W); auto).
      unfold line_addr. rewrite (mk_addr_eq p _ _ o) by auto. auto.
    - rewrite F2. intros w' Hw' N P.
      destruct WC as [(_ & E & T & D & NZ) | (_ & D & X & Y)].
      + unfold c1 in *. rewrite E in *. intros T'. apply N. apply (ci_uniq _ _ _ C w' w i); auto; try congruence.
        unfold present. destruct (N.eqb_spec (te_dty p (ct c w i)) 0); [congruence|]. apply orb_true_r.
      + assert (EC : ct c1 w' i = ct c w' i).
        { unfold c1. destruct (tl_evict p c r); auto. cbn [ct c_clean]. apply tset_other; auto. }
        unfold present, ltag, lval in *. rewrite EC in *. apply Y; auto. }
  destruct X as [C2 V2]. repeat split; auto; try apply C2. intros. rewrite V2, V1; auto.
Qed.
End V.

Section V2.
Variable p : params.
Hypothesis W : wf_params p.

(** states that agree on the lines that exist *)
Lemma view_ext : forall c c' m, (forall w i, w < p_assoc p -> i < nblocks p -> ct c' w i = ct c w i) -> cd c' = cd c ->
  forall a, view p c' m a = view p c m a.
Proof.
  intros c c' m E D a. unfold view.
  assert (X : find (fun w => dirty_at p c' w a) (range (p_assoc p)) = find (fun w => dirty_at p c w a) (range (p_assoc p))).
  { assert (Y : forall l, (forall w, In w l -> w < p_assoc p) -> find (fun w => dirty_at p c' w a) l = find (fun w => dirty_at p c w a) l).
    { induction l as [|w l IH]; intros H; auto. cbn [find].
      replace (dirty_at p c' w a) with (dirty_at p c w a).
      - destruct (dirty_at p c w a); auto. apply IH. intros; apply H; right; auto.
      - unfold dirty_at, ltag, ldty. rewrite E; [auto | apply H; left; auto | apply a_idx_lt; auto]. }
    apply Y. intros w H. apply in_range in H. auto. }
  rewrite X. clear X. destruct (find _ _); auto. unfold lbyte. rewrite D. auto.
Qed.
Lemma cinv_ext : forall c c' m, (forall w i, w < p_assoc p -> i < nblocks p -> ct c' w i = ct c w i) -> cd c' = cd c ->
  (forall i, i < nblocks p -> cr c' i < p_assoc p) -> cinv p c m -> cinv p c' m.
Proof.
  intros c c' m E D R C. constructor; auto.
  - intros w w' i Hw Hw' Hi. unfold present, lval, ltag. rewrite !E by auto. apply (ci_uniq _ _ _ C); auto.
  - intros w i o Hw Hi Ho. unfold lval, ldty, ltag, lbyte. rewrite !E, D by auto. apply (ci_coh _ _ _ C); auto.
Qed.

(** *** FLUSH *)
Definition c_flush (c : cst) (k : N) : cst :=
  mkC (fun w i => if inrange p w i && (k <=? lnum p w i) then ent_clean p (ct c w i) else ct c w i) (cd c) (cr c).

Lemma c_flush_lupd : forall c k, (forall i, i < nblocks p -> cr c i < p_assoc p) -> k < total_lines p ->
  lupd p (c_flush c (k + 1)) (c_flush c k) (lway p k) (lidx p k).
Proof.
  intros c k C K. constructor; cbn [ct cd cr c_flush]; auto.
  - intros w i Hw Hi N. unfold inrange. destruct (N.ltb_spec w (p_assoc p)), (N.ltb_spec i (nblocks p)); try lia. cbn [andb].
    destruct (N.leb_spec k (lnum p w i)), (N.leb_spec (k + 1) (lnum p w i)); auto; try lia.
    exfalso. assert (lnum p w i = k) as E by lia. subst k.
    rewrite lway_lnum, lidx_lnum in N by auto. lia.
Qed.

Lemma flush_run : forall c opq k m, N.of_nat k <= total_lines p -> cinv p (c_flush c (N.of_nat k)) m ->
  let m' := fst (mem_run p m (flush_reqs p c opq k)) in
  cinv p (c_flush c 0) m' /\
  forall a, a < 2 ^ p_abw p -> view p (c_flush c 0) m' a = view p (c_flush c (N.of_nat k)) m a.
Proof.
  intros c opq k. induction k as [|k IH]; intros m K C; cbn [flush_reqs].
  - cbn. split; auto.
  - set (kk := N.of_nat k) in *. replace (N.of_nat (S k)) with (kk + 1) in * by lia.
    assert (Hk : kk < total_lines p) by lia.
    set (w := lway p kk). set (i := lidx p kk).
    assert (Hw : w < p_assoc p) by (apply lway_lt; auto).
    assert (Hi : i < nblocks p) by (apply lidx_lt; auto).
    assert (E1 : ct (c_flush c (kk + 1)) w i = ct c w i).
    { cbn [ct c_flush]. unfold w, i. rewrite lnum_l by auto.
      destruct (N.leb_spec (kk + 1) kk); try lia. rewrite andb_false_r. auto. }
    assert (E2 : ct (c_flush c kk) w i = ent_clean p (ct c w i)).
    { cbn [ct c_flush]. unfold inrange. destruct (N.ltb_spec w (p_assoc p)), (N.ltb_spec i (nblocks p)); try lia.
      unfold w, i. rewrite lnum_l by auto. destruct (N.leb_spec kk kk); try lia. cbn [andb]. auto. }
    destruct (te_clean p (ct c w i)) as (T1 & T2 & T3).
    assert (ST : forall m1, (forall x, x < 2 ^ p_abw p ->
       m1 x = if (a_tag p x =? ltag p c w i) && (a_idx p x =? i) && ldty p c w i (a_off p x / 4)
            then lbyte p c w i (a_off p x) else m x) ->
       cinv p (c_flush c kk) m1 /\ forall a, a < 2 ^ p_abw p -> view p (c_flush c kk) m1 a = view p (c_flush c (kk + 1)) m a).
    { intros m1 M1. apply (op_wb p W (c_flush c (kk + 1)) (c_flush c kk) m w i C Hw Hi).
      - apply c_flush_lupd; auto. exact (ci_rep _ _ _ C).
      - unfold lval. rewrite E1, E2. auto.
      - rewrite E2. auto.
      - unfold ltag. rewrite E1, E2. auto.
      - auto.
      - intros x X. rewrite M1 by auto. unfold ltag, ldty. rewrite E1. auto. }
    destruct (line_dirty p true (ct c w i)) eqn:LD; cbn [app].
    + cbn [mem_run]. destruct (mem_exec p m (flush_req p c opq kk)) as [m1 x1] eqn:ME.
      destruct (ST m1) as [C1 V1].
      { intros x X. change m1 with (fst (m1, x1)). rewrite <- ME. unfold flush_req, mem_exec. cbn [mq_type mq_addr mq_mask mq_data].
        change (T_WRITE =? T_READ) with false. change (T_WRITE =? T_WRITE) with true. cbn [fst].
        fold w i. rewrite (line_addr_base p W) by (auto; apply te_tag_lt). rewrite (wb_mem p W) by (auto; apply te_tag_lt). auto. }
      destruct (IH m1 ltac:(lia) C1) as [C2 V2].
      destruct (mem_run p m1 (flush_reqs p c opq k)) as [m2 xs] eqn:MR. cbn [fst] in *.
      split; auto. intros a Ha. rewrite V2, V1; auto.
    + destruct (ST m) as [C1 V1].
      { intros x X. unfold line_dirty in LD. cbn [andb] in LD. apply negb_false_iff in LD. apply N.eqb_eq in LD.
        unfold ldty. rewrite LD, N.bits_0, andb_false_r. auto. }
      destruct (IH m ltac:(lia) C1) as [C2 V2]. split; auto. intros a Ha. rewrite V2, V1; auto.
Qed.

Lemma step_flush : forall c m r, cinv p c m -> cq_type r = T_FLUSH ->
  let m' := fst (mem_run p m (tl_reqs p c r)) in
  let c' := mkC (tmap p (ent_clean p) (ct c)) (cd c) (cr c) in
  cinv p c' m' /\ (forall a, a < 2 ^ p_abw p -> view p c' m' a = view p c m a) /\
  (forall a, view p c' m' a = trunc 8 (m' a)).
Proof.
  intros c m r C T m' c'. unfold m', tl_reqs. rewrite T.
  change (T_FLUSH =? T_INV) with false. change (T_FLUSH =? T_FLUSH) with true. cbn iota.
  assert (TOT : N.of_nat (N.to_nat (total_lines p)) = total_lines p) by apply N2Nat.id.
  assert (E0 : forall w i, w < p_assoc p -> i < nblocks p -> ct (c_flush c (total_lines p)) w i = ct c w i).
  { intros w i Hw Hi. cbn [ct c_flush]. pose proof (lnum_lt p W w i Hw Hi).
    destruct (N.leb_spec (total_lines p) (lnum p w i)); try lia. rewrite andb_false_r. auto. }
  destruct (flush_run c (cq_opq r) (N.to_nat (total_lines p)) m) as [C1 V1]; rewrite ?TOT; try lia.
  { apply cinv_ext with c; auto. exact (ci_rep _ _ _ C). }
  rewrite TOT in V1. set (mm := fst (mem_run p m (flush_reqs p c (cq_opq r) (N.to_nat (total_lines p))))) in *.
  assert (E1 : forall w i, w < p_assoc p -> i < nblocks p -> ct c' w i = ct (c_flush c 0) w i).
  { intros w i Hw Hi. unfold c'. cbn [ct c_flush]. unfold tmap.
    destruct (N.leb_spec 0 (lnum p w i)); try lia. rewrite andb_true_r. auto. }
  split; [|split].
  - apply cinv_ext with (c_flush c 0); auto. exact (ci_rep _ _ _ C).
  - intros a Ha. rewrite (view_ext (c_flush c 0) c' mm) by auto. rewrite V1 by auto. apply view_ext; auto.
  - intros a. apply view_clean. intros w Hw. unfold dirty_at, ldty, c'. cbn [ct]. unfold tmap, inrange.
    pose proof (a_idx_lt p W a).
    destruct (N.ltb_spec w (p_assoc p)), (N.ltb_spec (a_idx p a) (nblocks p)); try lia. cbn [andb].
    destruct (te_clean p (ct c w (a_idx p a))) as (_ & -> & _). rewrite N.bits_0. apply andb_false_r.
Qed.

(** *** AMO *)
Lemma step_amo : forall c m r, cinv p c m -> wf_req p r -> wf_amo p r ->
  let m' := fst (mem_run p m (tl_reqs p c r)) in
  let d := last_data (snd (mem_run p m (tl_reqs p c r))) in
  let c' := fst (tl_fin p c r d) in
  cinv p c' m' /\ (forall a, a < 2 ^ p_abw p -> view p c' m' a = fst (flat_exec p (view p c m) r) a) /\
  cr_data (snd (tl_fin p c r d)) = snd (flat_exec p (view p c m) r) /\
  (forall w, w < p_assoc p -> present p c' w (a_idx p (cq_addr r)) = true ->
     ltag p c' w (a_idx p (cq_addr r)) <> a_tag p (cq_addr r)).
Proof.
  intros c m r C WF WA m' d c'. pose proof WF as (HA & _). pose proof WA as (TY & AL & LN).
  set (i := a_idx p (cq_addr r)).
  assert (Hi : i < nblocks p) by (apply a_idx_lt; auto).
  assert (T1 : cq_type r <> T_INV /\ cq_type r <> T_FLUSH /\ cq_type r <> T_READ /\ cq_type r <> T_WRITE /\ is_amo (cq_type r) = true).
  { unfold is_amo, T_INV, T_FLUSH, T_READ, T_WRITE, T_AMO_ADD, T_AMO_XOR in *.
    destruct (N.leb_spec 3 (cq_type r)), (N.ltb_spec (cq_type r) 14); cbn [andb]; lia. }
  destruct T1 as (TI & TF & TR & TW & TA).
  apply N.eqb_neq in TI, TF, TR, TW.
  assert (AM : tl_isamo r = true) by exact TA.
  assert (RQ : tl_reqs p c r = (if tl_evict p c r then [evict_req p c r (tl_way p c r)] else []) ++ [amo_req p c r]).
  { unfold tl_reqs. rewrite TI, TF, AM. auto. }
  set (m1 := evict_mem p c r m).
  assert (AD : mq_addr (amo_req p c r) = cq_addr r).
  { unfold amo_req, off_len. cbn [mq_addr fst]. apply mk_addr_parts; auto. }
  assert (AX : mem_exec p m1 (amo_req p c r) =
     (wr_bytes m1 (cq_addr r) 4 (amo_fun (cq_type r) (rd_bytes m1 (cq_addr r) 4) (trunc 32 (cq_data r))),
      mkMResp (cq_type r) (cq_opq r) (mq_len (amo_req p c r)) (rd_bytes m1 (cq_addr r) 4))).
  { unfold mem_exec. rewrite AD. unfold amo_req. cbn [mq_type mq_opq mq_len mq_data].
    rewrite TR, TW. do 3 f_equal.
    unfold tl_data. rewrite AM. unfold replicator, rep_sel. cbn [N.eqb].
    apply N.bits_inj; intro b. rewrite testbit_slice, !testbit_trunc, N.add_0_r, N.sub_0_r.
    destruct (N.ltb_spec b 32); auto. cbn [andb].
    destruct (wf_dbw p W) as [-> | [-> | ->]]; destruct (N.ltb_spec b 32), (N.ltb_spec b 64), (N.ltb_spec b 128); auto; lia. }
  assert (MR : mem_run p m (tl_reqs p c r) = (fst (mem_exec p m1 (amo_req p c r)),
     (if tl_evict p c r then [snd (mem_exec p m (evict_req p c r (tl_way p c r)))] else []) ++ [snd (mem_exec p m1 (amo_req p c r))])).
  { rewrite RQ. unfold m1, evict_mem. destruct (tl_evict p c r); cbn [app mem_run].
    - destruct (mem_exec p m (evict_req p c r (tl_way p c r))) as [ma xa] eqn:Ea. cbn [fst snd].
      destruct (mem_exec p ma (amo_req p c r)) as [mb xb]. auto.
    - destruct (mem_exec p m (amo_req p c r)) as [mb xb]. auto. }
  assert (DD : d = rd_bytes m1 (cq_addr r) 4).
  { unfold d. rewrite MR. cbn [snd]. unfold last_data. rewrite fold_left_app. cbn [fold_left]. rewrite AX. auto. }
  assert (MM : m' = wr_bytes m1 (cq_addr r) 4 (amo_fun (cq_type r) (rd_bytes m1 (cq_addr r) 4) (trunc 32 (cq_data r)))).
  { unfold m'. rewrite MR. cbn [fst]. rewrite AX. auto. }
  assert (FN : tl_fin p c r d = (mkC (tl_amo_tag p c r (ct c)) (cd c) (tl_crep p c r), tl_resp r 0 (slice d 0 32))).
  { unfold tl_fin. rewrite TI, TF, AM. auto. }
  assert (CC : c' = mkC (tl_amo_tag p c r (ct c)) (cd c) (tl_crep p c r)) by (unfold c'; rewrite FN; auto).
  assert (RL : forall i, i < nblocks p -> tl_crep p c r i < p_assoc p) by (apply (repl_lt p W c r m); auto).
  assert (S1 : cinv p c' m1 /\ (forall a, a < 2 ^ p_abw p -> view p c' m1 a = view p c m a) /\
     forall w, w < p_assoc p -> present p c' w i = true -> ltag p c' w i <> a_tag p (cq_addr r)).
  { pose proof (look_spec p W c r (ci_uniq _ _ _ C)) as LK. fold i in LK.
    destruct (tl_hit p c r || tl_inval p c r) eqn:HI.
    - (* the line is in the cache *)
      set (w := tl_hw p c r).
      assert (LI : w < p_assoc p /\ ltag p c w i = a_tag p (cq_addr r) /\ present p c w i = true).
      { unfold w. destruct (tl_hit p c r), (tl_inval p c r); try discriminate;
        inversion LK as [w1 L1 L2 L3 L4 L5 | w1 L1 L2 L3 L4 L5 | L1 L2]; repeat split; auto using lval_present.
        unfold present. apply N.eqb_neq in L3. rewrite L3. apply orb_true_r. }
      destruct LI as (Hw & LT & LP).
      assert (WY : tl_way p c r = w) by (unfold tl_way; rewrite AM; auto).
      assert (EV : tl_evict p c r = line_dirty p true (ct c w i)).
      { unfold tl_evict. rewrite AM, HI, andb_true_r. auto. }
      set (c1 := if tl_evict p c r then c_clean p c w i else c).
      assert (S0 : cinv p c1 m1 /\ forall a, a < 2 ^ p_abw p -> view p c1 m1 a = view p c m a).
      { unfold c1, m1, evict_mem. destruct (tl_evict p c r); auto. rewrite WY, evict_req_eq. apply step_evict; auto. }
      destruct S0 as [C1 V1].
      assert (E' : ct c' w i = mwrite (ct c w i) (mk_te p false 0 (a_tag p (cq_addr r))) (ones_te p)).
      { rewrite CC. cbn [ct]. unfold tl_amo_tag. rewrite HI. apply tset_same. }
      assert (LU : lupd p c1 c' w i).
      { constructor.
        - intros w' i' Hw' Hi' N. transitivity (ct c w' i').
          + rewrite CC. cbn [ct]. unfold tl_amo_tag. rewrite HI. apply tset_other; auto.
          + unfold c1. destruct (tl_evict p c r); auto. symmetry. apply tset_other; auto.
        - intros w' i' o Hw' Hi' N Ho. rewrite CC. unfold c1. destruct (tl_evict p c r); auto.
        - intros. rewrite CC. cbn [cr]. auto. }
      destruct (op_drop p W c1 c' m1 w i C1 Hw Hi LU) as [C2 V2].
      + unfold c1. rewrite EV. unfold line_dirty. destruct (N.eqb_spec (te_dty p (ct c w i)) 0) as [Z|Z]; cbn [andb negb]; auto.
        cbn [ct c_clean]. rewrite tset_same. apply te_clean.
      + rewrite E', te_dty_all. reflexivity.
      + unfold lval. rewrite E', te_val_all. auto.
      + split; auto. split; [intros; rewrite V2, V1; auto|].
        intros w' Hw' P E. destruct (N.eq_dec w' w) as [->|N].
        * unfold present, lval in P. rewrite E', te_val_all, te_dty_all in P. discriminate.
        * assert (EC : ct c' w' i = ct c w' i).
          { rewrite CC. cbn [ct]. unfold tl_amo_tag. rewrite HI. apply tset_other; auto. }
          unfold present, ltag, lval in P, E. rewrite EC in P, E.
          apply N. apply (ci_uniq _ _ _ C w' w i); auto. rewrite LT. auto.
    - apply orb_false_iff in HI. destruct HI as [H1 H2]. rewrite H1, H2 in LK. 
      assert (EV : tl_evict p c r = false) by (unfold tl_evict; rewrite AM, H1, H2; apply andb_false_r).
      assert (CT : ct c' = ct c) by (rewrite CC; cbn [ct]; unfold tl_amo_tag; rewrite H1, H2; auto).
      unfold m1, evict_mem. rewrite EV.
      split; [|split].
      + apply cinv_ext with c; auto; [intros; rewrite CT; auto | rewrite CC; auto | rewrite CC; auto].
      + intros. apply view_ext; rewrite CC; auto. intros. cbn [ct]. unfold tl_amo_tag. rewrite H1, H2. auto.
      + unfold present, ltag, lval. rewrite CT. inversion LK. auto. }
  destruct S1 as (C1 & V1 & AB).
  destruct (op_amo p W c' m1 (cq_addr r) (amo_fun (cq_type r) (rd_bytes m1 (cq_addr r) 4) (trunc 32 (cq_data r))) C1 HA AL AB) as (C2 & V2 & R2).
  assert (RV : rd_bytes (view p c m) (cq_addr r) 4 = rd_bytes m1 (cq_addr r) 4).
  { rewrite <- R2. apply rd_ext. intros k K. rewrite V1; auto.
    destruct (off_aligned p (cq_addr r) 2) as [_ OF]; [pose proof (offw_ge3 p W); lia | auto |].
    apply (addr_add p W); auto. change (2 ^ 2) with 4 in OF. change (N.of_nat 4) with 4 in K. lia. }
  assert (FE : flat_exec p (view p c m) r = (wr_bytes (view p c m) (cq_addr r) 4 (amo_fun (cq_type r) (rd_bytes (view p c m) (cq_addr r) 4) (trunc 32 (cq_data r))),
     rd_bytes (view p c m) (cq_addr r) 4)).
  { unfold flat_exec. rewrite TR, TW, TA. auto. }
  rewrite FE, RV, MM. cbn [fst snd].
  split; auto. split; [|split; auto].
  - intros a Ha. rewrite V2. unfold wr_bytes. rewrite V1 by auto. auto.
  - rewrite FN. cbn [snd]. unfold tl_resp. cbn [cr_data]. rewrite DD.
    unfold slice. rewrite N.shiftr_0_r, N.sub_0_r. apply trunc_small.
    apply lt_pow2_bits. intros b Hb. rewrite testbit_rd. change (8 * N.of_nat 4) with 32.
    destruct (N.ltb_spec b 32); auto. lia.
Qed.

(** *** READ and WRITE *)
Lemma tl_read_write0 : forall r L, cq_type r = T_WRITE -> tl_read p r L = 0.
Proof. intros r L T. unfold tl_read. rewrite T. reflexivity. Qed.

Lemma step_rw : forall c m r, cinv p c m -> wf_req p r -> wf_read p r \/ wf_write p r ->
  let m' := fst (mem_run p m (tl_reqs p c r)) in
  let d := last_data (snd (mem_run p m (tl_reqs p c r))) in
  let c' := fst (tl_fin p c r d) in
  cinv p c' m' /\ (forall a, a < 2 ^ p_abw p -> view p c' m' a = fst (flat_exec p (view p c m) r) a) /\
  cr_data (snd (tl_fin p c r d)) = snd (flat_exec p (view p c m) r).
Proof.
  intros c m r C WF RW m' d c'. pose proof WF as (HA & _).
  set (i := a_idx p (cq_addr r)).
  assert (Hi : i < nblocks p) by (apply a_idx_lt; auto).
  assert (NA : tl_isamo r = false) by (apply (is_rw p); auto).
  assert (T0 : (cq_type r =? T_INV) = false /\ (cq_type r =? T_FLUSH) = false).
  { destruct RW as [H | H]; destruct H as (-> & _); auto. }
  destruct T0 as [TI TF].
  assert (RL : forall i, i < nblocks p -> tl_crep p c r i < p_assoc p) by (apply (repl_lt p W c r m); auto).
  destruct (tl_hit p c r) eqn:HIT.
  - (* hit *)
    assert (RQ : tl_reqs p c r = []) by (unfold tl_reqs; rewrite TI, TF, NA, HIT; auto).
    assert (M' : m' = m) by (unfold m'; rewrite RQ; auto).
    assert (FN : tl_fin p c r d =
      (mkC (tl_wtag p c r (ct c)) (tl_wdat p r (cd c) (tl_hw p c r) (tl_data p r)) (tl_crep p c r),
       tl_resp r 1 (tl_read p r (cd c (tl_row p r (tl_hw p c r)))))) by (unfold tl_fin; rewrite TI, TF, NA, HIT; auto).
    pose proof (look_spec p W c r (ci_uniq _ _ _ C)) as LK. rewrite HIT in LK. fold i in LK.
    set (w := tl_hw p c r) in *.
    assert (L4 : tl_inval p c r = false) by (inversion LK; auto). rewrite L4 in LK.
    inversion LK as [w1 Hw LV LT L5 | |]. clear LK.
    assert (CC : c' = mkC (tl_wtag p c r (ct c)) (tl_wdat p r (cd c) w (tl_data p r)) (tl_crep p c r)) by (unfold c'; rewrite FN; auto).
    rewrite M', FN. cbn [snd]. unfold tl_resp. cbn [cr_data].
    destruct RW as [RD | WR].
    + pose proof RD as (TY & _).
      assert (CE : c' = mkC (ct c) (cd c) (tl_crep p c r)).
      { rewrite CC. unfold tl_wtag, tl_clean_hit, tl_wdat. rewrite TY. change (T_READ =? T_WRITE) with false.
        rewrite andb_false_r. auto. }
      assert (FE : flat_exec p (view p c m) r = (view p c m, rd_bytes (view p c m) (cq_addr r) (N.to_nat (req_bytes p r)))).
      { unfold flat_exec. rewrite TY. auto. }
      rewrite FE, CE. cbn [fst snd]. split; [apply op_cr; auto|]. split; [auto|].
      apply read_line; auto.
    + pose proof WR as (TY & _).
      assert (TE : ct c' w i = if word_dirty p (ct c w i) (a_off p (cq_addr r)) (cq_len r) then ct c w i
        else mwrite (ct c w i) (mk_te p true (set_dirty p (te_dty p (ct c w i)) (a_off p (cq_addr r)) (cq_len r)) (a_tag p (cq_addr r))) (ones_te p)).
      { rewrite CC. cbn [ct]. unfold tl_wtag, tl_clean_hit. rewrite L4, TY.
        change (T_WRITE =? T_WRITE) with true. cbn [negb andb]. rewrite andb_true_r.
        unfold tl_ent. fold w i. destruct (word_dirty p (ct c w i) (a_off p (cq_addr r)) (cq_len r)); cbn [negb]; auto.
        rewrite tset_same. unfold lval in LV. rewrite LV. auto. }
      assert (TAG : trunc (tagw p) (a_tag p (cq_addr r)) = a_tag p (cq_addr r)) by (apply trunc_small; apply a_tag_lt).
      destruct (step_write p W c c' m w r C WF WR Hw) as [C' V'].
      * constructor.
        -- intros w' i' Hw' Hi' N. rewrite CC. cbn [ct]. unfold tl_wtag. destruct (tl_clean_hit p c r); auto. apply tset_other; auto.
        -- intros w' i' o Hw' Hi' N Ho. unfold lbyte. rewrite CC. cbn [cd]. unfold tl_wdat. rewrite TY. apply row_other; auto.
        -- intros. rewrite CC. cbn [cr]. auto.
      * auto.
      * auto.
      * fold i. unfold lval. rewrite TE. destruct (word_dirty _ _ _ _); auto. apply te_val_all.
      * fold i. unfold ltag. rewrite TE. destruct (word_dirty _ _ _ _); auto. rewrite te_tag_all. auto.
      * fold i. rewrite TE. destruct (word_dirty p (ct c w i) (a_off p (cq_addr r)) (cq_len r)) eqn:WD; auto.
        left. rewrite te_dty_all. apply trunc_small. apply set_dirty_lt; auto. apply te_dty_lt.
      * rewrite CC. cbn [cd]. unfold tl_wdat. rewrite TY. apply row_same.
      * split; auto. split; auto. rewrite tl_read_write0 by auto. unfold flat_exec. rewrite TY. auto.
  - (* miss *)
    assert (RQ : tl_reqs p c r = (if tl_evict p c r then [evict_req p c r (tl_way p c r)] else []) ++ [refill_req p c r]).
    { unfold tl_reqs. rewrite TI, TF, NA, HIT. auto. }
    set (m1 := evict_mem p c r m).
    set (dl := rd_bytes m1 (line_addr p (cq_addr r)) (N.to_nat (p_clw p / 8))).
    assert (AX : mem_exec p m1 (refill_req p c r) = (m1, mkMResp T_READ (cq_opq r) 0 dl)).
    { unfold mem_exec, refill_req. cbn [mq_type mq_opq mq_len mq_data mq_addr]. reflexivity. }
    assert (MR : mem_run p m (tl_reqs p c r) = (fst (mem_exec p m1 (refill_req p c r)),
     (if tl_evict p c r then [snd (mem_exec p m (evict_req p c r (tl_way p c r)))] else []) ++ [snd (mem_exec p m1 (refill_req p c r))])).
    { rewrite RQ. unfold m1, evict_mem. destruct (tl_evict p c r); cbn [app mem_run].
      - destruct (mem_exec p m (evict_req p c r (tl_way p c r))) as [ma xa] eqn:Ea. cbn [fst snd].
        destruct (mem_exec p ma (refill_req p c r)) as [mb xb]. auto.
      - destruct (mem_exec p m (refill_req p c r)) as [mb xb]. auto. }
    assert (M' : m' = m1) by (unfold m'; rewrite MR; cbn [fst]; rewrite AX; auto).
    assert (DD : d = dl).
    { unfold d. rewrite MR. cbn [snd]. unfold last_data. rewrite fold_left_app. cbn [fold_left]. rewrite AX. auto. }
    destruct (step_refill p W c m r C WF NA HIT) as (Hw & C2 & V2 & LV & LT & LD).
    fold m1 in C2, V2, LV, LT, LD. fold dl in C2, V2, LV, LT, LD. fold i in LV, LT, LD.
    set (w := tl_way p c r) in *. set (c2 := c_refill p c r dl) in *.
    assert (FN : tl_fin p c r d =
      (mkC (tl_replay_tag p c r (ct c2)) (tl_wdat p r (cd c2) w (tl_data_replay p r)) (cr c2),
       tl_resp r 0 (tl_read p r (cd c2 (tl_row p r w))))) by (unfold tl_fin; rewrite TI, TF, NA, HIT, DD; auto).
    assert (CC : c' = mkC (tl_replay_tag p c r (ct c2)) (tl_wdat p r (cd c2) w (tl_data_replay p r)) (cr c2)) by (unfold c'; rewrite FN; auto).
    rewrite M', FN. cbn [snd]. unfold tl_resp. cbn [cr_data].
    assert (FX : forall n, a_off p (cq_addr r) + N.of_nat n <= 2 ^ offw p ->
       rd_bytes (view p c2 m1) (cq_addr r) n = rd_bytes (view p c m) (cq_addr r) n).
    { intros n OF. apply rd_ext. intros k K. rewrite V2; auto. apply (addr_add p W); auto. lia. }
    destruct RW as [RD | WR].
    + pose proof RD as (TY & _).
      assert (CE : c' = c2).
      { rewrite CC. unfold tl_replay_tag, tl_wdat. rewrite TY. reflexivity. }
      assert (FE : flat_exec p (view p c m) r = (view p c m, rd_bytes (view p c m) (cq_addr r) (N.to_nat (req_bytes p r)))).
      { unfold flat_exec. rewrite TY. auto. }
      rewrite FE, CE. cbn [fst snd]. split; auto. split; auto.
      rewrite (read_line p W c2 m1 w r) by auto. apply FX. rewrite N2Nat.id. apply (read_geo p W r WF RD).
    + pose proof WR as (TY & _).
      assert (TAG : trunc (tagw p) (a_tag p (cq_addr r)) = a_tag p (cq_addr r)) by (apply trunc_small; apply a_tag_lt).
      assert (TE : ct c' w i = mwrite (ct c2 w i) (mk_te p true (set_dirty p (te_dty p (ct c2 w i)) (a_off p (cq_addr r)) (cq_len r)) (a_tag p (cq_addr r))) (ones_te p)).
      { rewrite CC. cbn [ct]. unfold tl_replay_tag. rewrite TY. change (T_WRITE =? T_WRITE) with true. cbn iota.
        fold w i. rewrite tset_same, LD. auto. }
      destruct (step_write p W c2 c' m1 w r C2 WF WR Hw) as [C' V'].
      * constructor.
        -- intros w' i' Hw' Hi' N. rewrite CC. cbn [ct]. unfold tl_replay_tag. rewrite TY. apply tset_other; auto.
        -- intros w' i' o Hw' Hi' N Ho. unfold lbyte. rewrite CC. cbn [cd]. unfold tl_wdat. rewrite TY. apply row_other; auto.
        -- intros. rewrite CC. cbn [cr]. apply (ci_rep _ _ _ C2); auto.
      * auto.
      * auto.
      * fold i. unfold lval. rewrite TE. apply te_val_all.
      * fold i. unfold ltag. rewrite TE. rewrite te_tag_all. auto.
      * fold i. rewrite TE.
        left. rewrite te_dty_all. apply trunc_small. apply set_dirty_lt; auto. apply te_dty_lt.
      * rewrite CC. cbn [cd]. unfold tl_wdat. rewrite TY. change (T_WRITE =? T_WRITE) with true. cbn iota.
        rewrite row_same. rewrite (wg_replay _ _ _ (write_geo p W r WF WR)). auto.
      * split; auto. split.
        -- intros a Ha. rewrite V' by auto. unfold flat_exec. rewrite TY.
           change (T_WRITE =? T_READ) with false. change (T_WRITE =? T_WRITE) with true. cbn [fst].
           unfold wr_bytes. rewrite V2 by auto. auto.
        -- rewrite tl_read_write0 by auto. unfold flat_exec. rewrite TY. auto.
Qed.

(** *** Any supported request *)
Theorem tl_step : forall c m r, cinv p c m -> wf_req p r ->
  let m' := fst (mem_run p m (tl_reqs p c r)) in
  let d := last_data (snd (mem_run p m (tl_reqs p c r))) in
  let c' := fst (tl_fin p c r d) in
  let y := snd (tl_fin p c r d) in
  cinv p c' m' /\ (forall a, a < 2 ^ p_abw p -> view p c' m' a = fst (flat_exec p (view p c m) r) a) /\
  cr_data y = snd (flat_exec p (view p c m) r).
Proof.
  intros c m r C WF m' d c' y. pose proof WF as (HA & LL & [RD | [WR | [AM | [IV | FL]]]]).
  - apply step_rw; auto.
  - apply step_rw; auto.
  - destruct (step_amo c m r C WF AM) as (S1 & S2 & S3 & _). auto.
  - assert (FN : tl_fin p c r d = (mkC (tmap p (ent_inv p) (ct c)) (cd c) (cr c), tl_resp r 0 0)) by (unfold tl_fin; rewrite IV; auto).
    assert (M' : m' = m) by (unfold m', tl_reqs; rewrite IV; auto).
    assert (FE : flat_exec p (view p c m) r = (view p c m, 0)) by (unfold flat_exec; rewrite IV; auto).
    unfold c', y. rewrite FN, M', FE. cbn [fst snd].
    destruct (op_inv p W c (mkC (tmap p (ent_inv p) (ct c)) (cd c) (cr c)) m C) as [C1 V1]; auto.
    intros w i Hw Hi. cbn [ct]. unfold lval, ltag. cbn [ct]. unfold tmap, inrange.
    destruct (N.ltb_spec w (p_assoc p)), (N.ltb_spec i (nblocks p)); try lia. cbn [andb]. apply te_inv.
  - assert (FN : tl_fin p c r d = (mkC (tmap p (ent_clean p) (ct c)) (cd c) (cr c), tl_resp r 0 0)) by (unfold tl_fin; rewrite FL; auto).
    assert (FE : flat_exec p (view p c m) r = (view p c m, 0)) by (unfold flat_exec; rewrite FL; auto).
    unfold c', y. rewrite FN, FE. cbn [fst snd].
    destruct (step_flush c m r C FL) as (S1 & S2 & S3). auto.
Qed.

(** the response echoes type, opaque and length *)
Lemma tl_fin_echo : forall c r d, cr_type (snd (tl_fin p c r d)) = cq_type r /\
  cr_opq (snd (tl_fin p c r d)) = cq_opq r /\ cr_len (snd (tl_fin p c r d)) = cq_len r.
Proof.
  intros. unfold tl_fin.
  destruct (cq_type r =? T_INV), (cq_type r =? T_FLUSH), (tl_isamo r), (tl_hit p c r); cbn; auto.
Qed.

(** a clean cache shows memory *)
Lemma cinv_init : forall c m, (forall w i, w < p_assoc p -> i < nblocks p -> te_val p (ct c w i) = false /\ te_dty p (ct c w i) = 0) ->
  (forall i, i < nblocks p -> cr c i = 0) ->
  cinv p c m /\ forall a, view p c m a = trunc 8 (m a).
Proof.
  intros c m H R. split.
  - constructor.
    + intros w w' i Hw Hw' Hi P. destruct (H w i Hw Hi) as [E1 E2]. unfold present, lval in P. rewrite E1, E2 in P. discriminate.
    + intros w i o Hw Hi Ho V. destruct (H w i Hw Hi) as [E1 E2]. unfold lval in V. congruence.
    + intros i Hi. rewrite R by auto. destruct (wf_assoc p W) as [-> | ->]; lia.
  - intros a. apply view_clean. intros w Hw. destruct (H w (a_idx p a) Hw (a_idx_lt p W a)) as [E1 E2].
    unfold dirty_at, ldty. rewrite E2, N.bits_0. apply andb_false_r.
Qed.

End V2.
