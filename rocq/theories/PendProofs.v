(** Pending words: the dirty bits of the cache are exactly the words written and
    not yet written back; what write-backs carry. *)
From Coq Require Import NArith List Bool Lia.
From Verif Require Import Bits Params Msg Units Tl Mem Spec ParamsProofs UnitProofs ViewDefs ViewOps ViewProofs Traffic MetaProofs.
Import ListNotations.
Open Scope N_scope.

Section P.
Variable p : params.
Hypothesis W : wf_params p.

Definition dset (c : cst) (a : N) : bool := existsb (fun w => dirty_at p c w a) (range (p_assoc p)).
Definition pendeq (P : N -> bool) (c : cst) : Prop := forall a, a < 2 ^ p_abw p -> P (word_num a) = dset c a.

Lemma dset_true : forall c a, dset c a = true <-> exists w, w < p_assoc p /\ dirty_at p c w a = true.
Proof.
  intros. unfold dset. rewrite existsb_exists. split; intros (w & H1 & H2); exists w; rewrite in_range in *; auto.
Qed.
Lemma dset_eq : forall c c' a, (forall w, w < p_assoc p -> dirty_at p c' w a = dirty_at p c w a) -> dset c' a = dset c a.
Proof.
  intros c c' a H. apply eq_true_iff_eq. rewrite !dset_true. split; intros (w & Hw & D); exists w; rewrite H in * by auto; auto.
Qed.
(** the only candidate is a line with the right tag *)
Lemma dset_at : forall c a w, uniq p c -> w < p_assoc p -> present p c w (a_idx p a) = true ->
  ltag p c w (a_idx p a) = a_tag p a -> dset c a = ldty p c w (a_idx p a) (a_off p a / 4).
Proof.
  intros c a w U Hw P T. apply eq_true_iff_eq. rewrite dset_true. split.
  - intros (w' & Hw' & D). apply dirty_at_inv in D. destruct D as [D1 D2].
    assert (w' = w); [|subst; auto]. apply (U w' w (a_idx p a)); auto; try congruence.
    + apply a_idx_lt; auto.
    + eapply ldty_present; eauto.
  - intros D. exists w. split; auto. unfold dirty_at. rewrite T, N.eqb_refl, D. auto.
Qed.

Lemma addr_mul : forall t i, t < 2 ^ tagw p -> i < nblocks p -> mk_addr p t i 0 = line_bytes p * (t * nblocks p + i).
Proof.
  intros t i T I. pose proof (mk_addr_lt p W t i 0 T) as L. pose proof (line_eq p W _ L) as E.
  assert (I' : i < 2 ^ idxw p) by (apply idx_pow; auto).
  rewrite a_tag_mk, a_idx_mk in E by auto. rewrite <- E. unfold line_of. rewrite (line_bytes_pow p W).
  pose proof (base_off0 p t i) as O. rewrite a_off_mod in O.
  pose proof (N.div_mod' (mk_addr p t i 0) (2 ^ offw p)). lia.
Qed.
Lemma lb_words : line_bytes p = 4 * dtyw p.
Proof. rewrite (line_bytes_pow p W). apply off_words; auto. Qed.
Lemma dty_pos : 0 < dtyw p.
Proof. rewrite (dtyw_off p W). apply pow2_pos. Qed.

(** word number of a byte of a line *)
Lemma word_in : forall a, a < 2 ^ p_abw p -> word_num a = dtyw p * line_of p a + a_off p a / 4.
Proof.
  intros a A. unfold word_num, line_of. rewrite a_off_mod, <- (line_bytes_pow p W).
  rewrite (N.div_mod' a (line_bytes p)) at 1. rewrite lb_words. pose proof dty_pos.
  set (q := a / (4 * dtyw p)). set (z := a mod (4 * dtyw p)). clearbody q z.
  replace (4 * dtyw p * q + z) with (z + (dtyw p * q) * 4) by lia. rewrite N.div_add by lia. lia.
Qed.
Lemma off4_lt : forall a, a_off p a / 4 < dtyw p.
Proof. intros a. apply N.div_lt_upper_bound; [lia|]. rewrite <- (off_words p W). apply a_off_lt. Qed.
Lemma word_line : forall t i, t < 2 ^ tagw p -> i < nblocks p -> word_num (mk_addr p t i 0) = dtyw p * (t * nblocks p + i).
Proof.
  intros t i T I. unfold word_num. rewrite addr_mul, lb_words by auto.
  rewrite <- N.mul_assoc, N.mul_comm, N.div_mul by lia. auto.
Qed.

Lemma in_req_line : forall q t i a, mq_addr q = mk_addr p t i 0 -> t < 2 ^ tagw p -> i < nblocks p -> a < 2 ^ p_abw p ->
  in_req p q (word_num a) = (a_tag p a =? t) && (a_idx p a =? i).
Proof.
  intros q t i a E T I A. unfold in_req. rewrite E, (word_line t i T I), (word_in a A), (clw_words p).
  pose proof (off4_lt a) as O. pose proof dty_pos as DP. rewrite (line_eq p W a A).
  pose proof (a_idx_lt p W a) as Ia. pose proof (nb_pos p W).
  set (k := a_off p a / 4) in *. set (x := a_tag p a * nblocks p + a_idx p a) in *. set (y := t * nblocks p + i) in *.
  destruct (N.eqb_spec (a_tag p a) t) as [ET|ET]; destruct (N.eqb_spec (a_idx p a) i) as [EI|EI]; cbn [andb].
  1: { assert (XY : x = y) by (unfold x, y; congruence). rewrite XY. clearbody k x y.
       destruct (N.leb_spec (dtyw p * y) (dtyw p * y + k)), (N.ltb_spec (dtyw p * y + k) (dtyw p * y + dtyw p)); auto; lia. }
  all: assert (XY : x <> y) by (unfold x, y; intro Z; apply (lno_inj2 p W) in Z; auto; lia); clearbody k x y;
       destruct (N.leb_spec (dtyw p * y) (dtyw p * x + k)), (N.ltb_spec (dtyw p * x + k) (dtyw p * y + dtyw p)); auto; nia.
Qed.

(** Writing back line [w], [i]. *)
Lemma pend_wb : forall c m P M w i opq, cinv p c m -> pendeq P c ->
  (forall a, a < 2 ^ p_abw p -> trunc 8 (view p c m a) = trunc 8 (M a)) -> w < p_assoc p -> i < nblocks p ->
  te_dty p (ct c w i) <> 0 ->
  let q := mkMReq T_WRITE opq (line_addr p (mk_addr p (ltag p c w i) i 0)) 0 (te_dty p (ct c w i)) (cd c (indexer p i w)) in
  wb_ok p P M q /\ pendeq (clear p P q) (c_clean p c w i) /\ mq_addr q = line_bytes p * lno p c i w.
Proof.
  intros c m P M w i opq C PE VM Hw Hi NZ q. pose proof (ci_uniq _ _ _ C) as U.
  set (t := ltag p c w i) in *. assert (HT : t < 2 ^ tagw p) by apply te_tag_lt.
  assert (I' : i < 2 ^ idxw p) by (apply idx_pow; auto).
  assert (EA : mq_addr q = mk_addr p t i 0) by (unfold q; cbn [mq_addr]; apply line_addr_base; auto).
  assert (PR : present p c w i = true).
  { unfold present. apply N.eqb_neq in NZ. rewrite NZ. apply orb_true_r. }
  assert (AL : mk_addr p t i 0 < 2 ^ p_abw p) by (apply mk_addr_lt; auto).
  assert (BY : forall o, o < line_bytes p -> let a := mk_addr p t i 0 + o in a < 2 ^ p_abw p /\
            a_tag p a = t /\ a_idx p a = i /\ a_off p a = o).
  { intros o Ho a. rewrite (line_bytes_pow p W) in Ho.
    destruct (addr_add p W (mk_addr p t i 0) o AL) as (A1 & A2 & A3 & A4); [rewrite base_off0; lia|].
    unfold a. rewrite A2, A3, A4, base_off0, a_tag_mk, a_idx_mk by auto. auto. }
  split; [|split].
  - constructor; try reflexivity.
    + rewrite EA. split; auto. rewrite addr_mul, N.mul_comm by auto. apply N.mod_mul. rewrite lb_words. pose proof dty_pos. lia.
    + exact NZ.
    + intros j. rewrite EA, (clw_words p). change (mq_mask q) with (te_dty p (ct c w i)).
      destruct (N.ltb_spec j (dtyw p)) as [J|J]; cbn [andb].
      * destruct (BY (4 * j)) as (B1 & B2 & B3 & B4); [rewrite lb_words; lia|].
        set (a := mk_addr p t i 0 + 4 * j) in *.
        assert (WN : word_num (mk_addr p t i 0) + j = word_num a).
        { unfold a, word_num. rewrite N.mul_comm, N.div_add by lia. auto. }
        rewrite WN, PE by auto. rewrite (dset_at c a w); auto; try (rewrite B3; auto).
        unfold ldty. rewrite B4. f_equal. rewrite N.mul_comm, N.div_mul; lia.
      * apply (testbit_high (dtyw p)); auto. apply te_dty_lt.
    + intros o Ho D. rewrite EA. destruct (BY o Ho) as (B1 & B2 & B3 & B4). rewrite <- VM by auto.
      change (mq_mask q) with (te_dty p (ct c w i)) in D.
      rewrite (view_dirty p W c m w _ U Hw).
      * rewrite B3, B4. unfold lbyte. rewrite trunc_gb. auto.
      * unfold dirty_at. rewrite B2, B3, B4. fold t. rewrite N.eqb_refl. exact D.
  - intros a A. unfold clear. rewrite PE by auto. rewrite (in_req_line q t i a EA HT Hi A).
    apply eq_true_iff_eq. rewrite andb_true_iff, !dset_true. split.
    + intros ((w' & Hw' & D) & N). exists w'. split; auto. apply dirty_at_inv in D. destruct D as [D1 D2].
      unfold dirty_at, ltag, ldty, c_clean. cbn [ct].
      rewrite tset_other; [unfold ltag in D1; rewrite D1, N.eqb_refl; exact D2|].
      destruct (N.eq_dec w' w) as [E|E]; [|auto]. destruct (N.eq_dec (a_idx p a) i) as [E'|E']; [|auto].
      exfalso. subst w'. rewrite E' in *. rewrite <- D1 in N. unfold t in N. rewrite !N.eqb_refl in N. discriminate.
    + intros (w' & Hw' & D). apply dirty_at_inv in D. destruct D as [D1 D2].
      unfold ltag, ldty, c_clean in D1, D2. cbn [ct] in D1, D2.
      destruct (same_line w' (a_idx p a) w i) as [(E1 & E2) | S].
      * exfalso. subst w'. rewrite E2, tset_same in D2. destruct (te_clean p (ct c w i)) as (_ & Z & _). rewrite Z, N.bits_0 in D2. discriminate.
      * rewrite tset_other in D1, D2 by auto. split.
        -- exists w'. split; auto. unfold dirty_at. unfold ltag, ldty. rewrite D1, N.eqb_refl. auto.
        -- destruct (N.eqb_spec (a_tag p a) t) as [ET|ET]; auto. destruct (N.eqb_spec (a_idx p a) i) as [EI|EI]; auto.
           exfalso. rewrite EI in *. assert (w' = w); [|destruct S; congruence].
           apply (U w' w i); auto; [eapply ldty_present; unfold ldty; eauto | unfold ltag at 1; rewrite D1; auto].
  - rewrite EA. apply addr_mul; auto.
Qed.

(** A line keeps its dirty bits, or they are new/old zero: nothing changes. *)
Lemma pend_ext : forall P c c', pendeq P c -> (forall a w, w < p_assoc p -> dirty_at p c' w a = dirty_at p c w a) -> pendeq P c'.
Proof. intros P c c' H E a A. rewrite H by auto. symmetry. apply dset_eq. auto. Qed.

Lemma clears_app : forall P l l', clears p P (l ++ l') = clears p (clears p P l) l'.
Proof. intros. unfold clears. apply fold_left_app. Qed.

(** *** READ / WRITE *)
Definition c_evict (c : cst) (r : creq) : cst :=
  if tl_evict p c r then c_clean p c (tl_way p c r) (a_idx p (cq_addr r)) else c.

Lemma evict_wb : forall c m P M r, cinv p c m -> pendeq P c ->
  (forall a, a < 2 ^ p_abw p -> trunc 8 (view p c m a) = trunc 8 (M a)) ->
  tl_way p c r < p_assoc p -> te_dty p (ct c (tl_way p c r) (a_idx p (cq_addr r))) <> 0 ->
  let q := evict_req p c r (tl_way p c r) in
  wb_ok p P M q /\ pendeq (clear p P q) (c_clean p c (tl_way p c r) (a_idx p (cq_addr r))) /\
  mq_addr q = line_bytes p * lno p c (a_idx p (cq_addr r)) (tl_way p c r).
Proof.
  intros c m P M r C PE VM Hw NZ q. unfold q. rewrite evict_req_eq. eapply pend_wb; eauto. apply a_idx_lt; auto.
Qed.

Lemma mark_word : forall r a, wf_req p r -> wf_write p r -> a < 2 ^ p_abw p ->
  (word_num (cq_addr r) <=? word_num a) && (word_num a <=? word_num (cq_addr r + req_bytes p r - 1)) =
  (a_tag p a =? a_tag p (cq_addr r)) && (a_idx p a =? a_idx p (cq_addr r)) &&
  ((a_off p (cq_addr r) / 4 <=? a_off p a / 4) && (a_off p a / 4 <=? (a_off p (cq_addr r) + req_bytes p r - 1) / 4)).
Proof.
  intros r a WF WR A. pose proof WF as (HA & _). pose proof (write_geo p W r WF WR) as G.
  pose proof (wg_fit _ _ _ G) as FIT. rewrite (wg_n _ _ _ G) in FIT.
  assert (NP : 1 <= req_bytes p r).
  { destruct (write_size p W r WF WR) as [(_ & _ & ->) | (_ & _ & [-> | [-> | ->]])]; lia. }
  destruct (addr_add p W (cq_addr r) (req_bytes p r - 1) HA) as (B1 & B2 & B3 & B4); [lia|].
  replace (cq_addr r + req_bytes p r - 1) with (cq_addr r + (req_bytes p r - 1)) by lia.
  replace (a_off p (cq_addr r) + req_bytes p r - 1) with (a_off p (cq_addr r) + (req_bytes p r - 1)) by lia.
  rewrite <- B4, !word_in, !(line_eq p W) by auto. rewrite B2, B3.
  pose proof (off4_lt a) as O1. pose proof (off4_lt (cq_addr r)) as O2. pose proof (off4_lt (cq_addr r + (req_bytes p r - 1))) as O3.
  pose proof (a_idx_lt p W a) as I1. pose proof (a_idx_lt p W (cq_addr r)) as I2.
  set (ka := a_off p a / 4) in *. set (kr := a_off p (cq_addr r) / 4) in *.
  set (ke := a_off p (cq_addr r + (req_bytes p r - 1)) / 4) in *. clearbody ka kr ke.
  set (x := a_tag p a * nblocks p + a_idx p a). set (y := a_tag p (cq_addr r) * nblocks p + a_idx p (cq_addr r)).
  pose proof dty_pos as DP.
  destruct (N.eqb_spec (a_tag p a) (a_tag p (cq_addr r))) as [ET|ET]; destruct (N.eqb_spec (a_idx p a) (a_idx p (cq_addr r))) as [EI|EI]; cbn [andb].
  1: { assert (XY : x = y) by (unfold x, y; congruence). rewrite XY. clearbody x y.
       destruct (N.leb_spec (dtyw p * y + kr) (dtyw p * y + ka)), (N.leb_spec (dtyw p * y + ka) (dtyw p * y + ke)),
         (N.leb_spec kr ka), (N.leb_spec ka ke); auto; lia. }
  all: assert (XY : x <> y) by (unfold x, y; intro Z; apply (lno_inj2 p W) in Z; auto; lia); clearbody x y;
       destruct (N.leb_spec (dtyw p * y + kr) (dtyw p * x + ka)), (N.leb_spec (dtyw p * x + ka) (dtyw p * y + ke)); auto; nia.
Qed.
End P.
