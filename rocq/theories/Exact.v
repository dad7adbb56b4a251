(** C61: the bookkeeping of ExactSpec.v follows the cache. *)
From Coq Require Import Arith NArith List Bool Lia.
From Verif Require Import Bits Params Msg Units Tl Mem Spec ParamsProofs UnitProofs ViewDefs ViewOps ViewProofs Traffic MetaProofs PendProofs SysProofs Facts2 TrafProofs ExactSpec.
Import ListNotations.
Open Scope N_scope.

Section P.
Variable p : params.
Hypothesis W : wf_params p.

Definition slot_ok (c : cst) (i w : N) : option (N * bool) :=
  if lval p c w i then Some (lno p c i w, true)
  else if te_dty p (ct c w i) =? 0 then None else Some (lno p c i w, false).
Record xrel (x : xst) (c : cst) : Prop := mkXr {
  xr_pend : pendeq p (x_pend x) c;
  xr_slot : forall i w, i < nblocks p -> w < p_assoc p -> x_slot x i w = slot_ok c i w;
  xr_next : forall i, i < nblocks p -> x_next x i = cr c i }.

Lemma slot_present : forall c i w, (exists v, slot_ok c i w = Some (lno p c i w, v)) /\ present p c w i = true \/
  slot_ok c i w = None /\ present p c w i = false.
Proof.
  intros c i w. unfold slot_ok, present. destruct (lval p c w i); [left; eauto|]. cbn [orb].
  destruct (N.eqb_spec (te_dty p (ct c w i)) 0); cbn [negb]; [right | left]; eauto.
Qed.

(** *** masks *)
Lemma mask_bit : forall (f : N -> bool) n j, N.testbit (fold_right N.lor 0 (map (fun j => if f j then 2 ^ j else 0) (range n))) j = (j <? n) && f j.
Proof.
  intros f n j. apply eq_true_iff_eq. rewrite andb_true_iff, N.ltb_lt.
  assert (G : forall L, N.testbit (fold_right N.lor 0 (map (fun j => if f j then 2 ^ j else 0) L)) j = true <-> In j L /\ f j = true).
  { induction L as [|k L IH]; cbn [map fold_right In].
    - rewrite N.bits_0. split; [discriminate | tauto].
    - rewrite N.lor_spec, orb_true_iff, IH. destruct (f k) eqn:F.
      + rewrite N.pow2_bits_eqb, N.eqb_eq. split; [intros [-> | H]; tauto | intros [[-> | H] H']; tauto].
      + rewrite N.bits_0. split; [intros [H | H]; [discriminate | tauto] | intros [[-> | H] H']; [congruence | tauto]]. }
  rewrite G, in_range. tauto.
Qed.
Lemma words_dty : words p = dtyw p.
Proof. reflexivity. Qed.

(** the words of a line in the cache *)
Lemma line_word : forall t i j, t < 2 ^ tagw p -> i < nblocks p -> j < dtyw p ->
  let a := mk_addr p t i (4 * j) in
  a < 2 ^ p_abw p /\ a_tag p a = t /\ a_idx p a = i /\ a_off p a / 4 = j /\ word_num a = dtyw p * (t * nblocks p + i) + j.
Proof.
  intros t i j T I J a. assert (I' : i < 2 ^ idxw p) by (apply idx_pow; auto).
  assert (O : 4 * j < 2 ^ offw p) by (rewrite (off_words p W); lia).
  assert (A : a < 2 ^ p_abw p) by (apply mk_addr_lt; auto).
  assert (ET : a_tag p a = t) by (apply a_tag_mk; auto).
  assert (EI : a_idx p a = i) by (apply a_idx_mk; auto).
  assert (EO : a_off p a / 4 = j).
  { unfold a. rewrite a_off_mk by auto. rewrite N.mul_comm. apply N.div_mul. discriminate. }
  repeat (split; auto). rewrite (word_in p W) by auto. rewrite EO, (line_eq p W) by auto. rewrite ET, EI. auto.
Qed.
Lemma mask_line : forall P c w i, pendeq p P c -> uniq p c -> w < p_assoc p -> i < nblocks p -> present p c w i = true ->
  pend_mask p P (lno p c i w) = te_dty p (ct c w i).
Proof.
  intros P c w i PE U Hw Hi PR. apply N.bits_inj. intro j. unfold pend_mask. rewrite mask_bit, words_dty.
  destruct (N.ltb_spec j (dtyw p)) as [J|J]; cbn [andb].
  - destruct (line_word (ltag p c w i) i j (te_tag_lt p _) Hi J) as (A & ET & EI & EO & EW).
    unfold lno. rewrite <- EW, PE by auto. rewrite (dset_at p W c _ w U Hw).
    + unfold ldty. rewrite EO, EI. auto.
    + rewrite EI. auto.
    + rewrite EI, ET. auto.
  - symmetry. apply testbit_high with (dtyw p); auto. apply te_dty_lt.
Qed.
Lemma unpend_clear : forall P q l, mq_addr q = line_bytes p * l -> forall k, unpend p P l k = clear p P q k.
Proof.
  intros P q l E k. unfold unpend, clear, in_req. f_equal. f_equal. rewrite E, words_dty, (clw_words p), (lb_words p W).
  assert (X : word_num (4 * dtyw p * l) = dtyw p * l).
  { unfold word_num. rewrite <- N.mul_assoc, N.mul_comm. apply N.div_mul. discriminate. }
  rewrite X. pose proof (dty_pos p W) as D. set (n := dtyw p) in *. clearbody n.
  pose proof (N.div_mod' k n) as DM. pose proof (N.mod_lt k n ltac:(lia)) as ML.
  set (a := k / n) in *. set (b := k mod n) in *. clearbody a b.
  destruct (N.eqb_spec a l) as [->|N]; destruct (N.leb_spec (n * l) k), (N.ltb_spec k (n * l + n)); cbn [andb]; auto; exfalso; nia.
Qed.
Lemma unpend_none : forall P c w i, pendeq p P c -> uniq p c -> w < p_assoc p -> i < nblocks p -> present p c w i = true ->
  te_dty p (ct c w i) = 0 -> pendeq p (unpend p P (lno p c i w)) c.
Proof.
  intros P c w i PE U Hw Hi PR Z a A. unfold unpend. rewrite PE by auto.
  destruct (N.eqb_spec (word_num a / words p) (lno p c i w)) as [E|E]; [|apply andb_true_r]. cbn [negb]. rewrite andb_false_r. symmetry.
  assert (EL : word_num a / words p = line_of p a).
  { rewrite words_dty, (word_in p W) by auto. pose proof (off4_lt p W a) as O. set (o := a_off p a / 4) in *. clearbody o.
    symmetry. apply N.div_unique with o; auto. }
  rewrite EL, (line_eq p W) in E by auto. apply (lno_inj2 p W) in E; auto; [|apply a_idx_lt; auto]. destruct E as [ET EI].
  rewrite (dset_at p W c a w U Hw).
  - unfold ldty. rewrite EI, Z. apply N.bits_0.
  - rewrite EI. auto.
  - rewrite EI. auto.
Qed.

(** *** the way of a line *)
Lemma way_spec : forall x c r, xrel x c -> uniq p c -> cq_addr r < 2 ^ p_abw p ->
  x_way p x (line_of p (cq_addr r)) = (if tl_hit p c r || tl_inval p c r then Some (tl_hw p c r) else None).
Proof.
  intros x c r X U A. pose proof (look_spec p W c r U) as LK. unfold x_way. rewrite (line_set p W) by auto.
  set (i := a_idx p (cq_addr r)) in *. assert (Hi : i < nblocks p) by (apply a_idx_lt; auto).
  assert (F : forall w, w < p_assoc p -> (match x_slot x i w with Some (l', _) => l' =? line_of p (cq_addr r) | None => false end = true <->
     present p c w i = true /\ ltag p c w i = a_tag p (cq_addr r))).
  { intros w Hw. rewrite (xr_slot _ _ X) by auto. destruct (slot_present c i w) as [((v & ->) & ->) | (-> & ->)].
    - rewrite N.eqb_eq, (line_eq p W) by auto. unfold lno. fold i. split; [intros E; split; auto; apply (lno_inj p W) in E; auto | intros [_ ->]; auto].
    - split; [discriminate | intros [? _]; discriminate]. }
  assert (G : tl_hit p c r || tl_inval p c r = true -> tl_hw p c r < p_assoc p /\ present p c (tl_hw p c r) i = true /\ ltag p c (tl_hw p c r) i = a_tag p (cq_addr r)).
  { destruct (tl_hit p c r), (tl_inval p c r); intros H; try discriminate H; inversion LK; subst; split; auto; split; auto using lval_present.
    unfold present. match goal with Z : te_dty p _ <> 0 |- _ => apply N.eqb_neq in Z; rewrite Z end. apply orb_true_r. }
  destruct (find _ _) as [w|] eqn:FI.
  - apply find_some in FI. destruct FI as [I1 I2]. apply in_range in I1. apply F in I2; auto. destruct I2 as [I2 I3].
    destruct (tl_hit p c r || tl_inval p c r) eqn:HI.
    + destruct (G eq_refl) as (G1 & G2 & G3). f_equal. apply (U w (tl_hw p c r) i); auto. congruence.
    + exfalso. apply orb_false_iff in HI. destruct HI as [H1 H2]. rewrite H1, H2 in LK. inversion LK as [| |N0 N1]. apply (N0 w); auto.
  - destruct (tl_hit p c r || tl_inval p c r) eqn:HI; auto. exfalso. destruct (G eq_refl) as (G1 & G2 & G3).
    apply find_none with (x := tl_hw p c r) in FI; [|apply in_range; auto]. rewrite (proj2 (F _ G1)) in FI; [discriminate | auto].
Qed.

(** *** write-backs *)
Lemma wb_shape : forall P c w i, pendeq p P c -> uniq p c -> w < p_assoc p -> i < nblocks p -> present p c w i = true ->
  wb p P (lno p c i w) = if line_dirty p true (ct c w i)
    then [mkShape T_WRITE (line_bytes p * lno p c i w) 0 (te_dty p (ct c w i))] else [].
Proof.
  intros P c w i PE U Hw Hi PR. unfold wb, line_dirty. rewrite (mask_line P c w i) by auto. cbn [andb]. destruct (te_dty p (ct c w i) =? 0); auto.
Qed.
Lemma base_mul : forall t i, t < 2 ^ tagw p -> i < nblocks p -> line_addr p (mk_addr p t i 0) = line_bytes p * (t * nblocks p + i).
Proof. intros t i T I. rewrite (line_addr_base p W) by auto. apply (addr_mul p W); auto. Qed.
Lemma evict_shape : forall c r w, shape_of (evict_req p c r w) =
  mkShape T_WRITE (line_bytes p * lno p c (a_idx p (cq_addr r)) w) 0 (te_dty p (ct c w (a_idx p (cq_addr r)))).
Proof.
  intros c r w. rewrite evict_req_eq. unfold shape_of. cbn [mq_type mq_addr mq_len mq_mask]. change (T_WRITE =? T_WRITE) with true. cbn iota.
  rewrite base_mul; [auto | apply te_tag_lt | apply a_idx_lt; auto].
Qed.

Lemma pendeq_ext : forall P P' c, (forall k, P k = P' k) -> pendeq p P c -> pendeq p P' c.
Proof. intros P P' c E H a A. rewrite <- E. auto. Qed.

Lemma slot_eq : forall c c' i w i' w', ct c w i = ct c' w' i' -> i = i' -> slot_ok c i w = slot_ok c' i' w'.
Proof. intros c c' i w i' w' E ->. unfold slot_ok, lval, lno, ltag. rewrite E. auto. Qed.

Lemma other_rep : forall c r, tl_isamo r = false -> tl_way p c r < p_assoc p -> tl_rep' p c r = other p (tl_way p c r).
Proof.
  intros c r NA Hw. unfold other. destruct (wf_assoc p W) as [A | A].
  - unfold tl_rep', repl_policy. rewrite NA, A. auto.
  - rewrite (rep_rw p c r A NA), A. unfold not1. auto.
Qed.

Lemma unpend_same : forall P c w i a, pendeq p P c -> uniq p c -> w < p_assoc p -> i < nblocks p -> present p c w i = true ->
  te_dty p (ct c w i) = 0 -> a < 2 ^ p_abw p -> unpend p P (lno p c i w) (word_num a) = P (word_num a).
Proof. intros P c w i a PE U Hw Hi PR Z A. rewrite (PE a A). apply (unpend_none P c w i PE U Hw Hi PR Z a A). Qed.

Lemma put_same : forall S i w v, put S i w v i w = v.
Proof. intros. unfold put. rewrite !N.eqb_refl. auto. Qed.
Lemma put_other : forall S i w v i' w', w' <> w \/ i' <> i -> put S i w v i' w' = S i' w'.
Proof.
  intros S i w v i' w' H. unfold put. destruct (N.eqb_spec i' i), (N.eqb_spec w' w); auto. destruct H; contradiction.
Qed.
Lemma put1_upd : forall f i v j, put1 f i v j = upd f i v j.
Proof. reflexivity. Qed.

(** *** READ and WRITE *)
Lemma x_enter : forall x c m r d P, xrel x c -> cinv p c m -> wf_req p r -> rw_req r = true -> pendeq p P (c_evict p c r) ->
  xrel (mkX (mark p P r) (put (x_slot x) (a_idx p (cq_addr r)) (tl_way p c r) (Some (line_of p (cq_addr r), true)))
            (put1 (x_next x) (a_idx p (cq_addr r)) (other p (tl_way p c r)))) (fst (tl_fin p c r d)).
Proof.
  intros x c m r d P X C WF T PE. pose proof WF as (HA & _). pose proof (ci_uniq _ _ _ C) as U. destruct (rw_type r T) as (NA & _ & _).
  destruct (meta_way p W c r U (ci_rep _ _ _ C) NA) as [Hw _].
  destruct (meta_rw p W c r d WF T U (ci_rep _ _ _ C)) as (M1 & M2 & M3 & _ & M5 & _).
  set (c' := fst (tl_fin p c r d)) in *. set (i0 := a_idx p (cq_addr r)) in *. set (w0 := tl_way p c r) in *.
  constructor; cbn [x_pend x_slot x_next].
  - eapply pend_rw; eauto.
  - intros i w Hi Hw'. destruct (same_line w i w0 i0) as [(-> & ->) | N].
    + rewrite put_same. unfold slot_ok. rewrite M2. unfold lno. rewrite M3, (line_eq p W) by auto. auto.
    + rewrite put_other by auto. rewrite (xr_slot _ _ X) by auto. apply slot_eq; auto. symmetry. apply M1. auto.
  - intros i Hi. rewrite M5, put1_upd. unfold upd. destruct (i =? i0); [|apply (xr_next _ _ X); auto].
    symmetry. apply other_rep; auto.
Qed.

Definition xstep_ok (x : xst) (c : cst) (r : creq) : Prop :=
  map shape_of (tl_reqs p c r) = fst (x_step p x r) /\ forall d, xrel (snd (x_step p x r)) (fst (tl_fin p c r d)).

Lemma x_rw_ok : forall x c m r, xrel x c -> cinv p c m -> wf_req p r -> rw_req r = true -> xstep_ok x c r.
Proof.
  intros x c m r X C WF T. pose proof WF as (HA & _). pose proof (ci_uniq _ _ _ C) as U. destruct (rw_type r T) as (NA & NI & NF).
  destruct (meta_way p W c r U (ci_rep _ _ _ C) NA) as [Hw _].
  pose proof (look_spec p W c r U) as LK. pose proof (way_spec x c r X U HA) as XW.
  assert (RQ : tl_reqs p c r = if tl_hit p c r then [] else wbs p c r ++ [refill_req p c r]).
  { unfold tl_reqs, tl_isamo. rewrite NI, NF, NA. auto. }
  assert (RS : shape_of (refill_req p c r) = mkShape T_READ (line_bytes p * line_of p (cq_addr r)) 0 0).
  { unfold shape_of, refill_req. cbn [mq_type mq_addr mq_len mq_mask]. change (T_READ =? T_WRITE) with false. cbn iota. rewrite (line_addr_mul p W) by auto. auto. }
  assert (Hi : a_idx p (cq_addr r) < nblocks p) by (apply a_idx_lt; auto).
  assert (IA : tl_isamo r = false) by exact NA.
  unfold xstep_ok, x_step. rewrite NI, NF, NA. unfold x_rw. rewrite XW, RQ, (line_set p W) by auto.
  pose proof (fun P d => x_enter x c m r d P X C WF T) as EN.
  assert (WY : tl_way p c r = if tl_hit p c r || tl_inval p c r then tl_hw p c r else tl_rep p c r).
  { unfold tl_way. rewrite IA. destruct (tl_hit p c r), (tl_inval p c r); auto. }
  assert (CE : tl_evict p c r = false -> pendeq p (x_pend x) (c_evict p c r)).
  { intros E. unfold c_evict. rewrite E. apply (xr_pend _ _ X). }
  destruct (tl_hit p c r || tl_inval p c r) eqn:HI.
  - (* the line is there *)
    rewrite WY in *.
    assert (EV : tl_evict p c r = false).
    { unfold tl_evict. rewrite IA. destruct (tl_hit p c r), (tl_inval p c r); try discriminate HI; auto. }
    cbn [fst snd x_pend x_slot x_next]. split; [|intros d; apply EN; auto].
    rewrite (xr_slot _ _ X) by auto. unfold slot_ok, wbs. rewrite EV. cbn [app map].
    destruct (tl_hit p c r) eqn:H1, (tl_inval p c r) eqn:H2; try discriminate HI; inversion LK as [w1 L1 L2 L3|w1 L1 L2 L3 L4|]; subst.
    + rewrite L2. auto.
    + rewrite L2. apply N.eqb_neq in L3. rewrite L3. cbn [map]. rewrite RS. auto.
  - (* it is not *)
    apply orb_false_iff in HI. destruct HI as [H1 H2]. rewrite H1 in *.
    assert (EV : tl_evict p c r = line_dirty p true (ct c (tl_rep p c r) (a_idx p (cq_addr r)))).
    { unfold tl_evict. rewrite IA, H1, H2. auto. }
    rewrite (xr_next _ _ X) by auto. fold (tl_rep p c r). rewrite WY in *. rewrite (xr_slot _ _ X) by auto.
    destruct (slot_present c (a_idx p (cq_addr r)) (tl_rep p c r)) as [((v & ->) & PR) | (-> & PR)]; cbn [fst snd x_pend x_slot x_next].
    + split.
      * rewrite (wb_shape (x_pend x) c) by (auto; apply (xr_pend _ _ X)). rewrite <- EV, map_app. cbn [map]. rewrite RS. f_equal.
        unfold wbs. destruct (tl_evict p c r); auto. cbn [map]. rewrite WY, evict_shape. auto.
      * intros d. apply EN. unfold c_evict. destruct (tl_evict p c r) eqn:E.
        -- destruct (evict_wb p W c m (x_pend x) (view p c m) r C (xr_pend _ _ X)) as (_ & B2 & B3); auto.
           { rewrite WY. auto. } { rewrite WY. apply (dirty_nz p). auto. }
           eapply pendeq_ext; [|exact B2]. intros k. symmetry. apply unpend_clear. rewrite B3, WY. auto.
        -- apply unpend_none; auto; [apply (xr_pend _ _ X)|]. symmetry in EV. unfold line_dirty in EV. cbn [andb] in EV.
           apply negb_false_iff in EV. apply N.eqb_eq in EV. auto.
    + assert (E : tl_evict p c r = false).
      { rewrite EV. unfold line_dirty. unfold present in PR. apply orb_false_iff in PR. cbn [andb]. apply PR. }
      split; [|intros d; apply EN; auto]. unfold wbs. rewrite E. cbn [app map]. rewrite RS. auto.
Qed.

(** *** AMO *)
Lemma x_amo_ok : forall x c m r, xrel x c -> cinv p c m -> wf_req p r -> wf_amo p r -> xstep_ok x c r.
Proof.
  intros x c m r X C WF WA. pose proof WF as (HA & _). pose proof (ci_uniq _ _ _ C) as U.
  destruct (amo_type p r WA) as (NR & IA & NI & NF & _ & NW).
  pose proof (look_spec p W c r U) as LK. pose proof (way_spec x c r X U HA) as XW.
  assert (Hi : a_idx p (cq_addr r) < nblocks p) by (apply a_idx_lt; auto).
  assert (RQ : tl_reqs p c r = wbs p c r ++ [amo_req p c r]).
  { unfold tl_reqs, tl_isamo. rewrite NI, NF, IA. auto. }
  assert (QS : shape_of (amo_req p c r) = mkShape (cq_type r) (cq_addr r) 4 0).
  { unfold shape_of, amo_req. cbn [mq_type mq_addr mq_len mq_mask]. rewrite NW. destruct WA as (_ & _ & DL). f_equal.
    - cbn [off_len fst]. apply mk_addr_parts; auto.
    - unfold off_len. cbn [snd]. destruct (N.eqb_spec (p_dbw p) 32); auto. destruct DL; [contradiction | auto]. }
  assert (WY : tl_way p c r = tl_hw p c r) by (unfold tl_way, tl_isamo; rewrite IA; auto).
  assert (EVE : tl_evict p c r = line_dirty p true (ct c (tl_hw p c r) (a_idx p (cq_addr r))) && (tl_hit p c r || tl_inval p c r)).
  { unfold tl_evict, tl_isamo. rewrite IA. auto. }
  pose proof (fun d => meta_amo p c r d WA) as MA. cbv zeta in MA.
  pose proof (fun d => proj2 (traf_amo p W c m (x_pend x) lru_empty (view p c m) r d C (xr_pend _ _ X) (fun a _ => eq_refl) WF WA)) as PA.
  assert (NWQ : is_write (amo_req p c r) = false) by exact NW.
  rewrite RQ, (writes_wbs p c r _ NWQ) in PA.
  assert (MK : forall P, mark p P r = P) by (intros P; unfold mark; rewrite NW; auto). rewrite MK in PA.
  unfold xstep_ok, x_step. rewrite NI, NF, IA. unfold x_amo. rewrite XW, RQ, (line_set p W) by auto.
  destruct (tl_hit p c r || tl_inval p c r) eqn:HI.
  - assert (G : tl_hw p c r < p_assoc p /\ present p c (tl_hw p c r) (a_idx p (cq_addr r)) = true /\ ltag p c (tl_hw p c r) (a_idx p (cq_addr r)) = a_tag p (cq_addr r)).
    { destruct (tl_hit p c r), (tl_inval p c r); try discriminate HI; inversion LK as [w1 L1 L2 L3|w1 L1 L2 L3 L4|]; subst; split; auto; split; auto using lval_present.
      unfold present. apply N.eqb_neq in L3. rewrite L3. apply orb_true_r. }
    destruct G as (Hw & PR & TG). rewrite andb_true_r in EVE. cbn [fst snd].
    assert (LN : lno p c (a_idx p (cq_addr r)) (tl_hw p c r) = line_of p (cq_addr r)).
    { unfold lno. rewrite TG, (line_eq p W) by auto. auto. }
    split.
    + rewrite <- LN, (wb_shape (x_pend x) c) by (auto; apply (xr_pend _ _ X)). rewrite <- EVE, map_app. cbn [map]. rewrite QS. f_equal.
      unfold wbs. destruct (tl_evict p c r); auto. cbn [map]. rewrite WY, evict_shape. auto.
    + intros d. destruct (MA d) as (M1 & (M2 & M2' & M2'') & _). specialize (PA d).
      set (c' := fst (tl_fin p c r d)) in *. constructor; cbn [x_pend x_slot x_next].
      * unfold wbs in PA. destruct (tl_evict p c r).
        -- cbn [clears fold_left] in PA. eapply pendeq_ext; [|exact PA]. intros k. symmetry. apply unpend_clear. rewrite <- LN, WY.
           rewrite evict_req_eq. cbn [mq_addr]. rewrite base_mul; [auto | apply te_tag_lt | auto].
        -- cbn [clears fold_left] in PA. intros a A. rewrite <- PA by auto. rewrite <- LN. apply (unpend_same (x_pend x) c); auto; [apply (xr_pend _ _ X)|].
           symmetry in EVE. unfold line_dirty in EVE. cbn [andb] in EVE. apply negb_false_iff in EVE. apply N.eqb_eq in EVE. auto.
      * intros i w Hi' Hw'. destruct (same_line w i (tl_hw p c r) (a_idx p (cq_addr r))) as [(-> & ->) | N].
        -- rewrite put_same. unfold slot_ok. rewrite M2, M2'. auto.
        -- rewrite put_other by auto. rewrite (xr_slot _ _ X) by auto. apply slot_eq; auto. symmetry. apply M1. auto.
      * intros i Hi'. rewrite M2'', put1_upd. unfold upd. destruct (i =? a_idx p (cq_addr r)); [|apply (xr_next _ _ X); auto].
        unfold tl_rep', tl_isamo, repl_policy. rewrite IA. destruct (wf_assoc p W) as [A | A]; rewrite A in *.
        -- change (1 =? 2) with false. cbn iota. lia.
        -- change (2 =? 2) with true. cbn iota. unfold not1. lia.
  - rewrite andb_false_r in EVE. cbn [fst snd]. unfold wbs in *. rewrite EVE in *. cbn [app map]. rewrite QS. split; auto.
    intros d. destruct (MA d) as (_ & M2 & _). rewrite M2 in *. destruct X as [X1 X2 X3]. constructor; auto.
Qed.

(** *** INV and FLUSH *)
Lemma x_inv_ok : forall x c m r, xrel x c -> cinv p c m -> cq_type r = T_INV -> xstep_ok x c r.
Proof.
  intros x c m r X C T. pose proof (ci_uniq _ _ _ C) as U.
  assert (E : x_step p x r = ([], x_inv p x)) by (unfold x_step; rewrite T; auto).
  assert (R0 : tl_reqs p c r = []) by (unfold tl_reqs; rewrite T; auto).
  assert (FI : forall d, fst (tl_fin p c r d) = mkC (tmap p (ent_inv p) (ct c)) (cd c) (cr c)) by (intros d; unfold tl_fin; rewrite T; auto).
  unfold xstep_ok. rewrite E, R0. cbn [fst snd map]. split; auto. intros d. rewrite FI. unfold x_inv. constructor; cbn [x_pend x_slot x_next cr].
  - eapply pend_ext; [apply (xr_pend _ _ X)|]. intros a w Hw. unfold dirty_at, ltag, ldty. cbn [ct].
    pose proof (a_idx_lt p W a). rewrite (ct_tmap p) by auto. destruct (te_inv p (ct c w (a_idx p a))) as (_ & E1 & E2). rewrite E1, E2. auto.
  - intros i w Hi Hw. rewrite (xr_slot _ _ X) by auto. destruct (te_inv p (ct c w i)) as (E0 & E1 & E2).
    set (c' := mkC _ _ _). assert (L : lno p c' i w = lno p c i w).
    { unfold lno, ltag, c'. cbn [ct]. rewrite (ct_tmap p) by auto. congruence. }
    assert (S : slot_ok c' i w = if te_dty p (ct c w i) =? 0 then None else Some (lno p c i w, false)).
    { unfold slot_ok, lval. rewrite L. unfold c'. cbn [ct]. rewrite (ct_tmap p) by auto. rewrite E0, E1. auto. }
    rewrite S. destruct (slot_present c i w) as [((v & ->) & PR) | (-> & PR)].
    + rewrite (mask_line (x_pend x) c) by (auto; apply (xr_pend _ _ X)). auto.
    + unfold present in PR. apply orb_false_iff in PR. destruct PR as [_ PR]. apply negb_false_iff in PR. rewrite PR. auto.
  - apply (xr_next _ _ X).
Qed.

Lemma range_S : forall k, range (N.of_nat (S k)) = range (N.of_nat k) ++ [N.of_nat k].
Proof. intros k. unfold range. rewrite !Nat2N.id, seq_S, map_app. auto. Qed.

Lemma flush_shapes : forall x c opq k, xrel x c -> uniq p c -> N.of_nat k <= total_lines p ->
  map shape_of (flush_reqs p c opq k) =
  flat_map (fun k => match x_slot x (k / p_assoc p) (k mod p_assoc p) with Some (l, _) => wb p (x_pend x) l | None => [] end) (rev (range (N.of_nat k))).
Proof.
  intros x c opq k X U. induction k as [|k IH]; intros K; auto. rewrite range_S, rev_app_distr. cbn [rev app flat_map flush_reqs].
  rewrite map_app, IH by lia. f_equal. assert (Hk : N.of_nat k < total_lines p) by lia.
  pose proof (lway_lt p W (N.of_nat k)) as Hw. pose proof (lidx_lt p W _ Hk) as Hi.
  rewrite <- (lidx_div p W) by auto. fold (lway p (N.of_nat k)). rewrite (xr_slot _ _ X) by auto.
  destruct (slot_present c (lidx p (N.of_nat k)) (lway p (N.of_nat k))) as [((v & ->) & PR) | (-> & PR)].
  - rewrite (wb_shape (x_pend x) c) by (auto; apply (xr_pend _ _ X)). destruct (line_dirty p true _); auto. cbn [map].
    unfold shape_of, flush_req. cbn [mq_type mq_addr mq_len mq_mask]. change (T_WRITE =? T_WRITE) with true. cbn iota.
    rewrite base_mul; [auto | apply te_tag_lt | auto].
  - unfold present in PR. apply orb_false_iff in PR. destruct PR as [_ PR]. unfold line_dirty. cbn [andb]. rewrite PR. auto.
Qed.

Lemma x_flush_ok : forall x c m r, xrel x c -> cinv p c m -> cq_type r = T_FLUSH -> xstep_ok x c r.
Proof.
  intros x c m r X C T. pose proof (ci_uniq _ _ _ C) as U.
  assert (E : x_step p x r = x_flush p x) by (unfold x_step; rewrite T; auto).
  assert (R0 : tl_reqs p c r = flush_reqs p c (cq_opq r) (N.to_nat (total_lines p))) by (unfold tl_reqs; rewrite T; auto).
  assert (FI : forall d, fst (tl_fin p c r d) = mkC (tmap p (ent_clean p) (ct c)) (cd c) (cr c)) by (intros d; unfold tl_fin; rewrite T; auto).
  unfold xstep_ok. rewrite E, R0. unfold x_flush. cbn [fst snd]. split.
  - rewrite (flush_shapes x c) by (auto; rewrite N2Nat.id; lia). rewrite N2Nat.id. rewrite (total_eq p W), (N.mul_comm (p_assoc p)). auto.
  - intros d. rewrite FI. set (c' := mkC _ _ _).
    assert (CL : forall w i, w < p_assoc p -> i < nblocks p -> lval p c' w i = lval p c w i /\ te_dty p (ct c' w i) = 0 /\ ltag p c' w i = ltag p c w i).
    { intros w i Hw Hi. unfold lval, ltag, c'. cbn [ct]. rewrite (ct_tmap p) by auto. apply te_clean. }
    constructor; cbn [x_pend x_slot x_next].
    + intros a A. symmetry. apply not_true_iff_false. intro D. apply dset_true in D. destruct D as (w & Hw & D).
      apply dirty_at_inv in D. destruct D as [_ D]. unfold ldty in D. destruct (CL w (a_idx p a) Hw (a_idx_lt p W a)) as (_ & Z & _).
      rewrite Z, N.bits_0 in D. discriminate.
    + intros i w Hi Hw. rewrite (xr_slot _ _ X) by auto. destruct (CL w i Hw Hi) as (V & Z & TG). unfold slot_ok, lno. rewrite V, Z, TG.
      destruct (lval p c w i); auto. destruct (te_dty p (ct c w i) =? 0); auto.
    + apply (xr_next _ _ X).
Qed.

Theorem xstep : forall x c m r, xrel x c -> cinv p c m -> wf_req p r -> xstep_ok x c r.
Proof.
  intros x c m r X C WF. destruct (rw_req r) eqn:T; [eapply x_rw_ok; eauto|].
  destruct (not_rw p r WF T) as [WA | [TI | TF]]; [eapply x_amo_ok | eapply x_inv_ok | eapply x_flush_ok]; eauto.
Qed.

Lemma xrel_init : forall c, (forall w i, w < p_assoc p -> i < nblocks p -> te_val p (ct c w i) = false /\ te_dty p (ct c w i) = 0) ->
  (forall j, cr c j = 0) -> xrel x_empty c.
Proof.
  intros c H R. constructor; cbn [x_empty x_pend x_slot x_next]; auto.
  - intros a A. symmetry. apply not_true_iff_false. intro D. apply dset_true in D. destruct D as (w & Hw & D).
    apply dirty_at_inv in D. destruct D as [_ D]. unfold ldty in D. destruct (H w (a_idx p a) Hw (a_idx_lt p W a)) as (_ & Z).
    rewrite Z, N.bits_0 in D. discriminate.
  - intros i w Hi Hw. unfold slot_ok, lval. destruct (H w i Hw Hi) as [-> ->]. auto.
Qed.
End P.
