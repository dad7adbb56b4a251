(** C73: inclusion of a cache in a bigger one, and its consequences for traffic. *)
From Coq Require Import Arith NArith List Bool Lia.
From Verif Require Import Bits Params Msg Rtl Mem Spec System ParamsProofs Traffic MetaProofs PendProofs TrafProofs ExactSpec Exact Bigger BiggerSpec.
Import ListNotations.
Open Scope N_scope.

Section R.
Variables p q : params.
Hypothesis Wp : wf_params p.
Hypothesis Wq : wf_params q.
Hypothesis B : bigger p q.

Lemma sub_sets : forall a b, a mod nblocks q = b mod nblocks q -> a mod nblocks p = b mod nblocks p.
Proof.
  assert (H : forall a, (a mod nblocks q) mod nblocks p = a mod nblocks p).
  { intros a. destruct B as (_ & _ & _ & L). rewrite (nblocks_pow p Wp), (nblocks_pow q Wq) in *.
    assert (LE : idxw p <= idxw q) by (apply (N.pow_le_mono_r_iff 2); [lia | auto]).
    replace (idxw q) with (idxw p + (idxw q - idxw p)) by lia. rewrite N.pow_add_r.
    rewrite N.mod_mul_r by (apply N.pow_nonzero; discriminate). rewrite N.add_mod, (N.mul_comm (2 ^ idxw p)), N.mod_mul, N.add_0_r, !N.mod_mod by (apply N.pow_nonzero; discriminate). auto. }
  intros a b E. rewrite <- (H a), <- (H b), E. auto.
Qed.
Lemma ways_le : p_assoc p <= p_assoc q. Proof. apply B. Qed.
Lemma words_same : words q = words p. Proof. destruct B as (E & _). unfold words. rewrite E. auto. Qed.
Lemma lb_same : line_bytes q = line_bytes p. Proof. destruct B as (E & _). unfold line_bytes. rewrite E. auto. Qed.
Lemma line_same : forall a, line_of q a = line_of p a. Proof. intros. unfold line_of. rewrite lb_same. auto. Qed.
Lemma mask_same : forall P l, pend_mask q P l = pend_mask p P l.
Proof. intros. unfold pend_mask. rewrite words_same. auto. Qed.
Lemma mark_same : forall P r, mark q P r = mark p P r.
Proof. intros. unfold mark, req_bytes. destruct B as (_ & E & _). rewrite E. auto. Qed.

Notation "a 'mp'" := (a mod nblocks p) (at level 40).
Notation "a 'mq'" := (a mod nblocks q) (at level 40).
Definition above (x Y : xst) (l w w' : N) : Prop := p_assoc q = 2 -> w' = x_next Y (l mq) ->
  p_assoc p = 2 /\ w = x_next x (l mp) /\
  forall y b1, loc p x y (1 - w) b1 -> y mp = l mp -> y mq = l mq /\ exists b2, loc q Y y (1 - w') b2.
Definition incl_x (x Y : xst) : Prop := forall l w b, loc p x l w b ->
  exists w' b', loc q Y l w' b' /\ (b = true -> b' = true) /\ above x Y l w w'.
Record rel (x Y : xst) : Prop := mkRel {
  r_x : wfx p x; r_y : wfx q Y;
  r_pend : forall k, x_pend x k = true -> x_pend Y k = true;
  r_in : incl_x x Y }.

(** the way a line is in, with the relation *)
Lemma in_at : forall x Y l w b w' b', rel x Y -> loc p x l w b -> loc q Y l w' b' -> (b = true -> b' = true) /\ above x Y l w w'.
Proof.
  intros x Y l w b w' b' R L L'. destruct (r_in x Y R l w b L) as (w1 & b1 & L1 & Hb & A).
  assert (w1 = w') by (eapply (wx_uniq q Y); eauto; apply R). subst w1.
  destruct L1 as [_ L1], L' as [_ L']. rewrite L1 in L'. inversion L'; subst. auto.
Qed.

Lemma in_rw : forall x Y l w w' P P' M M', rel x Y -> w < p_assoc p -> w' < p_assoc q ->
  ((exists b, loc p x l w b) \/ (forall w b, ~ loc p x l w b) /\ w = x_next x (l mp)) ->
  ((exists b, loc q Y l w' b) \/ (forall w b, ~ loc q Y l w b) /\ w' = x_next Y (l mq)) ->
  M = put1 (x_next x) (l mp) (other p w) -> M' = put1 (x_next Y) (l mq) (other q w') ->
  incl_x (mkX P (put (x_slot x) (l mp) w (Some (l, true))) M) (mkX P' (put (x_slot Y) (l mq) w' (Some (l, true))) M').
Proof.
  intros x Y l w w' P P' M M' R Hw Hw' C C' EM EM'.
  pose proof (loc_rw p x l w P M (r_x _ _ R) Hw ltac:(tauto)) as LX.
  pose proof (loc_rw q Y l w' P' M' (r_y _ _ R) Hw' ltac:(tauto)) as LY.
  set (x1 := mkX P _ M) in *. set (Y1 := mkX P' _ M') in *.
  destruct (other_lt p Wp w Hw) as [_ OP]. destruct (other_lt q Wq w' Hw') as [_ OQ].
  assert (HIT : (exists w0 b, loc p x l w0 b) -> exists b, loc q Y l w' b).
  { intros (w0 & b & L). destruct (r_in _ _ R _ _ _ L) as (w1 & b1 & L1 & _). destruct C' as [C'|[C' _]]; auto. elim (C' _ _ L1). }
  intros z wz b Lz. apply LX in Lz. destruct Lz as [(-> & -> & ->)|(NE & Lz & NI)].
  - exists w', true. split; [apply LY; auto|]. split; auto. intros Q2 E. exfalso. revert E. unfold Y1. cbn [x_next]. rewrite EM'. unfold put1.
    rewrite N.eqb_refl, (OQ Q2). lia.
  - destruct (r_in _ _ R _ _ _ Lz) as (wz' & bz' & Lz' & Hb & A).
    assert (KEEP : ~ (z mq = l mq /\ wz' = w')).
    { intros [E1 E2]. subst wz'. pose proof (sub_sets _ _ E1) as E0.
      assert (NW : wz <> w) by tauto. destruct Lz as [Hz Sz]. pose proof ways_le as LE.
      assert (Q2 : p_assoc q = 2) by (destruct (wf_assoc q Wq); lia).
      destruct C' as [[b0 C']|[C' EN]].
      - destruct Lz' as [_ Sz'], C' as [_ C']. rewrite E1 in Sz'. congruence.
      - rewrite <- E1 in EN. destruct (A Q2 EN) as (P2 & EW & _). destruct C as [[b0 C]|[_ C]].
        + destruct HIT as [b1 L1]; [eauto|]. elim (C' _ _ L1).
        + apply NW. rewrite EW, E0. auto. }
    exists wz', bz'. split; [apply LY; right; auto|]. split; auto.
    intros Q2. unfold Y1 at 1, x1 at 1. cbn [x_next]. rewrite EM, EM'. unfold put1.
    destruct (N.eqb_spec (z mq) (l mq)) as [E1|E1].
    + intros EN. rewrite (OQ Q2) in EN. pose proof (sub_sets _ _ E1) as E0. assert (NW : wz <> w) by tauto.
      destruct Lz as [Hz Sz].
      assert (P2 : p_assoc p = 2) by (destruct (wf_assoc p Wp); lia). split; auto.
      rewrite E0, N.eqb_refl, (OP P2). assert (EW : wz = 1 - w) by lia. split; auto.
      intros y b1 Ly Ey. apply LX in Ly. destruct Ly as [(-> & _ & _)|(_ & _ & Ly)].
      * split; auto. exists true. apply LY. left. repeat split. lia.
      * exfalso. apply Ly. split; auto. lia.
    + intros EN. destruct (A Q2 EN) as (P2 & EW & AB). split; auto.
      destruct (N.eqb_spec (z mp) (l mp)) as [E0|E0].
      * exfalso. assert (NW : wz <> w) by tauto. destruct Lz as [Hz Sz].
        destruct C as [[b0 C]|[_ C]]; [|apply NW; rewrite EW, E0; auto].
        destruct (AB l b0) as (H & _); auto. replace (1 - wz) with w by lia. auto.
      * split; auto. intros y b1 Ly Ey. apply LX in Ly. destruct Ly as [(-> & _ & _)|(NY & Ly & _)]; [congruence|].
        destruct (AB y b1 Ly Ey) as (H & b2 & L2). split; auto. exists b2. apply LY. right. repeat split; auto; try apply L2. intros [H1 _]. congruence.
Qed.

Lemma rel_rw : forall x Y r, rel x Y -> wf_req p r -> wf_req q r -> let l := line_of p (cq_addr r) in
  let x1 := snd (x_rw p x l) in let Y1 := snd (x_rw q Y l) in
  (forall k, x_pend x1 k = true -> x_pend Y1 k = true) /\
  rel (mkX (mark p (x_pend x1) r) (x_slot x1) (x_next x1)) (mkX (mark q (x_pend Y1) r) (x_slot Y1) (x_next Y1)).
Proof.
  intros x Y r R WF WF' l x1 Y1.
  pose proof (wfx_rw p Wp x r (r_x _ _ R) WF) as X1. pose proof (wfx_rw q Wq Y r (r_y _ _ R) WF') as X2. cbv zeta in X1, X2.
  rewrite line_same in X2. fold l in X1, X2. fold x1 in X1. fold Y1 in X2.
  destruct (rw_cases p x l (r_x _ _ R)) as (w & Hw & C & ES & EN & EP & _). fold x1 in ES, EN, EP. cbv zeta in C, ES, EN, EP.
  destruct (rw_cases q Y l (r_y _ _ R)) as (w' & Hw' & C' & ES' & EN' & EP' & _). fold Y1 in ES', EN', EP'. cbv zeta in C', ES', EN', EP'.
  assert (IN : incl_x (mkX (mark p (x_pend x1) r) (x_slot x1) (x_next x1)) (mkX (mark q (x_pend Y1) r) (x_slot Y1) (x_next Y1))).
  { rewrite ES, ES'. apply in_rw; auto. }
  assert (LX : at_rw p x (mkX (mark p (x_pend x1) r) (x_slot x1) (x_next x1)) l w) by (rewrite ES; apply loc_rw; auto; [apply R | tauto]).
  assert (LY : at_rw q Y (mkX (mark q (x_pend Y1) r) (x_slot Y1) (x_next Y1)) l w') by (rewrite ES'; apply loc_rw; auto; [apply R | tauto]).
  assert (PRE : forall k, x_pend x1 k = true -> x_pend Y1 k = true).
  { intros k. rewrite EP, EP', !andb_true_iff, !negb_true_iff. intros [H1 H2]. split; [apply (r_pend _ _ R); auto|].
    destruct (victim q Y l (l mq) w' k) eqn:V; auto. exfalso.
    unfold victim in V. destruct (x_slot Y (l mq) w') as [[v b]|] eqn:S; [|discriminate]. apply andb_true_iff in V. destruct V as [V1 V2]. apply N.eqb_eq in V2. apply negb_true_iff, N.eqb_neq in V1.
    rewrite words_same in V2. destruct (wx_pend p x (r_x _ _ R) k H1) as (wv & bv & Lv). rewrite V2 in Lv.
    assert (EV : v mq = l mq) by (apply (wx_line q Y (r_y _ _ R) _ w' v b); auto using nb_lt).
    assert (Lv' : loc q Y v w' b) by (split; [auto | rewrite EV; auto]).
    destruct (IN v wv bv) as (w1 & b1 & L1 & _).
    { apply LX. right. repeat split; auto; try apply Lv. intros [E1 E2]. subst wv. destruct Lv as [_ Lv]. rewrite E1 in Lv. unfold victim in H2. rewrite Lv, V2, N.eqb_refl in H2.
      destruct (N.eqb_spec v l); [contradiction | discriminate]. }
    apply LY in L1. destruct L1 as [(H & _)|(_ & L1 & NI)]; [congruence|]. apply NI. split; auto. apply (wx_uniq q Y (r_y _ _ R) v w1 w' b1 b); auto. }
  split; auto. constructor; auto.
  cbn [x_pend]. intros k. rewrite mark_same. unfold mark. destruct (cq_type r =? T_WRITE); auto. rewrite !orb_true_iff. intros [H|H]; auto.
Qed.

Lemma rel_amo : forall x Y l s s', rel x Y -> rel (snd (x_amo p x l s)) (snd (x_amo q Y l s')).
Proof.
  intros x Y l s s' R. pose proof (wfx_amo p Wp x l s (r_x _ _ R)) as X1. pose proof (wfx_amo q Wq Y l s' (r_y _ _ R)) as X2.
  constructor; auto.
  - intros k. unfold x_amo. destruct (x_way p x l) as [w|] eqn:E.
    + destruct (way_some p x l w E) as [b L]. destruct (r_in _ _ R _ _ _ L) as (w' & b' & L' & _). rewrite (way_is q Y l w' b' (r_y _ _ R) L').
      cbn [snd x_pend]. unfold unpend. rewrite words_same, !andb_true_iff. intros [H1 H2]. split; auto. apply (r_pend _ _ R); auto.
    + cbn [snd]. intros H. pose proof (r_pend _ _ R k H) as H'. destruct (x_way q Y l); cbn [snd x_pend]; auto. unfold unpend. rewrite H', words_same. cbn [andb].
      destruct (N.eqb_spec (k / words p) l) as [EL|EL]; auto. exfalso. destruct (wx_pend p x (r_x _ _ R) k H) as (w & b & L). rewrite EL in L. apply (way_none p x l w b E L).
  - intros z wz b Lz.
    assert (LX : loc p x z wz b /\ (z = l -> x_way p x l = None) /\ forall y w1 b1, loc p (snd (x_amo p x l s)) y w1 b1 -> loc p x y w1 b1).
    { revert Lz. unfold x_amo. destruct (x_way p x l) as [w|] eqn:E; [|cbn [snd]; auto]. destruct (way_some p x l w E) as [b0 L]. cbn [snd].
      intros Lz. pose proof (loc_amo p x l w b0 (unpend p (x_pend x) l) (put1 (x_next x) (l mp) w) (r_x _ _ R) L) as LA.
      apply LA in Lz. split; [tauto|]. split; [tauto|]. intros y w1 b1 Ly. apply LA in Ly. tauto. }
    destruct LX as (L0 & NZ & LX). destruct (r_in _ _ R _ _ _ L0) as (wz' & bz' & Lz' & Hb & A).
    assert (NE : z <> l). { intros ->. specialize (NZ eq_refl). eapply way_none; eauto. }
    assert (YX : forall y w1 b1, y <> l -> loc q Y y w1 b1 -> loc q (snd (x_amo q Y l s')) y w1 b1).
    { intros y w1 b1 NY Ly. unfold x_amo. destruct (x_way q Y l) as [w'|] eqn:E; [|cbn [snd]; auto]. destruct (way_some q Y l w' E) as [b0 L]. cbn [snd].
      apply (loc_amo q Y l w' b0 (unpend q (x_pend Y) l) (put1 (x_next Y) (l mq) w') (r_y _ _ R) L). auto. }
    exists wz', bz'. split; [apply YX; auto|]. split; auto.
    intros Q2 EN.
    assert (HY : wz' = x_next Y (z mq) /\ ((exists w' b', loc q Y l w' b') -> z mq <> l mq)).
    { revert EN. unfold x_amo. destruct (x_way q Y l) as [w'|] eqn:E; cbn [snd x_next].
      - unfold put1. destruct (N.eqb_spec (z mq) (l mq)) as [E1|E1]; auto. intros ->. exfalso.
        destruct (way_some q Y l w' E) as [b0 [_ L]]. destruct Lz' as [_ Lz']. rewrite E1 in Lz'. congruence.
      - intros EN. split; auto. intros (w' & b' & L). exfalso. eapply way_none; eauto. }
    destruct HY as [HY NY]. destruct (A Q2 HY) as (P2 & EW & AB). split; auto. split.
    + unfold x_amo. destruct (x_way p x l) as [w|] eqn:E; cbn [snd x_next]; auto. unfold put1. destruct (N.eqb_spec (z mp) (l mp)) as [E0|E0]; auto. exfalso.
      destruct (way_some p x l w E) as [b0 L]. destruct (r_in _ _ R _ _ _ L) as (w' & b' & L' & _). apply NY; [eauto|].
      destruct (N.eq_dec wz w) as [->|NW]. { destruct L as [_ L], L0 as [_ L0]. rewrite E0 in L0. congruence. }
      destruct (AB l b0) as (H & _); auto. replace (1 - wz) with w; [auto|]. destruct L as [HL _], L0 as [HL0 _]. lia.
    + intros y b1 Ly Ey. assert (NYL : y <> l).
      { intros ->. revert Ly. unfold x_amo. destruct (x_way p x l) as [w|] eqn:E; cbn [snd].
        - destruct (way_some p x l w E) as [b0 L]. intros Ly. apply (loc_amo p x l w b0 (unpend p (x_pend x) l) (put1 (x_next x) (l mp) w) (r_x _ _ R) L) in Ly. tauto.
        - intros Ly. eapply way_none; eauto. }
      destruct (AB y b1 (LX _ _ _ Ly) Ey) as (H & b2 & L2). split; auto. exists b2. apply YX; auto.
Qed.
Lemma rel_inv : forall x Y, rel x Y -> rel (x_inv p x) (x_inv q Y).
Proof.
  intros x Y R. constructor; [apply wfx_inv; auto; apply R | apply wfx_inv; auto; apply R | apply (r_pend _ _ R) |].
  assert (PM : forall l, pend_mask p (x_pend x) l <> 0 -> pend_mask q (x_pend Y) l <> 0).
  { intros l H. apply (pend_some p Wp) in H. destruct H as (k & H & E). apply (pend_some q Wq). exists k. split; [apply (r_pend _ _ R); auto|]. rewrite words_same. auto. }
  intros l w b L. apply loc_inv in L. destruct L as (-> & [b0 L] & Z). destruct (r_in _ _ R _ _ _ L) as (w' & b' & L' & _ & A).
  exists w', false. split; [apply loc_inv; repeat split; eauto|]. split; auto.
  intros Q2 EN. destruct (A Q2 EN) as (P2 & EW & AB). split; auto. split; auto.
  intros y b1 Ly Ey. apply loc_inv in Ly. destruct Ly as (_ & [b2 Ly] & Zy). destruct (AB y b2 Ly Ey) as (H & b3 & L3). split; auto. exists false. apply loc_inv. repeat split; eauto.
Qed.
Lemma rel_flush : forall x Y, rel x Y -> rel (snd (x_flush p x)) (snd (x_flush q Y)).
Proof.
  intros x Y R. constructor; [apply wfx_flush; apply R | apply wfx_flush; apply R | discriminate |].
  intros l w b L. apply loc_flush in L. destruct L as (-> & L). destruct (r_in _ _ R _ _ _ L) as (w' & b' & L' & Hb & A). rewrite (Hb eq_refl) in *.
  exists w', true. split; [apply loc_flush; auto|]. split; auto.
  intros Q2 EN. destruct (A Q2 EN) as (P2 & EW & AB). split; auto. split; auto.
  intros y b1 Ly Ey. apply loc_flush in Ly. destruct Ly as (-> & Ly). destruct (AB y true Ly Ey) as (H & b3 & L3). split; auto.
  destruct (in_at x Y y _ true _ b3 R Ly L3) as [H3 _]. rewrite (H3 eq_refl) in *. exists true. apply loc_flush; auto.
Qed.
Lemma rel_empty : rel x_empty x_empty.
Proof. constructor; auto using wfx_empty. intros l w b [_ H]. discriminate H. Qed.
(** the pending words after evictions and before those of the request itself are added *)
Definition pre (p0 : params) (x : xst) (r : creq) : N -> bool :=
  if (cq_type r =? T_INV) || (cq_type r =? T_FLUSH) || is_amo (cq_type r) then x_pend (snd (x_step p0 x r)) else x_pend (snd (x_rw p0 x (line_of p0 (cq_addr r)))).
Theorem rel_step : forall x Y r, rel x Y -> wf_req p r -> wf_req q r ->
  rel (snd (x_step p x r)) (snd (x_step q Y r)) /\ forall k, pre p x r k = true -> pre q Y r k = true.
Proof.
  intros x Y r R WF WF'.
  assert (G : forall A C, rel A C -> rel A C /\ forall k, x_pend A k = true -> x_pend C k = true) by (intros A C H; split; auto; apply H).
  unfold pre, x_step. cbv zeta. rewrite line_same.
  destruct (cq_type r =? T_INV); cbn [orb]; [apply G, rel_inv; auto|]. destruct (cq_type r =? T_FLUSH); cbn [orb]; [apply G, rel_flush; auto|].
  destruct (is_amo (cq_type r)); [apply G, rel_amo; auto|]. destruct (rel_rw x Y r R WF WF') as [H1 H2].
  destruct (x_rw p x (line_of p (cq_addr r))) as [g x1], (x_rw q Y (line_of p (cq_addr r))) as [g1 Y1]. split; [exact H2 | exact H1].
Qed.
End R.
