(** C73: a bigger cache, request by request, on the bookkeeping of ExactSpec.v. *)
From Coq Require Import Arith NArith List Bool Lia.
From Verif Require Import Bits Params Msg Mem Spec System ParamsProofs Traffic MetaProofs PendProofs TrafProofs ExactSpec Exact.
Import ListNotations.
Open Scope N_scope.

(** *** one cache *)
Section O.
Variable p : params.
Hypothesis W : wf_params p.

Definition loc (x : xst) (l w : N) (b : bool) : Prop := w < p_assoc p /\ x_slot x (l mod nblocks p) w = Some (l, b).
Record wfx (x : xst) : Prop := mkWfx {
  wx_line : forall i w l b, i < nblocks p -> w < p_assoc p -> x_slot x i w = Some (l, b) -> l mod nblocks p = i;
  wx_uniq : forall l w w' b b', loc x l w b -> loc x l w' b' -> w = w';
  wx_next : forall i, x_next x i < p_assoc p;
  wx_pend : forall k, x_pend x k = true -> exists w b, loc x (k / words p) w b;
  wx_ghost : forall l w, loc x l w false -> pend_mask p (x_pend x) l <> 0 }.

Lemma words_pos : 0 < words p.
Proof. apply (dty_pos p W). Qed.
Lemma word_line : forall l j, j < words p -> (words p * l + j) / words p = l.
Proof. intros l j J. symmetry. apply N.div_unique with j; auto. Qed.
Lemma pend_bit : forall P l j, N.testbit (pend_mask p P l) j = (j <? words p) && P (words p * l + j).
Proof. intros. exact (mask_bit (fun j => P (words p * l + j)) (words p) j). Qed.
Lemma pend_some : forall P l, pend_mask p P l <> 0 <-> exists k, P k = true /\ k / words p = l.
Proof.
  intros P l. split.
  - intros H. destruct (N.eq_dec (pend_mask p P l) 0) as [E|N]; [tauto|].
    exists (words p * l + N.log2 (pend_mask p P l)). pose proof (N.bit_log2 _ N) as B. rewrite pend_bit in B.
    apply andb_true_iff in B. destruct B as [B1 B2]. apply N.ltb_lt in B1. split; auto. apply word_line; auto.
  - intros (k & H & E) Z. pose proof (pend_bit P l (k mod words p)) as B. pose proof words_pos.
    rewrite Z, N.bits_0 in B. rewrite <- E, <- N.div_mod, H, andb_true_r in B by lia.
    symmetry in B. apply N.ltb_ge in B. pose proof (N.mod_lt k (words p)). lia.
Qed.

Lemma way_some : forall x l w, x_way p x l = Some w -> exists b, loc x l w b.
Proof.
  intros x l w H. apply find_some in H. destruct H as [I H]. apply in_range in I.
  destruct (x_slot x (l mod nblocks p) w) as [[l' b]|] eqn:E; [|discriminate]. apply N.eqb_eq in H. subst l'. exists b. split; auto.
Qed.
Lemma way_none : forall x l w b, x_way p x l = None -> loc x l w b -> False.
Proof.
  intros x l w b H [L E]. apply in_range in L. pose proof (find_none _ _ H w L) as F. cbv beta in F. rewrite E, N.eqb_refl in F. discriminate.
Qed.
Lemma way_is : forall x l w b, wfx x -> loc x l w b -> x_way p x l = Some w.
Proof.
  intros x l w b X L. destruct (x_way p x l) as [w'|] eqn:E; [|exfalso; eapply way_none; eauto].
  apply way_some in E. destruct E as [b' L']. f_equal. eapply wx_uniq; eauto.
Qed.
Lemma other_lt : forall w, w < p_assoc p -> other p w < p_assoc p /\ (p_assoc p = 2 -> other p w = 1 - w).
Proof. intros w L. unfold other. destruct (wf_assoc p W) as [A|A]; rewrite A in *; [change (1 =? 2) with false | change (2 =? 2) with true]; cbn iota; split; lia. Qed.

(** READ and WRITE *)
Definition victim (x : xst) (l i w k : N) : bool :=
  match x_slot x i w with Some (v, _) => negb (v =? l) && (k / words p =? v) | None => false end.
Lemma rw_cases : forall x l, wfx x -> exists w, w < p_assoc p /\ let i := l mod nblocks p in
  ((exists b, loc x l w b) \/ (forall w b, ~ loc x l w b) /\ w = x_next x i) /\
  x_slot (snd (x_rw p x l)) = put (x_slot x) i w (Some (l, true)) /\
  x_next (snd (x_rw p x l)) = put1 (x_next x) i (other p w) /\
  (forall k, x_pend (snd (x_rw p x l)) k = x_pend x k && negb (victim x l i w k)) /\
  (fst (x_rw p x l) = (match x_slot x i w with Some (v, _) => if v =? l then [] else wb p (x_pend x) v | None => [] end) ++
     (match x_slot x i w with Some (v, true) => if v =? l then [] else [mkShape T_READ (line_bytes p * l) 0 0] | _ => [mkShape T_READ (line_bytes p * l) 0 0] end)).
Proof.
  intros x l X. unfold x_rw, victim. cbv zeta. destruct (x_way p x l) as [w|] eqn:E.
  - destruct (way_some x l w E) as [b L]. exists w. destruct L as [L1 L2]. rewrite L2. cbn [fst snd x_slot x_next x_pend].
    rewrite N.eqb_refl. split; auto. split; [left; exists b; split; auto|]. split; auto. split; auto. split.
    + intros k. cbn [negb andb]. rewrite andb_true_r. auto.
    + destruct b; auto.
  - exists (x_next x (l mod nblocks p)). split; [apply (wx_next x X)|].
    split; [right; split; auto; intros w b HL; exact (way_none x l w b E HL)|].
    destruct (x_slot x (l mod nblocks p) (x_next x (l mod nblocks p))) as [[v b]|] eqn:S; cbn [fst snd x_slot x_next x_pend]; (split; [auto|]); (split; [auto|]).
    + destruct (N.eqb_spec v l) as [->|N].
      { exfalso. apply (way_none x l (x_next x (l mod nblocks p)) b E). split; auto. apply (wx_next x X). }
      split; [intros; unfold unpend; auto|]. destruct b; auto.
    + split; [intros k; rewrite andb_true_r; auto|]. auto.
Qed.

(** marked words are of the request's line *)
Lemma mark_line : forall P r k, wf_req p r -> mark p P r k = true -> P k = true \/ k / words p = line_of p (cq_addr r) /\ cq_type r = T_WRITE.
Proof.
  intros P r k (_ & _ & WF) M. unfold mark in M. destruct (N.eqb_spec (cq_type r) T_WRITE) as [T|T]; auto.
  apply orb_true_iff in M. destruct M as [M|M]; auto. right. split; auto.
  assert (WW : wf_write p r).
  { destruct WF as [[H _]|[H|[[H _]|[H|H]]]]; auto; rewrite T in H; try discriminate H; destruct H as [H1 H2]; exfalso; apply H1; reflexivity. }
  destruct WW as (_ & AL & B). apply andb_true_iff in M. destruct M as [M1 M2]. apply N.leb_le in M1, M2.
  pose proof (lb_words p W) as LW. rewrite <- words_dty in LW. pose proof words_pos as WP.
  assert (LB8 : exists c, line_bytes p = 8 * c /\ 0 < c).
  { destruct (wf_clw p W) as (a & E & G). unfold line_bytes. rewrite E. exists (2 ^ (a - 6)).
    replace a with (6 + (a - 6)) at 1 by lia. rewrite N.pow_add_r. change (2 ^ 6) with (8 * 8). rewrite <- N.mul_assoc, N.mul_comm, N.div_mul by discriminate.
    split; auto. apply N.neq_0_lt_0, N.pow_nonzero. discriminate. }
  destruct LB8 as (c & EC & C0).
  assert (BB : exists d, 8 = req_bytes p r * d /\ 0 < req_bytes p r /\ 0 < d).
  { destruct B as [B|[B|[B|[B _]]]].
    - exists 8. rewrite B. lia. - exists 4. rewrite B. lia. - exists 2. rewrite B. lia.
    - exists 1. unfold req_bytes. rewrite T, B. cbn. lia. }
  destruct BB as (d & ED & B0 & D0). set (n := req_bytes p r) in *. clearbody n. set (a := cq_addr r) in *. clearbody a.
  unfold word_num, line_of in *. set (ws := words p) in *. set (lb := line_bytes p) in *. clearbody ws lb.
  assert (S1 : (a + n - 1) / lb = a / lb).
  { assert (H : a = n * (a / n)) by (pose proof (N.div_mod a n ltac:(lia)); lia).
    set (t := a / n) in *. clearbody t.
    assert (LN : lb = n * (d * c)) by nia. set (u := d * c) in *. assert (0 < u) by (unfold u; nia). clearbody u.
    rewrite LN. rewrite <- !N.div_div by lia. replace a with (t * n) at 2 by lia. rewrite N.div_mul by lia.
    f_equal. symmetry. apply N.div_unique with (n - 1); lia. }
  assert (Q : forall z, z / lb = z / 4 / ws) by (intros z; rewrite LW, N.div_div by lia; auto).
  rewrite !Q in *. rewrite LW in *.
  pose proof (N.div_le_mono _ _ ws ltac:(lia) M1). pose proof (N.div_le_mono _ _ ws ltac:(lia) M2). lia.
Qed.

Lemma mark_keep : forall P r k, P k = true -> mark p P r k = true.
Proof. intros P r k H. unfold mark. destruct (cq_type r =? T_WRITE); auto. rewrite H. auto. Qed.
Lemma nb_lt : forall l, l mod nblocks p < nblocks p.
Proof. intros l. apply N.mod_lt. pose proof (nb_pos p W). lia. Qed.

(** where lines are after each kind of request *)
Definition at_rw (x x' : xst) (l w : N) : Prop := forall l1 w1 b, loc x' l1 w1 b <->
  (l1 = l /\ w1 = w /\ b = true) \/ (l1 <> l /\ loc x l1 w1 b /\ ~ (l1 mod nblocks p = l mod nblocks p /\ w1 = w)).
Lemma loc_rw : forall x l w P N', wfx x -> w < p_assoc p ->
  ((exists b, loc x l w b) \/ forall w b, ~ loc x l w b) ->
  at_rw x (mkX P (put (x_slot x) (l mod nblocks p) w (Some (l, true))) N') l w.
Proof.
  intros x l w P N' X Hw C l1 w1 b. unfold loc at 1. cbn [x_slot]. unfold put.
  destruct (N.eqb_spec (l1 mod nblocks p) (l mod nblocks p)) as [E1|E1]; destruct (N.eqb_spec w1 w) as [E2|E2]; cbn [andb].
  - subst w1. split.
    + intros [_ E]. inversion E; subst. auto.
    + intros [(-> & _ & ->)|(_ & _ & H)]; auto. elim H. auto.
  - split.
    + intros [L E]. right. destruct (N.eq_dec l1 l) as [->|NE].
      * exfalso. destruct C as [[b0 C]|C]; [|apply (C w1 b); split; auto]. apply E2. apply (wx_uniq x X l w1 w b b0); auto. split; auto.
      * repeat split; auto. tauto.
    + intros [(_ & H & _)|(_ & [L E] & _)]; [contradiction|]. auto.
  - split.
    + intros [L E]. right. repeat split; auto; intros H; [apply E1; congruence | tauto].
    + intros [(-> & _)|(_ & [L E] & _)]; [congruence|]. auto.
  - split.
    + intros [L E]. right. repeat split; auto; intros H; [apply E1; congruence | tauto].
    + intros [(-> & _)|(_ & [L E] & _)]; [congruence|]. auto.
Qed.
Lemma loc_amo : forall x l w b0 P N', wfx x -> loc x l w b0 -> forall l1 w1 b,
  loc (mkX P (put (x_slot x) (l mod nblocks p) w None) N') l1 w1 b <-> l1 <> l /\ loc x l1 w1 b.
Proof.
  intros x l w b0 P N' X L l1 w1 b. unfold loc at 1. cbn [x_slot]. unfold put.
  destruct (N.eqb_spec (l1 mod nblocks p) (l mod nblocks p)) as [E1|E1]; destruct (N.eqb_spec w1 w) as [E2|E2]; cbn [andb].
  - subst w1. split; [intros [_ E]; discriminate|]. intros (H & [_ E]). destruct L as [_ L]. rewrite E1 in E. congruence.
  - split.
    + intros [L1 E]. split; [|split; auto]. intros ->. apply E2. apply (wx_uniq x X l w1 w b b0); auto. split; auto.
    + intros (_ & H). exact H.
  - split; [intros [L1 E]; split; [congruence | split; auto] | intros (_ & H); exact H].
  - split; [intros [L1 E]; split; [congruence | split; auto] | intros (_ & H); exact H].
Qed.
Lemma loc_inv : forall x l w b, loc (x_inv p x) l w b <-> b = false /\ (exists b0, loc x l w b0) /\ pend_mask p (x_pend x) l <> 0.
Proof.
  intros x l w b. unfold loc at 1. unfold x_inv. cbn [x_slot]. split.
  - intros [L E]. destruct (x_slot x (l mod nblocks p) w) as [[l0 b0]|] eqn:S; [|discriminate].
    destruct (N.eqb_spec (pend_mask p (x_pend x) l0) 0) as [Z|Z]; [discriminate|]. inversion E; subst.
    repeat split; auto. exists b0. split; auto.
  - intros (-> & [b0 [L E]] & Z). split; auto. rewrite E. apply N.eqb_neq in Z. rewrite Z. auto.
Qed.
Lemma loc_flush : forall x l w b, loc (snd (x_flush p x)) l w b <-> b = true /\ loc x l w true.
Proof.
  intros x l w b. unfold loc. unfold x_flush. cbn [snd x_slot]. split.
  - intros [L E]. destruct (x_slot x (l mod nblocks p) w) as [[l0 [|]]|] eqn:S; [|discriminate|discriminate]. inversion E; subst. auto.
  - intros (-> & L & E). rewrite E. auto.
Qed.

Lemma wfx_empty : wfx x_empty.
Proof. split; cbn; try discriminate. - intros l w w' b b' [_ H]. discriminate H. - intros i. destruct (wf_assoc p W) as [A|A]; rewrite A; lia. - intros l w [_ H]. discriminate H. Qed.

Lemma wfx_rw : forall x r, wfx x -> wf_req p r -> let l := line_of p (cq_addr r) in let x1 := snd (x_rw p x l) in
  wfx (mkX (mark p (x_pend x1) r) (x_slot x1) (x_next x1)).
Proof.
  intros x r X WF l x1. destruct (rw_cases x l X) as (w & Hw & C & ES & EN & EP & _). fold x1 in ES, EN, EP. cbv zeta in C, ES, EN, EP.
  assert (LR : at_rw x (mkX (mark p (x_pend x1) r) (x_slot x1) (x_next x1)) l w).
  { rewrite ES. apply loc_rw; auto. tauto. }
  split.
  - intros i w0 l0 b Hi H0 S. cbn [x_slot] in S. rewrite ES in S. unfold put in S.
    destruct (N.eqb_spec i (l mod nblocks p)) as [E1|E1]; destruct (N.eqb_spec w0 w) as [E2|E2]; cbn [andb] in S; try (apply (wx_line x X i w0 l0 b); auto; fail).
    inversion S; subst. auto.
  - intros l0 w1 w2 b1 b2 L1 L2. apply LR in L1, L2. destruct L1 as [(A1 & A2 & _)|(A1 & A2 & _)], L2 as [(B1 & B2 & _)|(B1 & B2 & _)]; try congruence.
    apply (wx_uniq x X l0 w1 w2 b1 b2); auto.
  - intros i. cbn [x_next]. rewrite EN. unfold put1. destruct (i =? l mod nblocks p); [apply other_lt; auto | apply (wx_next x X)].
  - intros k. cbn [x_pend]. intros M. apply (mark_line _ _ _ WF) in M. fold l in M.
    destruct (N.eq_dec (k / words p) l) as [E|NE]; [exists w, true; apply LR; left; auto|].
    destruct M as [M|[M _]]; [|congruence]. rewrite EP in M. apply andb_true_iff in M. destruct M as [M1 M2].
    destruct (wx_pend x X k M1) as (w0 & b & L). exists w0, b. apply LR. right. repeat split; auto; try apply L.
    intros [E1 E2]. subst w0. destruct L as [_ L]. rewrite E1 in L. unfold victim in M2. rewrite L, N.eqb_refl in M2.
    destruct (N.eqb_spec (k / words p) l); [contradiction | discriminate].
  - intros l0 w0 L. apply LR in L. destruct L as [(_ & _ & H)|(NE & L & NI)]; [discriminate|]. cbn [x_pend].
    apply pend_some. destruct (proj1 (pend_some _ _) (wx_ghost x X l0 w0 L)) as (k & H & E). exists k. split; auto. apply mark_keep. rewrite EP, H. cbn [andb].
    unfold victim. destruct (x_slot x (l mod nblocks p) w) as [[v b]|] eqn:S; auto. destruct (N.eqb_spec (k / words p) v) as [EV|EV]; [|rewrite andb_false_r; auto].
    exfalso. apply NI. subst v. rewrite E in S. pose proof (wx_line x X _ _ _ _ (nb_lt l) Hw S) as EL. split; auto.
    apply (wx_uniq x X l0 w0 w false b); auto. split; auto. rewrite EL. auto.
Qed.
Lemma wfx_amo : forall x l q, wfx x -> wfx (snd (x_amo p x l q)).
Proof.
  intros x l q X. unfold x_amo. cbv zeta. destruct (x_way p x l) as [w|] eqn:E; [|exact X].
  destruct (way_some x l w E) as [b0 L]. cbn [snd].
  pose proof (loc_amo x l w b0 (unpend p (x_pend x) l) (put1 (x_next x) (l mod nblocks p) w) X L) as LA.
  split.
  - intros i w0 l0 b Hi H0 S. cbn [x_slot] in S. unfold put in S. destruct ((i =? _) && (w0 =? w)); [discriminate|]. apply (wx_line x X i w0 l0 b); auto.
  - intros l0 w1 w2 b1 b2 L1 L2. apply LA in L1, L2. apply (wx_uniq x X l0 w1 w2 b1 b2); tauto.
  - intros i. cbn [x_next]. unfold put1. destruct (i =? l mod nblocks p); [apply L | apply (wx_next x X)].
  - intros k. cbn [x_pend]. unfold unpend. intros M. apply andb_true_iff in M. destruct M as [M1 M2]. destruct (wx_pend x X k M1) as (w0 & b & L0).
    exists w0, b. apply LA. split; auto. intros EL. rewrite EL, N.eqb_refl in M2. discriminate.
  - intros l0 w0 L0. apply LA in L0. destruct L0 as [NE L0]. cbn [x_pend]. apply pend_some.
    destruct (proj1 (pend_some _ _) (wx_ghost x X l0 w0 L0)) as (k & H & EK). exists k. split; auto. unfold unpend. rewrite H, EK. apply N.eqb_neq in NE. rewrite NE. auto.
Qed.
Lemma wfx_inv : forall x, wfx x -> wfx (x_inv p x).
Proof.
  intros x X. split.
  - intros i w0 l0 b Hi H0 S. unfold x_inv in S. cbn [x_slot] in S. destruct (x_slot x i w0) as [[l1 b1]|] eqn:S1; [|discriminate].
    destruct (pend_mask p (x_pend x) l1 =? 0); [discriminate|]. inversion S; subst. apply (wx_line x X i w0 l0 b1); auto.
  - intros l0 w1 w2 b1 b2 L1 L2. apply loc_inv in L1, L2. destruct L1 as (_ & [c1 L1] & _), L2 as (_ & [c2 L2] & _). apply (wx_uniq x X l0 w1 w2 c1 c2); auto.
  - apply (wx_next x X).
  - intros k M. change (x_pend x k = true) in M. destruct (wx_pend x X k M) as (w & b & L). exists w, false. apply loc_inv. repeat split; eauto. apply pend_some. eauto.
  - intros l0 w0 L. apply loc_inv in L. apply L.
Qed.
Lemma wfx_flush : forall x, wfx x -> wfx (snd (x_flush p x)).
Proof.
  intros x X. split.
  - intros i w0 l0 b Hi H0 S. unfold x_flush in S. cbn [snd x_slot] in S. destruct (x_slot x i w0) as [[l1 [|]]|] eqn:S1; [|discriminate|discriminate].
    inversion S; subst. apply (wx_line x X i w0 l0 true); auto.
  - intros l0 w1 w2 b1 b2 L1 L2. apply loc_flush in L1, L2. destruct L1 as (_ & L1), L2 as (_ & L2). apply (wx_uniq x X l0 w1 w2 true true); auto.
  - apply (wx_next x X).
  - intros k M. discriminate M.
  - intros l0 w0 L. apply loc_flush in L. destruct L as [L _]. discriminate L.
Qed.
Theorem wfx_step : forall x r, wfx x -> wf_req p r -> wfx (snd (x_step p x r)).
Proof.
  intros x r X WF. unfold x_step. cbv zeta. destruct (cq_type r =? T_INV); [apply wfx_inv; auto|]. destruct (cq_type r =? T_FLUSH); [apply wfx_flush; auto|].
  destruct (is_amo (cq_type r)); [apply wfx_amo; auto|]. pose proof (wfx_rw x r X WF) as H. cbv zeta in H. destruct (x_rw p x (line_of p (cq_addr r))) as [g x']. exact H.
Qed.
End O.
