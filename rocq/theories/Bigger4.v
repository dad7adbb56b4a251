(** C73: runs of a cache and of a bigger one. *)
From Coq Require Import Arith NArith List Bool Lia.
From Verif Require Import Bits Params Msg Rtl Mem Spec System ParamsProofs Traffic MetaProofs PendProofs TrafProofs ExactSpec Exact Exact2 Hide MultiSys Proto LiveMulti
  Bigger BiggerSpec Bigger2 Bigger3.
Import ListNotations.
Open Scope N_scope.

Lemma occ_length : forall (A B : list N), (forall a, (count_occ N.eq_dec A a <= count_occ N.eq_dec B a)%nat) -> (length A <= length B)%nat.
Proof.
  induction A as [|a A IH]; intros B H; cbn [length]; [lia|].
  assert (I : In a B). { apply (count_occ_In N.eq_dec). specialize (H a). cbn [count_occ] in H. destruct (N.eq_dec a a); [lia | contradiction]. }
  apply in_split in I. destruct I as (B1 & B2 & ->). rewrite app_length. cbn [length].
  assert (L : (length A <= length (B1 ++ B2))%nat).
  { apply IH. intros b. specialize (H b). cbn [count_occ] in H. rewrite count_occ_app in *. cbn [count_occ] in H. destruct (N.eq_dec a b); lia. }
  rewrite app_length in L. lia.
Qed.
Lemma occ_cnt : forall l a, count_occ N.eq_dec (map sh_addr (filter isW l)) a = cnt (fun s => isW s && (sh_addr s =? a)) l.
Proof.
  intros l a. unfold cnt. induction l as [|s l IH]; auto. cbn [filter]. destruct (isW s); cbn [andb map count_occ]; auto.
  destruct (N.eq_dec (sh_addr s) a) as [->|N]; [rewrite N.eqb_refl | apply N.eqb_neq in N; rewrite N]; cbn [length]; auto.
Qed.
Lemma cnt_concat_le : forall A B (f : A -> bool) (g : B -> bool) L M, Forall2 (fun l m => (cnt f l <= cnt g m)%nat) L M -> (cnt f (concat L) <= cnt g (concat M))%nat.
Proof. intros A B f g L M H. induction H as [|l m L M H F IH]; auto. cbn [concat]. rewrite !cnt_app. lia. Qed.

(** write-backs, as shapes *)
Section S.
Variable p : params.
Hypothesis W : wf_params p.
Lemma step_w : forall x r s, In s (fst (x_step p x r)) -> isW s = true -> exists P l, In s (wb p P l).
Proof.
  intros x r s. unfold x_step. cbv zeta. destruct (cq_type r =? T_INV); [intros []|]. destruct (cq_type r =? T_FLUSH).
  - cbn [fst x_flush]. intros I _. apply in_flat_map in I. destruct I as (k & _ & I).
    destruct (x_slot x (k / p_assoc p) (k mod p_assoc p)) as [[l b]|]; [eauto | destruct I].
  - destruct (is_amo (cq_type r)) eqn:AM.
    + destruct (amo_type r AM) as [H _]. unfold x_amo. assert (Q : forall s, In s [mkShape (cq_type r) (cq_addr r) 4 0] -> isW s = true -> False).
      { intros s0 [<-|[]]. unfold isW. cbn [sh_type]. rewrite N.eqb_eq. auto. }
      destruct (x_way p x (line_of p (cq_addr r))); cbn [fst]; intros I HW; [apply in_app_or in I; destruct I as [I|I]; [eauto|]|]; elim (Q _ I HW).
    + assert (Q : forall a s, In s [mkShape T_READ a 0 0] -> isW s = true -> False) by (intros a s0 [<-|[]]; discriminate).
      unfold x_rw. cbv zeta. destruct (x_way p x (line_of p (cq_addr r))) as [w|]; cbn [fst].
      * intros I HW. exfalso. destruct (x_slot x (line_of p (cq_addr r) mod nblocks p) w) as [[v [|]]|]; [destruct I|eapply Q; eauto|eapply Q; eauto].
      * destruct (x_slot x (line_of p (cq_addr r) mod nblocks p) (x_next x (line_of p (cq_addr r) mod nblocks p))) as [[v b]|]; cbn [fst]; intros I HW; [|elim (Q _ _ I HW)].
        apply in_app_or in I. destruct I as [I|I]; [eauto | elim (Q _ _ I HW)].
Qed.
Lemma run_w : forall R x s, In s (concat (x_run p x R)) -> isW s = true -> exists P l, In s (wb p P l).
Proof.
  induction R as [|r R IH]; intros x s I HW; [destruct I|]. cbn [x_run concat] in I. apply in_app_or in I. destruct I as [I|I]; eauto using step_w.
Qed.
Lemma hT_word : forall l j s, (isW s = true -> exists P l, In s (wb p P l)) -> hT p l (fun j' => j' =? j) s = isW s && (sh_addr s =? line_bytes p * l) && N.testbit (sh_mask s) j.
Proof.
  intros l j s H. unfold hT. fold (isW s). destruct (isW s); auto. destruct (H eq_refl) as (P & l1 & I). destruct (wb_all p _ _ _ I) as (_ & _ & _ & M). cbn [andb].
  destruct (sh_addr s =? line_bytes p * l); auto. cbn [andb]. apply eq_true_iff_eq. rewrite existsb_exists. split.
  - intros (j' & _ & E). apply andb_true_iff in E. destruct E as [E1 E2]. apply N.eqb_eq in E2. subst. auto.
  - intros E. exists j. rewrite N.eqb_refl, E. split; auto. apply in_range. destruct (N.lt_ge_cases j (words p)) as [|G]; auto. exfalso.
    rewrite (testbit_high (words p) (sh_mask s) j) in E; auto. discriminate.
Qed.
Lemma hT_line : forall l s, (isW s = true -> exists P l, In s (wb p P l)) -> hT p l (fun _ => true) s = isW s && (sh_addr s =? line_bytes p * l).
Proof.
  intros l s H. unfold hT. fold (isW s). destruct (isW s); auto. destruct (H eq_refl) as (P & l1 & I). destruct (wb_all p _ _ _ I) as (_ & _ & Z & M). cbn [andb].
  replace (existsb _ _) with true; [apply andb_true_r|]. symmetry. apply existsb_exists. exists (N.log2 (sh_mask s)). rewrite (N.bit_log2 _ Z). split; auto.
  apply in_range. apply N.log2_lt_pow2; [lia | auto].
Qed.
Lemma cnt_in : forall A (f g : A -> bool) l, (forall x, In x l -> f x = g x) -> cnt f l = cnt g l.
Proof. intros A f g l H. unfold cnt. f_equal. apply filter_ext_in. auto. Qed.
End S.

Definition qR (p : params) (l : N) (s : shape) : bool := isR s && (sh_addr s =? line_bytes p * l).
Definition qW (p : params) (l : N) (s : shape) : bool := isW s && (sh_addr s =? line_bytes p * l).
Definition qJ (p : params) (l j : N) (s : shape) : bool := qW p l s && N.testbit (sh_mask s) j.
Lemma wf_addr : forall p r r', addr_of r = addr_of r' -> wf_req p r -> wf_req p r'.
Proof.
  intros p r r' E. unfold addr_of in E. inversion E as [[E1 E2 E3]]. unfold wf_req, wf_read, wf_write, wf_amo, req_bytes. rewrite E1, E2, E3. auto.
Qed.

Section R.
Variables p q : params.
Hypothesis Wp : wf_params p.
Hypothesis Wq : wf_params q.
Hypothesis B : bigger p q.

Lemma hT_same : forall l tj s, hT q l tj s = hT p l tj s.
Proof. intros. unfold hT. rewrite (lb_same p q B), (words_same p q B). auto. Qed.
Lemma pT_same : forall l tj P, pT q l tj P = pT p l tj P.
Proof. intros. unfold pT. rewrite (words_same p q B). auto. Qed.
Lemma mT_same : forall l tj r, mT q l tj r = mT p l tj r.
Proof. intros. unfold mT, req_bytes. rewrite (words_same p q B). destruct B as (_ & E & _). rewrite E. auto. Qed.

Lemma run_wb : forall l tj R x Y, rel p q x Y -> Forall (wf_req p) R -> Forall (wf_req q) R ->
  (b2n (pT p l tj (x_pend Y)) <= b2n (pT p l tj (x_pend x)) -> cnt (hT p l tj) (concat (x_run q Y R)) <= cnt (hT p l tj) (concat (x_run p x R)))%nat /\
  (cnt (hT p l tj) (concat (x_run q Y R)) <= cnt (hT p l tj) (concat (x_run p x R)) + 1)%nat.
Proof.
  intros l tj. set (h := hT p l tj). set (t := pT p l tj).
  assert (G : forall R x Y a c, rel p q x Y -> Forall (wf_req p) R -> Forall (wf_req q) R -> (a + b2n (t (x_pend Y)) <= c + b2n (t (x_pend x)))%nat ->
     (a + cnt h (concat (x_run q Y R)) <= c + cnt h (concat (x_run p x R)))%nat).
  { induction R as [|r R IH]; intros x Y a c R0 F F' H.
    - cbn [x_run concat]. unfold cnt. cbn [filter length]. rewrite !Nat.add_0_r.
      assert (M : (b2n (t (x_pend x)) <= b2n (t (x_pend Y)))%nat).
      { destruct (t (x_pend x)) eqn:T; cbn [b2n]; [|lia]. unfold t in T. apply (pT_mono p l tj _ (x_pend Y) (r_pend p q x Y R0)) in T. fold t in T. rewrite T. auto. }
      lia.
    - cbn [x_run concat]. rewrite !cnt_app, !Nat.add_assoc. inversion F; inversion F'; subst.
      destruct (rel_step p q Wp Wq B x Y r R0) as [R1 PR]; auto.
      destruct (pend_step p Wp l tj x r (r_x p q x Y R0)) as [E1 M1]. destruct (pend_step q Wq l tj Y r (r_y p q x Y R0)) as [E2 M2].
      rewrite !pT_same in E2. rewrite (cnt_ext _ _ _ _ (hT_same l tj)) in E2. fold h t in E1, E2.
      apply IH; auto.
      assert (T1 : t (x_pend (snd (x_step p x r))) = t (pre p x r) || mT p l tj r) by (unfold t; rewrite <- (pT_mark p l tj); apply pT_ext; auto).
      assert (T2 : t (x_pend (snd (x_step q Y r))) = t (pre q Y r) || mT p l tj r).
      { rewrite <- mT_same. unfold t. rewrite <- !pT_same. rewrite <- (pT_mark q l tj). apply pT_ext. auto. }
      assert (MO : t (pre p x r) = true -> t (pre q Y r) = true) by (apply pT_mono; auto).
      rewrite T1, T2. destruct (t (pre p x r)), (t (pre q Y r)), (mT p l tj r); cbn [orb b2n] in *; try lia; specialize (MO eq_refl); discriminate. }
  intros R x Y R0 F F'. split; intros.
  - apply (G R x Y 0%nat 0%nat); auto.
  - specialize (G R x Y 0%nat 1%nat R0 F F'). destruct (t (x_pend Y)), (t (x_pend x)); cbn [b2n] in G; lia.
Qed.

Lemma step_notw_cmp : forall x Y r, rel p q x Y -> filter (fun s => negb (isW s)) (fst (x_step q Y r)) = filter (fun s => negb (isW s)) (fst (x_step p x r)) \/
  filter (fun s => negb (isW s)) (fst (x_step q Y r)) = [].
Proof.
  intros x Y r R. rewrite (step_notw p x r (r_x _ _ _ _ R)), (step_notw q Y r (r_y _ _ _ _ R)), (line_same p q B), (lb_same p q B).
  destruct ((cq_type r =? T_INV) || (cq_type r =? T_FLUSH)); auto. destruct (is_amo (cq_type r)); auto. set (l := line_of p (cq_addr r)).
  assert (HIT : forall w, x_way p x l = Some w -> (exists v, x_slot x (l mod nblocks p) w = Some (v, true)) ->
     exists w', x_way q Y l = Some w' /\ exists v, x_slot Y (l mod nblocks q) w' = Some (v, true)).
  { intros w E [v S]. destruct (way_some p x l w E) as [b L]. pose proof L as [_ L2]. rewrite S in L2. inversion L2; subst.
    destruct (r_in _ _ _ _ R _ _ _ L) as (w' & b' & L' & Hb & _). exists w'. rewrite (way_is q Y l w' b' (r_y _ _ _ _ R) L'). split; auto.
    exists l. destruct L' as [_ L']. rewrite (Hb eq_refl) in L'. auto. }
  destruct (x_way p x l) as [w|] eqn:E.
  - destruct (x_slot x (l mod nblocks p) w) as [[v [|]]|] eqn:S.
    + destruct (HIT w) as (w' & E' & v' & S'); eauto. rewrite E', S'. auto.
    + destruct (x_way q Y l) as [w'|]; auto. destruct (x_slot Y (l mod nblocks q) w') as [[v' [|]]|]; auto.
    + destruct (x_way q Y l) as [w'|]; auto. destruct (x_slot Y (l mod nblocks q) w') as [[v' [|]]|]; auto.
  - destruct (x_way q Y l) as [w'|]; auto. destruct (x_slot Y (l mod nblocks q) w') as [[v' [|]]|]; auto.
Qed.
Lemma cnt_filter : forall A (f g : A -> bool) l, cnt (fun s => f s && g s) l = cnt f (filter g l).
Proof. intros A f g l. unfold cnt. induction l as [|x l IH]; auto. cbn [filter]. destruct (g x); cbn [filter]; destruct (f x); cbn [andb length]; auto. Qed.
Lemma run_notw : forall f R x Y, rel p q x Y -> Forall (wf_req p) R -> Forall (wf_req q) R ->
  (cnt (fun s => f s && negb (isW s)) (concat (x_run q Y R)) <= cnt (fun s => f s && negb (isW s)) (concat (x_run p x R)))%nat.
Proof.
  intros f. induction R as [|r R IH]; intros x Y R0 F F'; [auto|]. cbn [x_run concat]. rewrite !cnt_app. inversion F; inversion F'; subst.
  destruct (rel_step p q Wp Wq B x Y r R0) as [R1 _]; auto. specialize (IH _ _ R1 ltac:(auto) ltac:(auto)).
  assert (H : (cnt (fun s => f s && negb (isW s)) (fst (x_step q Y r)) <= cnt (fun s => f s && negb (isW s)) (fst (x_step p x r)))%nat).
  { rewrite !cnt_filter. destruct (step_notw_cmp x Y r R0) as [->| ->]; auto. unfold cnt. cbn [filter length]. lia. }
  lia.
Qed.

(** the predictions for one program *)
Theorem predict_le : forall R, Forall (wf_req p) R -> Forall (wf_req q) R -> let P := concat (predict p R) in let Q := concat (predict q R) in
  (forall l, cnt (qR p l) Q <= cnt (qR p l) P)%nat /\
  (forall l, cnt (qW p l) Q <= cnt (qW p l) P)%nat /\
  (forall l j, cnt (qJ p l j) Q <=
               cnt (qJ p l j) P)%nat /\
  (length Q <= length P)%nat /\ (cnt isW Q <= cnt isW P)%nat.
Proof.
  intros R F F' P Q. pose proof (rel_empty p q Wp Wq) as R0.
  assert (WB : forall l tj, (cnt (hT p l tj) Q <= cnt (hT p l tj) P)%nat) by (intros l tj; apply (run_wb l tj R x_empty x_empty R0 F F'); auto).
  assert (IP : forall s, In s P -> isW s = true -> exists P l, In s (wb p P l)) by (intros s; apply run_w).
  assert (IQ : forall s, In s Q -> isW s = true -> exists P l, In s (wb p P l)).
  { intros s I HW. destruct (run_w q R x_empty s I HW) as (P0 & l & H). exists P0, l. revert H. unfold wb. rewrite (mask_same p q B), (lb_same p q B). auto. }
  assert (HW : forall l, (cnt (qW p l) Q <= cnt (qW p l) P)%nat).
  { intros l. specialize (WB l (fun _ => true)). rewrite (cnt_in _ _ _ Q (fun s I => hT_line p l s (IQ s I))), (cnt_in _ _ _ P (fun s I => hT_line p l s (IP s I))) in WB. auto. }
  split; [|split; [auto|split]].
  - intros l. pose proof (run_notw (qR p l) R x_empty x_empty R0 F F') as H. fold (predict p R) (predict q R) in H. fold P Q in H.
    assert (E : forall s, qR p l s && negb (isW s) = qR p l s).
    { intros s. unfold qR, isR, isW. destruct (N.eqb_spec (sh_type s) T_READ) as [->|]; auto. cbn [andb]. apply andb_true_r. }
    rewrite !(cnt_ext _ _ _ _ E) in H. auto.
  - intros l j. specialize (WB l (fun j' => j' =? j)). rewrite (cnt_in _ _ _ Q (fun s I => hT_word p l j s (IQ s I))), (cnt_in _ _ _ P (fun s I => hT_word p l j s (IP s I))) in WB. auto.
  - assert (LEN : forall S : list shape, length S = (cnt isW S + cnt (fun s => true && negb (isW s)) S)%nat).
    { intros S. change (fun s => true && negb (isW s)) with (fun s => negb (isW s)). unfold cnt. induction S as [|s S IH]; cbn [filter length]; auto. destruct (isW s); cbn [andb negb length]; lia. }
    rewrite !LEN. pose proof (run_notw (fun _ => true) R x_empty x_empty R0 F F') as H. fold (predict p R) (predict q R) in H. fold P Q in H.
    assert (WW : (cnt isW Q <= cnt isW P)%nat).
    { unfold cnt. rewrite <- (map_length sh_addr (filter isW Q)), <- (map_length sh_addr (filter isW P)). apply occ_length. intros a. rewrite !occ_cnt.
      destruct (N.eq_dec (line_bytes p * (a / line_bytes p)) a) as [<-|N]; [apply HW|].
      rewrite cnt_none; [lia|]. intros s I. destruct (isW s) eqn:E; auto. destruct (IQ s I E) as (P0 & l & I'). destruct (wb_all p _ _ _ I') as (_ & EA & _). rewrite EA. cbn [andb].
      apply N.eqb_neq. intros <-. apply N. f_equal. rewrite N.mul_comm. apply N.div_mul. pose proof (lb_pos p Wp). lia. }
    split; [lia | auto].
Qed.
End R.
