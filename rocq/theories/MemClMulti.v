(** The test memory of test/MemoryCL.py with [n] ports serves [n] caches
    (test/MulticoreModel.py 46-66, blocking_cache/test/MultiCacheTestCases.py). *)
From Coq Require Import Arith NArith List Bool Lia.
From Verif Require Import Bits Params Msg Rtl Mem System MemCl MultiSys.
Import ListNotations.
Open Scope N_scope.

(** One clock cycle of [n] caches and the memory: ports with [memresp.en] deliver
    their oldest answer, the memory takes the requests sent, and [up_mem] runs
    (MemoryCL.py 62-104) with arbitrary queue readiness. *)
Definition cycle_ok_n (n : nat) (s : mcl) (t : cyc) : Prop := forall i, (i < n)%nat ->
  i_mresp_en (fst (t i)) = true -> exists l, pr (mc_ports s i) = i_mresp (fst (t i)) :: l.
Definition dels_n (n : nat) (t : cyc) : list mev :=
  flat_map (fun i => if i_mresp_en (fst (t i)) then [EDel i] else []) (seq 0 n).
Definition arrs_n (n : nat) (t : cyc) : list mev :=
  flat_map (fun i => map (EArr i) (opt_list (o_mreq (snd (t i))))) (seq 0 n).
Definition cycle_evs_n (n : nat) (t : cyc) (rdy : nat -> bool) : list mev := dels_n n t ++ arrs_n n t ++ [ETick rdy].
Fixpoint serves_n (p : params) (n : nat) (s : mcl) (ts : list cyc) (rdys : list (nat -> bool)) : Prop :=
  match ts, rdys with
  | [], [] => True
  | t :: ts, rdy :: rdys => cycle_ok_n n s t /\ serves_n p n (mcl_run p n s (cycle_evs_n n t rdy)) ts rdys
  | _, _ => False
  end.
Definition mcl_end_n (p : params) (n : nat) (s : mcl) (ts : list cyc) (rdys : list (nat -> bool)) : mcl :=
  fold_left (fun s x => mcl_run p n s (cycle_evs_n n (fst x) (snd x))) (combine ts rdys) s.

Section S.
Variable p : params.
Variable n : nat.

Definition like (s : mcl) (m : mem) (rq : nat -> list mreq) (rs : nat -> list mresp) : Prop :=
  mc_mem s = m /\ forall i, (i < n)%nat -> pq (mc_ports s i) = rq i /\ pr (mc_ports s i) = rs i.

Lemma dels_ok : forall (t : cyc) s k, let s' := mcl_run p n s (flat_map (fun i => if i_mresp_en (fst (t i)) then [EDel i] else []) (seq 0 k)) in
  mc_mem s' = mc_mem s /\ forall i, pq (mc_ports s' i) = pq (mc_ports s i) /\
    pr (mc_ports s' i) = if Nat.ltb i k && i_mresp_en (fst (t i)) then tl (pr (mc_ports s i)) else pr (mc_ports s i).
Proof.
  intros t s. induction k as [|k IH]; cbv zeta; [cbn; auto|].
  rewrite seq_S, flat_map_app. unfold mcl_run in *. rewrite fold_left_app. cbn [flat_map Nat.add] in *. rewrite app_nil_r.
  set (s1 := fold_left _ (flat_map _ (seq 0 k)) s) in *. clearbody s1. destruct IH as [I1 I2].
  destruct (i_mresp_en (fst (t k))) eqn:E; cbn [fold_left mcl_step mc_mem mc_ports].
  - split; auto. intros i. unfold pset. destruct (Nat.eqb_spec i k) as [->|NE].
    + cbn [pq pr]. destruct (I2 k) as [J1 J2]. rewrite J2, Nat.ltb_irrefl. cbn [andb]. split; auto.
      assert (L : Nat.ltb k (S k) = true) by (apply Nat.ltb_lt; lia). rewrite L, E. auto.
    + destruct (I2 i) as [J1 J2]. split; auto. rewrite J2.
      replace (Nat.ltb i (S k)) with (Nat.ltb i k); auto. destruct (Nat.ltb_spec i k), (Nat.ltb_spec i (S k)); auto; lia.
  - split; auto. intros i. destruct (I2 i) as [J1 J2]. split; auto. rewrite J2.
    destruct (Nat.eq_dec i k) as [->|NE]; [rewrite E, !andb_false_r; auto|].
    replace (Nat.ltb i (S k)) with (Nat.ltb i k); auto. destruct (Nat.ltb_spec i k), (Nat.ltb_spec i (S k)); auto; lia.
Qed.

Lemma arrs_ok : forall (t : cyc) s k, let s' := mcl_run p n s (flat_map (fun i => map (EArr i) (opt_list (o_mreq (snd (t i))))) (seq 0 k)) in
  mc_mem s' = mc_mem s /\ forall i, pr (mc_ports s' i) = pr (mc_ports s i) /\
    pq (mc_ports s' i) = if Nat.ltb i k then pq (mc_ports s i) ++ opt_list (o_mreq (snd (t i))) else pq (mc_ports s i).
Proof.
  intros t s. induction k as [|k IH]; cbv zeta; [cbn; auto|].
  rewrite seq_S, flat_map_app. unfold mcl_run in *. rewrite fold_left_app. cbn [flat_map Nat.add] in *. rewrite app_nil_r.
  set (s1 := fold_left _ (flat_map _ (seq 0 k)) s) in *. clearbody s1. destruct IH as [I1 I2].
  assert (LT : forall i, i <> k -> Nat.ltb i (S k) = Nat.ltb i k).
  { intros i NE. destruct (Nat.ltb_spec i k), (Nat.ltb_spec i (S k)); auto; lia. }
  assert (L : Nat.ltb k (S k) = true) by (apply Nat.ltb_lt; lia).
  destruct (o_mreq (snd (t k))) as [q|] eqn:E; cbn [opt_list map fold_left mcl_step mc_mem mc_ports].
  - split; auto. intros i. unfold pset. destruct (Nat.eqb_spec i k) as [->|NE].
    + cbn [pq pr]. destruct (I2 k) as [J1 J2]. rewrite J2, Nat.ltb_irrefl, L, E. split; auto.
    + destruct (I2 i) as [J1 J2]. split; auto. rewrite J2, LT; auto.
  - split; auto. intros i. destruct (I2 i) as [J1 J2]. split; auto. rewrite J2.
    destruct (Nat.eq_dec i k) as [->|NE]; [|rewrite LT; auto]. rewrite Nat.ltb_irrefl, L, E. cbn. rewrite app_nil_r. auto.
Qed.

Lemma tick_n : forall rdy l m0 rq0 rs0 ts m rq rs s, mmem p n m0 rq0 rs0 ts m rq rs -> like s m rq rs ->
  (forall i, In i l -> (i < n)%nat) ->
  exists m' rq' rs', mmem p n m0 rq0 rs0 ts m' rq' rs' /\ like (fold_left (mcl_port p rdy) l s) m' rq' rs'.
Proof.
  intros rdy. induction l as [|i l IH]; intros m0 rq0 rs0 ts m rq rs s M K IN; cbn [fold_left]; eauto.
  assert (I : (i < n)%nat) by (apply IN; left; auto).
  assert (X : exists m' rq' rs', mmem p n m0 rq0 rs0 ts m' rq' rs' /\ like (mcl_port p rdy s i) m' rq' rs').
  { unfold mcl_port. destruct K as [K1 K2]. destruct (K2 i I) as [Q R].
    destruct (pq (mc_ports s i)) as [|q r] eqn:E; [exists m, rq, rs; split; [auto|split; auto]|].
    destruct (rdy i); [|exists m, rq, rs; split; [auto|split; auto]].
    symmetry in Q. pose proof (mm_exec p n m0 rq0 rs0 ts m rq rs i q r M I Q) as M'. rewrite K1.
    destruct (mem_exec p m q) as [m1 x]. cbn [fst snd] in M'. eexists _, _, _. split; [exact M'|]. split; auto.
    intros j J. unfold pset, setq. cbn [mc_ports]. destruct (Nat.eqb_spec j i) as [->|NE]; cbn [pq pr]; auto. rewrite R. auto. }
  destruct X as (m' & rq' & rs' & M' & K'). eapply IH; eauto. intros j J. apply IN. right. auto.
Qed.

Theorem serves_n_mmem : forall ts2 rdys s m0 rq0 rs0 ts1 m rq rs, mmem p n m0 rq0 rs0 ts1 m rq rs -> like s m rq rs ->
  serves_n p n s ts2 rdys ->
  exists rq' rs', mmem p n m0 rq0 rs0 (ts1 ++ ts2) (mc_mem (mcl_end_n p n s ts2 rdys)) rq' rs' /\
    like (mcl_end_n p n s ts2 rdys) (mc_mem (mcl_end_n p n s ts2 rdys)) rq' rs'.
Proof.
  induction ts2 as [|t ts2 IH]; destruct rdys as [|rdy rdys]; intros s m0 rq0 rs0 ts1 m rq rs M K S; cbn [serves_n] in S; try contradiction.
  - unfold mcl_end_n. cbn [combine fold_left]. rewrite app_nil_r. exists rq, rs. destruct K as [K1 K2]. rewrite K1. split; auto. split; auto.
  - destruct S as [OK S]. unfold mcl_end_n. cbn [combine fold_left fst snd]. fold (mcl_end_n p n (mcl_run p n s (cycle_evs_n n t rdy)) ts2 rdys).
    assert (X : exists m' rq' rs', mmem p n m0 rq0 rs0 (ts1 ++ [t]) m' rq' rs' /\ like (mcl_run p n s (cycle_evs_n n t rdy)) m' rq' rs').
    { destruct K as [K1 K2].
      assert (M1 : mmem p n m0 rq0 rs0 (ts1 ++ [t]) m (fun i => rq i ++ opt_list (o_mreq (snd (t i))))
        (fun i => if i_mresp_en (fst (t i)) then List.tl (rs i) else rs i)).
      { apply mm_cycle; auto. intros i I ME. destruct (K2 i I) as [_ <-]. apply OK; auto. }
      unfold cycle_evs_n, mcl_run. rewrite !fold_left_app.
      pose proof (dels_ok t s n) as D. cbv zeta in D. unfold mcl_run in D. fold (dels_n n t) in D.
      set (s1 := fold_left (mcl_step p n) (dels_n n t) s) in *. clearbody s1. destruct D as [D1 D2].
      pose proof (arrs_ok t s1 n) as A. cbv zeta in A. unfold mcl_run in A. fold (arrs_n n t) in A.
      set (s2 := fold_left (mcl_step p n) (arrs_n n t) s1) in *. clearbody s2. destruct A as [A1 A2].
      cbn [fold_left mcl_step]. unfold mcl_tick. eapply tick_n; [exact M1 | | intros i I; apply in_seq in I; lia].
      split; [congruence|]. intros i I. apply Nat.ltb_lt in I as LI. destruct (K2 i I) as [Q R], (D2 i) as [Q1 R1], (A2 i) as [R2 Q2].
      rewrite LI in *. cbn [andb] in R1. split; [rewrite Q2, Q1, Q; auto | rewrite R2, R1, R; auto]. }
    destruct X as (m' & rq' & rs' & M' & K').
    destruct (IH rdys _ _ _ _ _ _ _ _ M' K' S) as (rq2 & rs2 & M2 & L2). exists rq2, rs2. split; auto.
    rewrite <- app_assoc in M2. auto.
Qed.

Theorem serves_n_start : forall ts rdys m0, serves_n p n (mcl0 m0) ts rdys ->
  exists rq rs, mmem p n m0 no_reqs no_resps ts (mc_mem (mcl_end_n p n (mcl0 m0) ts rdys)) rq rs /\
    forall i, (i < n)%nat -> pq (mc_ports (mcl_end_n p n (mcl0 m0) ts rdys) i) = rq i /\ pr (mc_ports (mcl_end_n p n (mcl0 m0) ts rdys) i) = rs i.
Proof.
  intros ts rdys m0 S. destruct (serves_n_mmem ts rdys (mcl0 m0) m0 no_reqs no_resps [] m0 no_reqs no_resps) as (rq & rs & M & K); auto.
  - constructor.
  - split; auto.
  - exists rq, rs. split; auto. apply K.
Qed.
End S.
