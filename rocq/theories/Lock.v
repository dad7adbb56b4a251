(** Programs that protect shared words by a test-and-set lock (C59). *)
From Coq Require Import Arith NArith List Bool Lia.
From Verif Require Import Bits Params Msg Units Rtl Mem Spec System Tl ParamsProofs RefineInv RefineProofs
  UnitProofs ViewDefs ViewOps ViewProofs SysProofs SysFacts Traffic MetaProofs PendProofs TrafProofs
  Hide Proto MultiSys MultiProofs MultiFacts MultiMore MultiAmo DynSpec DynProofs DynFacts AmoAll LockSpec.
Import ListNotations.
Open Scope N_scope.

(** *** Holding *)
Lemma filter_two : forall A (f g : A -> bool) l, filter g (filter f l) = filter (fun x => f x && g x) l.
Proof. induction l as [|x l IH]; auto. cbn [filter]. destruct (f x); cbn [filter andb]; [destruct (g x)|]; rewrite IH; auto. Qed.
Lemma lock_ops : forall a tr, filter (lock_op a) (accepted tr) = filter (fun r => cq_addr r =? a) (amos tr).
Proof. intros. unfold amos. rewrite filter_two. reflexivity. Qed.
Lemma done_len : forall a tr, (length (at_word a (amos_done tr)) <= length (filter (lock_op a) (accepted tr)))%nat.
Proof.
  intros a tr. unfold amos_done, at_word. generalize (responses tr). induction (accepted tr) as [|r A IH]; intros [|y Y]; cbn [combine filter map length]; try lia.
  unfold lock_op at 1. change (is_amo (cq_type r)) with (is_amor r). cbn [fst]. specialize (IH Y).
  destruct (is_amor r); cbn [map filter fst snd andb]; [|lia]. destruct (cq_addr r =? a); cbn [length]; lia.
Qed.
Lemma done_mono : forall u v, (length (responses u) <= length (accepted u))%nat -> prefix (amos_done u) (amos_done (u ++ v)).
Proof.
  intros u v. unfold amos_done. rewrite accepted_app, responses_app. generalize (responses u) (accepted u) (responses v) (accepted v).
  induction l as [|y Y IH]; intros [|r A] Y' A' L; cbn [length] in L; try lia; cbn [app combine filter map].
  - exists (map (fun ry => (fst ry, cr_data (snd ry))) (filter (fun ry => is_amor (fst ry)) (combine A' Y'))). auto.
  - eexists. reflexivity.
  - destruct (IH A Y' A') as [z Z]; [lia|]. cbn [fst]. destruct (is_amor r); cbn [map]; rewrite Z; exists z; auto.
Qed.
Lemma holds_shape : forall a tr, holds a tr = true -> exists D r, at_word a (amos_done tr) = D ++ [(r, 0)] /\ trunc 32 (cq_data r) = 1 /\
  length (filter (lock_op a) (accepted tr)) = S (length D).
Proof.
  intros a tr H. unfold holds in H. destruct (rev (at_word a (amos_done tr))) as [|[r d] l] eqn:E; [discriminate H|].
  apply andb_prop in H. destruct H as [H H3]. apply andb_prop in H. destruct H as [H1 H2].
  apply N.eqb_eq in H1, H2. apply Nat.eqb_eq in H3. subst d. exists (rev l), r. rewrite rev_length.
  split; auto. apply (f_equal (@rev _)) in E. rewrite rev_involutive in E. auto.
Qed.
Lemma no_ops : forall a v, (forall r, In r (accepted v) -> lock_op a r = false) -> filter (lock_op a) (accepted v) = [].
Proof.
  intros a v H. induction (accepted v) as [|r A IH]; auto. cbn [filter]. rewrite (H r) by (left; auto). apply IH. intros r' R. apply H. right. auto.
Qed.
Lemma holds_keep : forall a u v, holds a u = true -> (length (responses u) <= length (accepted u))%nat ->
  (forall r, In r (accepted v) -> lock_op a r = false) -> holds a (u ++ v) = true.
Proof.
  intros a u v H L NO. pose proof H as HS. apply holds_shape in HS. destruct HS as (D & r & E & _ & LN).
  apply no_ops in NO. destruct (done_mono u v L) as [z Z]. unfold holds in *. rewrite accepted_app, filter_app, NO, app_nil_r.
  assert (EQ : at_word a (amos_done (u ++ v)) = at_word a (amos_done u)); [|rewrite EQ; auto].
  pose proof (done_len a (u ++ v)) as DL. rewrite accepted_app, filter_app, NO, app_nil_r in DL.
  rewrite Z, at_word_app in *. rewrite E in *. rewrite !app_length in DL. cbn [length] in DL.
  destruct (at_word a z); [apply app_nil_r | cbn [length] in DL; lia].
Qed.

(** *** The global sequence of lock operations *)
Definition HH (i : nat) (LA : list (nat * (creq * N))) : Prop := exists D r, by_cache i LA = D ++ [(r, 0)] /\ trunc 32 (cq_data r) = 1.
Lemma HH_other : forall i j x LA, i <> j -> HH i (LA ++ [(j, x)]) -> HH i LA.
Proof.
  intros i j x LA NE (D & r & E & T). rewrite by_cache_app, by_cache_one in E. destruct (Nat.eqb_spec j i); [congruence|]. rewrite app_nil_r in E.
  exists D, r. auto.
Qed.
Lemma HH_same : forall i r d LA, HH i (LA ++ [(i, (r, d))]) -> d = 0 /\ trunc 32 (cq_data r) = 1.
Proof.
  intros i r d LA (D & r' & E & T). rewrite by_cache_app, by_cache_one, Nat.eqb_refl in E. apply app_inj_tail in E. destruct E as [_ E].
  inversion E; subst. auto.
Qed.
Lemma seq_excl : forall v0 LA v, amo_seq v0 (map snd LA) v ->
  Forall (fun x : nat * (creq * N) => cq_type (fst (snd x)) = T_AMO_SWAP /\ (trunc 32 (cq_data (fst (snd x))) = 0 \/ trunc 32 (cq_data (fst (snd x))) = 1)) LA ->
  (forall LA1 j r d LA2, LA = LA1 ++ (j, (r, d)) :: LA2 -> trunc 32 (cq_data r) = 0 -> HH j LA1) ->
  (forall i j, HH i LA -> HH j LA -> i = j) /\ (forall i, HH i LA -> v = 1).
Proof.
  intros v0. induction LA as [|[j [r d]] LA IH] using rev_ind; intros v H F R.
  - split.
    + intros i j (D & r & E & _). destruct D; discriminate E.
    + intros i (D & r & E & _). destruct D; discriminate E.
  - rewrite map_app in H. apply seq_app_inv in H. destruct H as (v1 & H1 & H2). cbn [map snd amo_seq] in H2. destruct H2 as [-> ->].
    apply Forall_app in F. destruct F as [F1 F2]. inversion F2 as [|? ? [T O] _]; subst. cbn [fst snd] in T, O.
    destruct (IH v1 H1 F1) as [I1 I2].
    { intros LA1 j' r' d' LA2 E. apply (R LA1 j' r' d' (LA2 ++ [(j, (r, v1))])). rewrite E, <- app_assoc. auto. }
    rewrite T. change (amo_fun T_AMO_SWAP v1 (trunc 32 (cq_data r))) with (trunc 32 (cq_data r)).
    destruct O as [O | O].
    + (* release *)
      pose proof (R LA j r v1 [] eq_refl O) as HJ.
      assert (NB : forall i, ~ HH i (LA ++ [(j, (r, v1))])).
      { intros i HI. destruct (Nat.eq_dec i j) as [->|NE].
        - apply HH_same in HI. destruct HI as [_ HI]. rewrite O in HI. discriminate HI.
        - apply HH_other in HI; auto. }
      split; intros i; intros; exfalso; eapply NB; eauto.
    + rewrite O. split; auto. intros i k HI HK.
      assert (NZ : forall i, i <> j -> HH i (LA ++ [(j, (r, v1))]) -> HH i LA /\ v1 = 1).
      { intros x NE HX. apply HH_other in HX; auto. eauto. }
      destruct (Nat.eq_dec i j) as [->|NI], (Nat.eq_dec k j) as [->|NK]; auto.
      * apply HH_same in HI. apply NZ in HK; auto. destruct HI, HK. subst. discriminate.
      * apply HH_same in HK. apply NZ in HI; auto. destruct HK, HI. subst. discriminate.
      * apply NZ in HI, HK; auto. apply I1; tauto.
Qed.

Section L.
Variable p : params.
Variable sz : nat -> N * N.
Variable n : nat.
Hypothesis W : wf_caches p sz n.
Notation pp := (sized p sz).
Variables (s0 : nat -> st) (m0 : mem).
Variables (a : N) (G : N -> Prop).
Hypothesis A4 : a mod 4 = 0.
Hypothesis AR : a < 2 ^ p_abw p.

Lemma lc_prefix : forall tr tr', lock_client p a G (tr ++ tr') -> lock_client p a G tr.
Proof.
  intros tr tr' [H1 H2 H3 H4]. constructor.
  - intros r R. apply H1. rewrite accepted_app. apply in_or_app. auto.
  - intros t1 x t2 E. apply (H2 t1 x (t2 ++ tr')). rewrite E, <- app_assoc. auto.
  - intros t1 x t2 k E. apply (H3 t1 x (t2 ++ tr')). rewrite E, <- app_assoc. auto.
  - intros t1 x t2 l r k E. apply (H4 t1 x (t2 ++ tr')). rewrite E, <- app_assoc. auto.
Qed.

Lemma counts : forall ts m rq rs i, clients p sz n s0 ts -> mmem p n m0 no_reqs no_resps ts m rq rs -> (i < n)%nat ->
  (length (responses (proj i ts)) <= length (accepted (proj i ts)))%nat.
Proof.
  intros ts m rq rs i C H I. destruct (clients_echo p sz n W s0 m0 ts m rq rs i H C I) as (rest & E).
  apply (f_equal (@length _)) in E. rewrite app_length, !map_length in E. lia.
Qed.
Lemma prefix_of : forall ts ts' m rq rs, clients p sz n s0 (ts ++ ts') -> mmem p n m0 no_reqs no_resps (ts ++ ts') m rq rs ->
  clients p sz n s0 ts /\ exists m1 rq1 rs1, mmem p n m0 no_reqs no_resps ts m1 rq1 rs1.
Proof.
  intros ts ts' m rq rs C H. split; [eapply clients_app; eauto|].
  remember (ts ++ ts') as l eqn:E. revert ts' E C. induction H as [|l m rq rs j q k H IH L Q | l m rq rs t H IH D]; intros ts' E C.
  - symmetry in E. apply app_eq_nil in E. destruct E as [-> _]. eexists _, _, _. constructor.
  - eauto.
  - destruct ts' as [|x ts'] using rev_ind.
    + rewrite app_nil_r in E. subst. eexists _, _, _. apply mm_cycle; eauto.
    + clear IHts'. rewrite app_assoc in E. apply app_inj_tail in E. destruct E as [-> ->]. eapply IH; eauto. eapply clients_app; eauto.
Qed.

Lemma filter_nth_acc : forall tr k r, nth_error (filter (lock_op a) (accepted tr)) k = Some r ->
  exists t1 x t2, tr = t1 ++ x :: t2 /\ i_req_en (fst x) = true /\ i_req (fst x) = r /\ lock_op a r = true /\
    length (filter (lock_op a) (accepted t1)) = k.
Proof.
  induction tr as [|x tr IH]; intros k r H; [destruct k; discriminate H|].
  change (x :: tr) with ([x] ++ tr) in H. rewrite accepted_app, filter_app, acc1 in H.
  assert (NX : forall t1, filter (lock_op a) (accepted (x :: t1)) = filter (lock_op a) (if i_req_en (fst x) then [i_req (fst x)] else []) ++ filter (lock_op a) (accepted t1)).
  { intros t1. change (x :: t1) with ([x] ++ t1). rewrite accepted_app, filter_app, acc1. auto. }
  destruct (i_req_en (fst x)) eqn:RE.
  - cbn [filter app] in H. cbn [filter] in NX. destruct (lock_op a (i_req (fst x))) eqn:LO.
    + destruct k as [|k]; cbn in H.
      * injection H as <-. exists [], x, tr. repeat split; auto.
      * destruct (IH k r H) as (t1 & y & t2 & -> & Y1 & Y2 & Y3 & Y4). exists (x :: t1), y, t2. rewrite NX. cbn. repeat split; auto; lia.
    + destruct (IH k r H) as (t1 & y & t2 & -> & Y1 & Y2 & Y3 & Y4). exists (x :: t1), y, t2. rewrite NX. cbn. repeat split; auto; lia.
  - destruct (IH k r H) as (t1 & y & t2 & -> & Y1 & Y2 & Y3 & Y4). exists (x :: t1), y, t2. rewrite NX. cbn. repeat split; auto; lia.
Qed.

Lemma nth_prefix_last : forall A (l D : list A) x, prefix (D ++ [x]) l -> nth_error l (length D) = Some x.
Proof. intros A l D x [z ->]. rewrite <- app_assoc, nth_error_app2, Nat.sub_diag by lia. auto. Qed.

Theorem lock_state : forall ts m rq rs, clients p sz n s0 ts -> mmem p n m0 no_reqs no_resps ts m rq rs ->
  (forall i, (i < n)%nat -> lock_client p a G (proj i ts)) ->
  (forall i j, (i < n)%nat -> (j < n)%nat -> holds a (proj i ts) = true -> holds a (proj j ts) = true -> i = j) /\
  (forall i, (i < n)%nat -> holds a (proj i ts) = true -> rd_bytes m a 4 = 1).
Proof.
  intros ts m rq rs C H LC.
  assert (U : unwritten p n ts (word_num a)).
  { intros i r I R WW. destruct (lc_lock _ _ _ _ (LC i I) r R (or_introl WW)) as [T _]. destruct WW as [T' _]. rewrite T in T'. discriminate T'. }
  destruct (multi_amo p sz n W s0 ts m0 m rq rs C H) as (L & IDS & SEQ & _ & PX). specialize (SEQ a A4 AR U). rewrite at_map in SEQ.
  set (LA := filter (fun x => cq_addr (fst (snd x)) =? a) L) in *.
  assert (P1 : forall i, (i < n)%nat -> prefix (at_word a (amos_done (proj i ts))) (by_cache i LA)).
  { intros i I. destruct (PX i I) as [P _]. unfold LA. rewrite <- at_by. apply prefix_filter. auto. }
  assert (P2 : forall i, (i < n)%nat -> prefix (map fst (by_cache i LA)) (filter (lock_op a) (accepted (proj i ts)))).
  { intros i I. destruct (PX i I) as [_ P]. unfold LA. rewrite <- at_by, lock_ops.
    apply (prefix_filter _ (fun r => cq_addr r =? a)) in P. replace (map fst (at_word a (by_cache i L))) with (filter (fun r => cq_addr r =? a) (map fst (by_cache i L))); auto.
    clear. unfold at_word. induction (by_cache i L) as [|[r d] l IH]; auto. cbn [map filter fst]. destruct (cq_addr r =? a); cbn [map fst]; rewrite IH; auto. }
  assert (ENT : forall LA1 j r d LA2, LA = LA1 ++ (j, (r, d)) :: LA2 -> (j < n)%nat /\
     nth_error (filter (lock_op a) (accepted (proj j ts))) (length (by_cache j LA1)) = Some r).
  { intros LA1 j r d LA2 E.
    assert (J : (j < n)%nat).
    { rewrite Forall_forall in IDS. apply (IDS (j, (r, d))). assert (IN : In (j, (r, d)) LA) by (rewrite E; apply in_or_app; right; left; auto).
      apply filter_In in IN. apply IN. }
    split; auto. eapply prefix_nth; [apply (P2 j J)|]. rewrite E, by_cache_app, map_app.
    change ((j, (r, d)) :: LA2) with ([(j, (r, d))] ++ LA2). rewrite by_cache_app, by_cache_one, Nat.eqb_refl. cbn [app map fst].
    rewrite nth_error_app2 by (rewrite map_length; lia). rewrite map_length, Nat.sub_diag. auto. }
  assert (FS : Forall (fun x : nat * (creq * N) => cq_type (fst (snd x)) = T_AMO_SWAP /\ (trunc 32 (cq_data (fst (snd x))) = 0 \/ trunc 32 (cq_data (fst (snd x))) = 1)) LA).
  { apply Forall_forall. intros [j [r d]] IN. apply in_split in IN. destruct IN as (LA1 & LA2 & E). destruct (ENT _ _ _ _ _ E) as [J N].
    cbn [fst snd]. apply nth_error_In in N. apply filter_In in N. destruct N as [N LO]. unfold lock_op in LO. apply andb_prop in LO. destruct LO as [IA AD].
    apply N.eqb_eq in AD. apply (lc_lock _ _ _ _ (LC j J) r N). right. split; auto. rewrite AD. auto. }
  assert (REL : forall LA1 j r d LA2, LA = LA1 ++ (j, (r, d)) :: LA2 -> trunc 32 (cq_data r) = 0 -> HH j LA1).
  { intros LA1 j r d LA2 E O. destruct (ENT _ _ _ _ _ E) as [J N].
    destruct (filter_nth_acc _ _ _ N) as (t1 & x & t2 & ET & RE & RX & LO & LN).
    pose proof (lc_release _ _ _ _ (LC j J) t1 x t2 ET RE) as HO. rewrite RX in HO. specialize (HO LO O).
    apply holds_shape in HO. destruct HO as (D & r1 & ED & T1 & LD).
    assert (CT : (length (responses t1) <= length (accepted t1))%nat).
    { assert (TE : t1 = proj j (firstn (length t1) ts)).
      { unfold proj. rewrite <- firstn_map. change (map (fun t => t j) ts) with (proj j ts). rewrite ET, firstn_app, Nat.sub_diag, firstn_all. cbn [firstn]. rewrite app_nil_r. auto. }
      rewrite <- (firstn_skipn (length t1) ts) in C, H. destruct (prefix_of _ _ _ _ _ C H) as (C1 & m1 & rq1 & rs1 & H1).
      rewrite TE. eapply counts; eauto. }
    pose proof (done_mono t1 (x :: t2) CT) as PM. rewrite <- ET in PM. apply (prefix_filter _ (fun y => cq_addr (fst y) =? a)) in PM.
    change (filter (fun y => cq_addr (fst y) =? a) (amos_done t1)) with (at_word a (amos_done t1)) in PM. rewrite ED in PM.
    pose proof (prefix_trans _ _ _ _ PM (P1 j J)) as PB. rewrite E, by_cache_app in PB.
    assert (LL : length (by_cache j LA1) = S (length D)) by lia.
    destruct PB as [z PB]. exists D, r1. split; auto.
    apply (f_equal (firstn (S (length D)))) in PB. rewrite firstn_app, <- LL, Nat.sub_diag, firstn_all in PB. cbn [firstn] in PB.
    rewrite app_nil_r in PB. rewrite LL in PB. rewrite PB.
    assert (LS : S (length D) = length (D ++ [(r1, 0)])) by (rewrite app_length; cbn [length]; lia).
    rewrite LS, firstn_app, Nat.sub_diag, firstn_all. cbn [firstn]. apply app_nil_r. }
  destruct (seq_excl _ _ _ SEQ FS REL) as [X1 X2].
  assert (HO : forall i, (i < n)%nat -> holds a (proj i ts) = true -> HH i LA).
  { intros i I HI. apply holds_shape in HI. destruct HI as (D & r & ED & T & LD). exists D, r. split; auto.
    destruct (P1 i I) as [z PZ]. rewrite ED in PZ. rewrite PZ. destruct z as [|z0 z]; [rewrite app_nil_r; auto|]. exfalso.
    pose proof (prefix_len _ _ _ (P2 i I)) as PL. rewrite map_length, PZ, !app_length in PL. cbn [length] in PL. lia. }
  split.
  - intros i j I J HI HJ. auto.
  - intros i I HI. eauto.
Qed.

Local Ltac li := clear A4 AR; lia.
(** *** Exclusion at every moment *)
Lemma proj_len : forall i ts, length (proj i ts) = length ts.
Proof. intros. unfold proj. apply map_length. Qed.
Lemma firstn_proj : forall i t ts, proj i (firstn t ts) = firstn t (proj i ts).
Proof. intros. unfold proj. symmetry. apply firstn_map. Qed.
Lemma cut : forall ts m rq rs t, clients p sz n s0 ts -> mmem p n m0 no_reqs no_resps ts m rq rs ->
  (forall i, (i < n)%nat -> lock_client p a G (proj i ts)) ->
  clients p sz n s0 (firstn t ts) /\ (exists m1 rq1 rs1, mmem p n m0 no_reqs no_resps (firstn t ts) m1 rq1 rs1) /\
  (forall i, (i < n)%nat -> lock_client p a G (proj i (firstn t ts))).
Proof.
  intros ts m rq rs t C H LC. rewrite <- (firstn_skipn t ts) in C, H. destruct (prefix_of _ _ _ _ _ C H) as (C1 & m1 & rq1 & rs1 & H1).
  split; auto. split; eauto. intros i I. specialize (LC i I). rewrite <- (firstn_skipn t ts), proj_app in LC. eapply lc_prefix; eauto.
Qed.
Theorem lock_excl : forall ts m rq rs t i j, clients p sz n s0 ts -> mmem p n m0 no_reqs no_resps ts m rq rs ->
  (forall i, (i < n)%nat -> lock_client p a G (proj i ts)) -> (i < n)%nat -> (j < n)%nat ->
  holds a (proj i (firstn t ts)) = true -> holds a (proj j (firstn t ts)) = true -> i = j.
Proof.
  intros ts m rq rs t i j C H LC I J HI HJ. destruct (cut _ _ _ _ t C H LC) as (C1 & (m1 & rq1 & rs1 & H1) & LC1).
  destruct (lock_state _ _ _ _ C1 H1 LC1) as [X _]. auto.
Qed.

Definition mine (ts : list cyc) (t i : nat) : bool := holds a (proj i (firstn t ts)).

Lemma inv_absent : forall q k A r, cq_type r = T_INV -> absent q k (A ++ [r]).
Proof.
  intros q k A r T. unfold absent. rewrite lru_snoc. unfold lru_step, rw_req. rewrite T. cbn. auto.
Qed.
Lemma nth_split_at : forall A (l : list A) t x, nth_error l t = Some x -> l = firstn t l ++ x :: skipn (S t) l.
Proof.
  intros A l t x H. destruct (nth_error_split l t H) as (l1 & l2 & -> & <-).
  rewrite firstn_app, Nat.sub_diag, firstn_all. cbn [firstn]. rewrite app_nil_r. f_equal. f_equal.
  clear. induction l1 as [|y l1 IH]; auto.
Qed.
Lemma firstn_next : forall A (l : list A) T t, nth_error l T = Some t -> firstn (S T) l = firstn T l ++ [t].
Proof.
  induction l as [|x l IH]; intros [|T] t H; cbn in H; try discriminate H.
  - inversion H; auto.
  - cbn [firstn app]. f_equal. apply IH. auto.
Qed.

Lemma counts_cut : forall ts m rq rs t i, clients p sz n s0 ts -> mmem p n m0 no_reqs no_resps ts m rq rs -> (i < n)%nat ->
  (length (responses (firstn t (proj i ts))) <= length (accepted (firstn t (proj i ts))))%nat.
Proof.
  intros ts m rq rs t i C H I. rewrite <- firstn_proj. rewrite <- (firstn_skipn t ts) in C, H. destruct (prefix_of _ _ _ _ _ C H) as (C1 & m1 & rq1 & rs1 & H1).
  eapply counts; eauto.
Qed.

(** a cache that stops holding the lock has just accepted an AMO on it *)
Lemma lose : forall ts m rq rs t i, clients p sz n s0 ts -> mmem p n m0 no_reqs no_resps ts m rq rs -> (i < n)%nat -> (t < length ts)%nat ->
  mine ts t i = true -> mine ts (S t) i = false ->
  exists x, proj i ts = firstn t (proj i ts) ++ x :: skipn (S t) (proj i ts) /\ firstn (S t) (proj i ts) = firstn t (proj i ts) ++ [x] /\
    i_req_en (fst x) = true /\ lock_op a (i_req (fst x)) = true.
Proof.
  intros ts m rq rs t i C H I T M1 M2. destruct (nth_error (proj i ts) t) as [x|] eqn:NX.
  2:{ apply nth_error_None in NX. rewrite proj_len in NX. li. }
  exists x. pose proof (nth_split_at _ _ _ _ NX) as E. split; auto.
  assert (ES : firstn (S t) (proj i ts) = firstn t (proj i ts) ++ [x]).
  { apply firstn_next. auto. }
  split; auto. unfold mine in *. rewrite firstn_proj in *. rewrite ES in M2.
  destruct (i_req_en (fst x)) eqn:RE.
  - split; auto. destruct (lock_op a (i_req (fst x))) eqn:LO; auto. exfalso.
    rewrite (holds_keep a _ [x] M1) in M2; [discriminate M2 | eapply counts_cut; eauto |].
    intros r R. rewrite acc1, RE in R. destruct R as [<- | []]. auto.
  - exfalso. rewrite (holds_keep a _ [x] M1) in M2; [discriminate M2 | eapply counts_cut; eauto |].
    intros r R. rewrite acc1, RE in R. destruct R.
Qed.

(** in a critical section the cache has held the lock since its INV *)
Lemma critical_since : forall ts m rq rs t i k, clients p sz n s0 ts -> mmem p n m0 no_reqs no_resps ts m rq rs -> (i < n)%nat -> (t <= length ts)%nat ->
  critical a (firstn t (proj i ts)) ->
  exists e, (e <= t)%nat /\ (forall t', (e <= t' <= t)%nat -> mine ts t' i = true) /\ absent (pp i) k (accepted (proj i (firstn e ts))).
Proof.
  intros ts m rq rs t i k C H I T (u & y & v & E & HU & RY & TY & NO).
  assert (LP : length (proj i ts) = length ts) by (unfold proj; apply map_length).
  assert (LT : length (firstn t (proj i ts)) = t) by (rewrite firstn_length_le; li).
  assert (LE : t = (length u + S (length v))%nat) by (rewrite <- LT, E, app_length; auto).
  assert (SUB : forall t', (length u < t' <= t)%nat -> exists v', firstn t' (proj i ts) = u ++ y :: v' /\ forall r, In r (accepted v') -> In r (accepted v)).
  { intros t' T'. exists (firstn (t' - S (length u)) v).
    replace (firstn t' (proj i ts)) with (firstn t' (firstn t (proj i ts))) by (rewrite firstn_firstn; f_equal; li).
    rewrite E, firstn_app, firstn_all2 by li. replace (t' - length u)%nat with (S (t' - S (length u))) by li. cbn [firstn]. split; auto.
    intros r R. rewrite <- (firstn_skipn (t' - S (length u)) v), accepted_app. apply in_or_app. auto. }
  exists (S (length u)). split; [li|]. split.
  - intros t' T'. destruct (SUB t' ltac:(li)) as (v' & EV & RV). unfold mine. rewrite firstn_proj, EV. apply holds_keep; auto.
    + replace u with (firstn (length u) (proj i ts)); [eapply counts_cut; eauto|].
      replace (firstn (length u) (proj i ts)) with (firstn (length u) (firstn t (proj i ts))) by (rewrite firstn_firstn; f_equal; li).
      rewrite E, firstn_app, Nat.sub_diag, firstn_all. cbn [firstn]. apply app_nil_r.
    + intros r R. change (y :: v') with ([y] ++ v') in R. rewrite accepted_app, acc1, RY in R. apply in_app_or in R. destruct R as [[<- | []] | R]; auto.
      unfold lock_op. rewrite TY. auto.
  - destruct (SUB (S (length u)) ltac:(li)) as (v' & EV & _). rewrite firstn_proj, EV.
    assert (VN : v' = []).
    { apply (f_equal (@length _)) in EV. rewrite firstn_length_le, app_length in EV by li. cbn [length] in EV. destruct v'; auto. cbn [length] in EV. li. }
    rewrite VN, accepted_app, acc1, RY. apply inv_absent. auto.
Qed.

Theorem lock_synced : forall ts m rq rs k, clients p sz n s0 ts -> mmem p n m0 no_reqs no_resps ts m rq rs ->
  (forall i, (i < n)%nat -> lock_client p a G (proj i ts)) -> G k -> ~ G (word_num a) ->
  synced p sz n k (mine ts) (mine ts) ts.
Proof.
  intros ts m rq rs k C H LC GK GA.
  assert (TCH : forall i t x, (i < n)%nat -> nth_error (proj i ts) t = Some x -> i_req_en (fst x) = true -> touches p (i_req (fst x)) k ->
    (t <= length ts)%nat /\ critical a (firstn t (proj i ts))).
  { intros i t x I NX RE TO. split.
    - assert (t < length (proj i ts))%nat by (apply nth_error_Some; congruence). rewrite proj_len in *. li.
    - apply (lc_enter _ _ _ _ (LC i I) _ x _ k (nth_split_at _ _ _ _ NX) RE GK TO). }
  assert (NL : forall r, lock_op a r = true -> ~ touches p r k).
  { intros r LO TO. unfold lock_op in LO. apply andb_prop in LO. destruct LO as [IA AD]. apply N.eqb_eq in AD.
    destruct TO as [([T | T] & _) | (_ & E)]; try (rewrite T in IA; discriminate IA). apply GA. rewrite <- AD, <- E. auto. }
  assert (LV : forall i t, (i < n)%nat -> (t < length ts)%nat -> mine ts t i = true -> mine ts (S t) i = false ->
     forall l r, nth_error (accepted (proj i (firstn (S t) ts))) l = Some r -> touches p r k ->
       (l < length (responses (proj i (firstn (S t) ts))))%nat /\
       (write_word p r k -> exists l' f, (l < l')%nat /\ (l' < length (responses (proj i (firstn (S t) ts))))%nat /\
         nth_error (accepted (proj i (firstn (S t) ts))) l' = Some f /\ cq_type f = T_FLUSH)).
  { intros i t I T M1 M2 l r NR TO. destruct (lose _ _ _ _ t i C H I T M1 M2) as (x & E & ES & RE & LO).
    rewrite firstn_proj, ES in *. rewrite accepted_app, acc1, RE in NR.
    assert (NA : nth_error (accepted (firstn t (proj i ts))) l = Some r).
    { destruct (Nat.lt_ge_cases l (length (accepted (firstn t (proj i ts))))) as [LL|LL]; [rewrite nth_error_app1 in NR; auto|]. exfalso.
      rewrite nth_error_app2 in NR by auto. destruct (l - length (accepted (firstn t (proj i ts))))%nat as [|q]; cbn in NR; [|destruct q; discriminate NR].
      inversion NR; subst r. apply (NL _ LO TO). }
    unfold mine in M1. rewrite firstn_proj in M1.
    destruct (lc_leave _ _ _ _ (LC i I) _ x _ l r k E RE LO M1 NA GK) as [X1 X2]. split; auto. intros WW. destruct (X2 WW) as (l' & f & L' & NF & TF).
    exists l', f. split; [li|]. split; [li|]. split; auto. rewrite accepted_app. rewrite nth_error_app1; auto. apply nth_error_Some. congruence. }
  constructor.
  - auto.
  - intros t i j _ I J M1 M2. eapply lock_excl; eauto.
  - intros i t x I NX RE TO. destruct (TCH i t x I NX RE TO) as [T CR]. eapply critical_since; eauto.
  - intros i t x I NX RE MO. destruct (TCH i t x I NX RE (mod_touch p k _ MO)) as [T CR].
    destruct (critical_since _ _ _ _ t i k C H I T CR) as (e & E1 & E2 & _). apply E2. li.
  - intros i t I T M1 M2 past. split.
    + intros l r NR MO. apply (LV i t I T M1 M2 l r NR (mod_touch p k _ MO)).
    + intros l r NR WW. destruct (LV i t I T M1 M2 l r NR (mod_touch p k _ (or_introl WW))) as [_ X]. destruct (X WW) as (l' & f & L1 & L2 & NF & TF).
      exists l', f. split; auto. split; auto. split; auto. left. auto.
  - intros i t I T M1 M2 past l r NR TO. apply (LV i t I T M1 M2 l r NR TO).
Qed.

(** *** What is read in a critical section stays true while it lasts *)
Lemma hist_in : forall n' ts r, In r (hist n' ts) -> exists s t j, nth_error ts s = Some t /\ (j < n')%nat /\ i_req_en (fst (t j)) = true /\ r = i_req (fst (t j)).
Proof.
  intros n' ts r IN. unfold hist in IN. apply in_flat_map in IN. destruct IN as (t & IT & IN). apply In_nth_error in IT. destruct IT as (s & NS).
  unfold cyc_reqs in IN. apply in_flat_map in IN. destruct IN as (j & J & IN). apply in_seq in J. rewrite acc1 in IN.
  destruct (i_req_en (fst (t j))) eqn:RE; [|destruct IN]. destruct IN as [<- | []]. exists s, t, j. repeat split; auto; li.
Qed.
Theorem lock_stable : forall ts1 t ts2 ts3 m rq rs i k, clients p sz n s0 (ts1 ++ t :: ts2 ++ ts3) ->
  mmem p n m0 no_reqs no_resps (ts1 ++ t :: ts2 ++ ts3) m rq rs ->
  (forall i, (i < n)%nat -> lock_client p a G (proj i (ts1 ++ t :: ts2 ++ ts3))) -> G k -> ~ G (word_num a) -> (i < n)%nat ->
  i_req_en (fst (t i)) = true -> touches p (i_req (fst (t i))) k -> ~ modifies p (i_req (fst (t i))) k ->
  (forall r, In r (accepted (proj i ts2)) -> lock_op a r = false /\ ~ modifies p r k) ->
  agree p (mk k true) (flat_mem p m0 (hist n (ts1 ++ t :: ts2))) (flat_mem p m0 (hist n ts1)).
Proof.
  intros ts1 t ts2 ts3 m rq rs i k C H LC GK GA I RE TO NM NO. set (ts := ts1 ++ t :: ts2 ++ ts3) in *.
  pose proof (lock_synced ts m rq rs k C H LC GK GA) as SY.
  rewrite hist_app, flat_mem_app.
  assert (NT : forall i, nth_error (proj i ts) (length ts1) = Some (t i)).
  { intros i'. unfold ts, proj. rewrite map_app, nth_error_app2; rewrite map_length; auto. rewrite Nat.sub_diag. auto. }
  assert (M0 : mine ts (length ts1) i = true).
  { destruct (sy_touch _ _ _ _ _ _ _ SY i _ _ I (NT i) RE TO) as (e & E1 & E2 & _). apply E2. lia. }
  assert (LO : lock_op a (i_req (fst (t i))) = false).
  { unfold lock_op. destruct (is_amo (cq_type (i_req (fst (t i))))) eqn:IA; auto. exfalso. apply NM. destruct TO as [([T | T] & _) | X]; [rewrite T in IA; discriminate IA.. | right; auto]. }
  assert (MS : forall s, (s <= S (length ts2))%nat -> mine ts (length ts1 + s) i = true).
  { intros s S1. unfold mine in *. unfold ts. rewrite firstn_app, firstn_all2 by li. replace (length ts1 + s - length ts1)%nat with s by li.
    rewrite proj_app. apply holds_keep.
    - unfold ts in M0. rewrite firstn_app, firstn_all, Nat.sub_diag in M0. cbn [firstn] in M0. rewrite app_nil_r in M0. auto.
    - replace (proj i ts1) with (firstn (length ts1) (proj i ts)); [eapply counts_cut; eauto|].
      rewrite <- firstn_proj. unfold ts. rewrite firstn_app, firstn_all, Nat.sub_diag. cbn [firstn]. rewrite app_nil_r. auto.
    - intros r R. destruct s as [|s]; [destruct R|]. cbn [firstn] in R. rewrite firstn_app in R. replace (s - length ts2)%nat with 0%nat in R by li. cbn [firstn] in R. rewrite app_nil_r in R.
      change (proj i (t :: firstn s ts2)) with ([t i] ++ proj i (firstn s ts2)) in R. rewrite accepted_app, acc1, RE in R.
      apply in_app_or in R. destruct R as [[<- | []] | R]; auto. apply NO. rewrite <- (firstn_skipn s ts2), proj_app, accepted_app. apply in_or_app. auto. }
  apply (flat_keeps p k). apply Forall_forall. intros r IN. apply hist_in in IN. destruct IN as (s & t' & j & NS & J & RJ & ->).
  assert (SL : (s < length (t :: ts2))%nat) by (apply nth_error_Some; congruence). cbn [length] in SL.
  assert (NT' : nth_error (proj j ts) (length ts1 + s) = Some (t' j)).
  { unfold proj. apply map_nth_error with (f := fun x => x j). unfold ts. rewrite nth_error_app2 by li. replace (length ts1 + s - length ts1)%nat with s by li.
    rewrite app_comm_cons. rewrite nth_error_app1; auto. }
  assert (MSI : mine ts (length ts1 + s) i = true) by (apply MS; li).
  split.
  - destruct (C j J) as (_ & _ & CK). unfold client_ok in CK. rewrite Forall_forall in CK. apply (CK (t' j)); auto. eapply nth_error_In; eauto.
  - intros MO. destruct (Nat.eq_dec j i) as [->|NE].
    + destruct s as [|s]; cbn in NS.
      * inversion NS; subst t'. auto.
      * destruct (NO (i_req (fst (t' i)))) as [_ X]; auto. unfold accepted. apply in_flat_map. exists (t' i). rewrite RJ. split; [|left; auto].
        unfold proj. apply in_map_iff. exists t'. split; auto. eapply nth_error_In; eauto.
    + apply NE. pose proof (sy_modify _ _ _ _ _ _ _ SY j _ _ J NT' RJ MO) as OW. apply (sy_excl _ _ _ _ _ _ _ SY (length ts1 + s)%nat); auto.
      unfold ts. rewrite app_length. cbn [length]. rewrite app_length. li.
Qed.

(** *** Results *)
Variable k : N.
Hypothesis GK : G k.
Hypothesis GA : ~ G (word_num a).
Hypothesis HK : k * 4 < 2 ^ p_abw p.

Theorem lock_read : forall ts1 t ts2 m rq rs i y j, clients p sz n s0 (ts1 ++ t :: ts2) ->
  mmem p n m0 no_reqs no_resps (ts1 ++ t :: ts2) m rq rs ->
  (forall i, (i < n)%nat -> lock_client p a G (proj i (ts1 ++ t :: ts2))) -> (i < n)%nat -> i_req_en (fst (t i)) = true ->
  nth_error (responses (proj i (ts1 ++ t :: ts2))) (length (accepted (proj i ts1))) = Some y ->
  cq_type (i_req (fst (t i))) = T_READ -> j < req_bytes p (i_req (fst (t i))) -> word_num (cq_addr (i_req (fst (t i))) + j) = k ->
  slice (cr_data y) (8 * j) (8 * j + 8) = trunc 8 (flat_mem p m0 (hist n ts1) (cq_addr (i_req (fst (t i))) + j)).
Proof.
  intros ts1 t ts2 m rq rs i y j C H LC I RE NY T J WK. pose proof (lock_synced _ _ _ _ k C H LC GK GA) as SY.
  exact (r2_read _ _ _ _ _ (dyn_resp p sz n W k HK s0 m0 _ _ ts1 t ts2 m rq rs i y H C SY I RE NY) T j J WK).
Qed.
Theorem lock_amo : forall ts1 t ts2 m rq rs i y, clients p sz n s0 (ts1 ++ t :: ts2) ->
  mmem p n m0 no_reqs no_resps (ts1 ++ t :: ts2) m rq rs ->
  (forall i, (i < n)%nat -> lock_client p a G (proj i (ts1 ++ t :: ts2))) -> (i < n)%nat -> i_req_en (fst (t i)) = true ->
  nth_error (responses (proj i (ts1 ++ t :: ts2))) (length (accepted (proj i ts1))) = Some y ->
  amo_word (i_req (fst (t i))) k -> cr_data y = rd_bytes (flat_mem p m0 (hist n ts1)) (cq_addr (i_req (fst (t i)))) 4.
Proof.
  intros ts1 t ts2 m rq rs i y C H LC I RE NY [T WK]. pose proof (lock_synced _ _ _ _ k C H LC GK GA) as SY.
  exact (r2_amo _ _ _ _ _ (dyn_resp p sz n W k HK s0 m0 _ _ ts1 t ts2 m rq rs i y H C SY I RE NY) T (eq_sym WK)).
Qed.
Theorem lock_mem : forall ts m rq rs x, clients p sz n s0 ts -> mmem p n m0 no_reqs no_resps ts m rq rs ->
  (forall i, (i < n)%nat -> lock_client p a G (proj i ts)) -> (forall i, (i < n)%nat -> holds a (proj i ts) = false) ->
  x < 2 ^ p_abw p -> word_num x = k -> trunc 8 (m x) = trunc 8 (flat_mem p m0 (hist n ts) x).
Proof.
  intros ts m rq rs x C H LC NH X WK. pose proof (lock_synced _ _ _ _ k C H LC GK GA) as SY.
  apply (dyn_mem p sz n W k HK s0 m0 _ _ ts m rq rs x H C SY); auto.
  intros i I. unfold mine. rewrite firstn_all. auto.
Qed.
Theorem lock_unchanged : forall ts1 t ts2 ts3 m rq rs i y j, clients p sz n s0 (ts1 ++ t :: ts2 ++ ts3) ->
  mmem p n m0 no_reqs no_resps (ts1 ++ t :: ts2 ++ ts3) m rq rs ->
  (forall i, (i < n)%nat -> lock_client p a G (proj i (ts1 ++ t :: ts2 ++ ts3))) -> (i < n)%nat -> i_req_en (fst (t i)) = true ->
  nth_error (responses (proj i (ts1 ++ t :: ts2 ++ ts3))) (length (accepted (proj i ts1))) = Some y ->
  cq_type (i_req (fst (t i))) = T_READ -> j < req_bytes p (i_req (fst (t i))) -> word_num (cq_addr (i_req (fst (t i))) + j) = k ->
  (forall r, In r (accepted (proj i ts2)) -> lock_op a r = false /\ ~ modifies p r k) ->
  slice (cr_data y) (8 * j) (8 * j + 8) = trunc 8 (flat_mem p m0 (hist n (ts1 ++ t :: ts2)) (cq_addr (i_req (fst (t i))) + j)).
Proof.
  intros ts1 t ts2 ts3 m rq rs i y j C H LC I RE NY T J WK NO.
  rewrite (lock_read _ _ _ _ _ _ _ _ _ C H LC I RE NY T J WK). symmetry.
  assert (TO : touches p (i_req (fst (t i))) k).
  { left. split; auto. rewrite <- WK. clear A4 AR. unfold word_num. split; apply N.div_le_mono; lia. }
  apply (lock_stable ts1 t ts2 ts3 m rq rs i k C H LC GK GA I RE TO); auto.
  - intros [(X & _) | (X & _)]; rewrite T in X; discriminate X.
  - assert (WF : wf_req p (i_req (fst (t i)))).
    { destruct (C i I) as (_ & _ & CK). unfold client_ok in CK. rewrite Forall_forall in CK. apply (CK (t i)); auto.
      unfold proj. apply in_map_iff. exists t. split; auto. apply in_or_app. right. left. auto. }
    assert (RW : rw_req (i_req (fst (t i))) = true) by (unfold rw_req; rewrite T; reflexivity).
    pose proof (req_in_range (pp i) (W i I) _ WF (rw_cases (pp i) _ WF RW)) as X. change (req_bytes (pp i)) with (req_bytes p) in X.
    change (p_abw (pp i)) with (p_abw p) in X. clear A4 AR HK. lia.
  - unfold mk. rewrite WK, N.eqb_refl. auto.
Qed.
End L.
