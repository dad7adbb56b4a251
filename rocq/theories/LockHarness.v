(** An executable check of the lock discipline, and runs of two caches. *)
From Coq Require Import Arith NArith List Bool Lia.
From Verif Require Import Bits Params Msg Rtl Mem Spec System Traffic Harness Hide MultiSys MultiHarness DynSpec DynProofs DynFacts DynMore LockSpec Lock.
Import ListNotations.
Open Scope N_scope.

Definition criticalb (a : N) (tr : trace) : bool :=
  existsb (fun e => match nth_error tr e with
    | Some y => holds a (firstn e tr) && (i_req_en (fst y) && (cq_type (i_req (fst y)) =? T_INV)) &&
        forallb (fun r => negb (lock_op a r)) (accepted (skipn (S e) tr))
    | None => false end) (seq 0 (length tr)).
Lemma criticalb_ok : forall a tr, criticalb a tr = true -> critical a tr.
Proof.
  intros a tr H. apply existsb_exists in H. destruct H as (e & _ & H). destruct (nth_error tr e) as [y|] eqn:NY; [|discriminate H].
  rewrite !andb_true_iff, N.eqb_eq in H. destruct H as ((H1 & H2 & H3) & H4).
  exists (firstn e tr), y, (skipn (S e) tr). split; [apply nth_split_at; auto|]. split; auto. split; auto. split; auto.
  intros r R. rewrite forallb_forall in H4. apply H4 in R. apply negb_true_iff in R. auto.
Qed.
(** one protected word [K] *)
Definition cyc_ok (p : params) (a K : N) (tr : trace) (t : nat) : bool :=
  match nth_error tr t with
  | Some x => let r := i_req (fst x) in let past := firstn t tr in
      if negb (i_req_en (fst x)) then true else
      ((negb (lock_op a r && (trunc 32 (cq_data r) =? 0)) || holds a past) &&
       (negb (touchesb p r K) || criticalb a past) &&
       (negb (lock_op a r && holds a past) ||
         let A := accepted past in let d := length (responses (past ++ [x])) in
         forallb (fun l => match nth_error A l with
           | Some q => (negb (touchesb p q K) || Nat.ltb l d) &&
               (negb (writesb p q K) || existsb (fun l' => Nat.ltb l l' && (Nat.ltb l' d &&
                  match nth_error A l' with Some f => cq_type f =? T_FLUSH | None => false end)) (seq 0 (length A)))
           | None => true end) (seq 0 (length A))))
  | None => true
  end.
Definition lockb (p : params) (a K : N) (tr : trace) : bool :=
  forallb (fun r => negb (modb p r (word_num a)) || (cq_type r =? T_AMO_SWAP) && ((trunc 32 (cq_data r) =? 0) || (trunc 32 (cq_data r) =? 1))) (accepted tr) &&
  forallb (cyc_ok p a K tr) (seq 0 (length tr)).
Lemma lockb_ok : forall p a K tr, lockb p a K tr = true -> lock_client p a (fun k => k = K) tr.
Proof.
  intros p a K tr H. apply andb_prop in H. destruct H as [H1 H2]. rewrite forallb_forall in H1, H2.
  assert (X : forall t1 x t2, tr = t1 ++ x :: t2 -> cyc_ok p a K tr (length t1) = true /\ nth_error tr (length t1) = Some x /\ firstn (length t1) tr = t1).
  { intros t1 x t2 ->. split; [apply H2; apply in_seq; rewrite app_length; cbn [length]; lia|].
    rewrite nth_error_app2, Nat.sub_diag, firstn_app, Nat.sub_diag, firstn_all by lia. cbn. rewrite app_nil_r. auto. }
  clear H2. constructor.
  - intros r R M. specialize (H1 r R). apply modb_ok in M. rewrite M in H1. cbn [negb orb] in H1.
    rewrite andb_true_iff, orb_true_iff, !N.eqb_eq in H1. auto.
  - intros t1 x t2 E RE LO O. destruct (X _ _ _ E) as (C & N1 & N2). unfold cyc_ok in C. rewrite N1, N2, RE, LO in C. cbv zeta in C.
    apply N.eqb_eq in O. rewrite O in C. cbn [negb orb andb] in C. apply andb_prop in C. destruct C as [C _]. apply andb_prop in C. apply C.
  - intros t1 x t2 k E RE -> TO. destruct (X _ _ _ E) as (C & N1 & N2). unfold cyc_ok in C. rewrite N1, N2, RE in C. cbv zeta in C.
    cbn [negb orb] in C. apply andb_prop in C. destruct C as [C _]. apply andb_prop in C. destruct C as [_ C]. apply touchesb_ok in TO. rewrite TO in C.
    apply criticalb_ok. auto.
  - intros t1 x t2 l r k E RE LO HO NR ->. destruct (X _ _ _ E) as (C & N1 & N2). unfold cyc_ok in C. rewrite N1, N2, RE, LO, HO in C. cbv zeta in C.
    cbn [negb orb andb] in C. apply andb_prop in C. destruct C as [_ C]. rewrite forallb_forall in C.
    assert (LL : (l < length (accepted t1))%nat) by (apply nth_error_Some; congruence).
    specialize (C l ltac:(apply in_seq; lia)). rewrite NR in C. apply andb_prop in C. destruct C as [C1 C2]. split.
    + intros TO. apply touchesb_ok in TO. rewrite TO in C1. apply Nat.ltb_lt. auto.
    + intros WW. apply writesb_ok in WW. rewrite WW in C2. cbn [negb orb] in C2. apply existsb_exists in C2. destruct C2 as (l' & _ & C2).
      rewrite !andb_true_iff, !Nat.ltb_lt in C2. destruct C2 as (L1 & L2 & NF). destruct (nth_error (accepted t1) l') as [f|] eqn:EF; [|discriminate NF].
      apply N.eqb_eq in NF. exists l', f. auto.
Qed.

Definition countsb (p : params) (a k : N) (inc : nat -> nat -> N) (ts : list cyc) (i : nat) : bool :=
  forallb (fun T => match nth_error ts T with
    | Some t => let w := i_req (fst (t i)) in
        if negb (i_req_en (fst (t i)) && modb p w k) then true else
        ((cq_type w =? T_WRITE) && ((cq_addr w =? 4 * k) && ((req_bytes p w =? 4) &&
         existsb (fun T0 => match nth_error ts T0 with
           | Some t0 => let r := i_req (fst (t0 i)) in
               i_req_en (fst (t0 i)) && ((cq_type r =? T_READ) && ((cq_addr r =? 4 * k) && ((req_bytes p r =? 4) &&
               (forallb (fun q => negb (lock_op a q) && negb (modb p q k)) (accepted (proj i (skipn (S T0) (firstn T ts)))) &&
                match nth_error (responses (proj i ts)) (length (accepted (proj i (firstn T0 ts)))) with
                | Some y => trunc 32 (cq_data w) =? trunc 32 (cr_data y + inc T i)
                | None => false end))))
           | None => false end) (seq 0 T))))
    | None => true end) (seq 0 (length ts)).
Lemma countsb_ok : forall p a k inc ts i, countsb p a k inc ts i = true -> counts_up p a k inc ts i.
Proof.
  intros p a k inc ts i H ts1 t ts2 E RE MO. unfold countsb in H. rewrite forallb_forall in H.
  assert (NT : nth_error ts (length ts1) = Some t) by (rewrite E, nth_error_app2, Nat.sub_diag by lia; auto).
  assert (FT : firstn (length ts1) ts = ts1) by (rewrite E, firstn_app, Nat.sub_diag, firstn_all; cbn; apply app_nil_r).
  specialize (H (length ts1)). rewrite NT in H. cbv zeta in H. apply modb_ok in MO. rewrite RE, MO in H. cbn [andb negb] in H.
  rewrite !andb_true_iff, !N.eqb_eq in H. destruct H as (H1 & H2 & H3 & H4).
  { apply in_seq. rewrite E, app_length. cbn [length]. lia. }
  cbv zeta. repeat (split; [solve [auto]|]). apply existsb_exists in H4. destruct H4 as (T0 & I0 & H4). apply in_seq in I0.
  destruct (nth_error ts T0) as [t0|] eqn:N0; [|discriminate H4].
  rewrite !andb_true_iff, !N.eqb_eq in H4. destruct H4 as (R1 & R2 & R3 & R4 & R5 & R6).
  assert (N1 : nth_error ts1 T0 = Some t0) by (rewrite <- N0, E, nth_error_app1; auto; lia).
  pose proof (nth_split_at _ _ _ _ N1) as SP. rewrite FT in R5.
  assert (F0 : firstn T0 ts = firstn T0 ts1) by (rewrite <- FT, firstn_firstn, Nat.min_l by lia; auto). rewrite F0 in R6.
  destruct (nth_error (responses (proj i ts)) _) as [y|] eqn:NY; [|discriminate R6]. apply N.eqb_eq in R6.
  exists (firstn T0 ts1), t0, (skipn (S T0) ts1), y. repeat (split; [solve [auto]|]). split; auto.
  intros q Q. rewrite forallb_forall in R5. apply R5 in Q. rewrite andb_true_iff, !negb_true_iff in Q. destruct Q as [Q1 Q2]. split; auto.
  intros X. apply modb_ok in X. congruence.
Qed.

(** A lock at 0xfff0, free at first, and a word at 0x10 that holds 41 and of whose line
    cache 1 has a copy.  Both caches acquire the lock, invalidate, read the word, write
    back one more, flush and release.  Cache 1's first two attempts fail. *)
Definition mem_k : mem := wr_bytes (wr_bytes mem_a 0xfff0 4 0) 0x10 4 41.
Definition sw (o v : N) : creq := mkCReq T_AMO_SWAP o 0xfff0 0 v.
Definition prog_k0 : list creq := [ sw 1 1; mkCReq T_INV 2 0 0 0; rd 3 0x10 0; wt 4 0x10 0 42; mkCReq T_FLUSH 5 0 0 0; sw 6 0 ].
Definition prog_k1 : list creq :=
  [ rd 1 0x14 0; sw 2 1; sw 3 1; sw 4 1; mkCReq T_INV 5 0 0 0; rd 6 0x10 0; wt 7 0x10 0 43; mkCReq T_FLUSH 8 0 0 0; sw 9 0 ].
(** one request every [k] cycles *)
Definition slow (c k : nat) : list choice := flat_map (fun _ => mkCh true true true true :: repeat (mkCh false true true true) (k - 1)) (seq 0 c).
Definition sched_k : list (choice * choice) := combine (slow 6 25 ++ slow 12 25) (slow 1 30 ++ slow 4 45 ++ slow 9 25).
Definition ts_k : list cyc := map two (fst (mdrive px z_m sm sm1 mem_k [] [] prog_k0 prog_k1 sched_k)).
Definition end_k : mem := snd (mdrive px z_m sm sm1 mem_k [] [] prog_k0 prog_k1 sched_k).
Lemma run_k : clients px z_m 2 st_m ts_k /\ exists rq rs, mmem px 2 mem_k no_reqs no_resps ts_k end_k rq rs.
Proof.
  apply (mdrive_racy px z_m sm sm1 mem_k prog_k0 prog_k1 sched_k); try apply mk_reset_ok; apply wf_all; vm_compute; reflexivity.
Qed.

(** The same without the FLUSH before the release: cache 0 is done before cache 1 starts. *)
Definition prog_f0 : list creq := [ sw 1 1; mkCReq T_INV 2 0 0 0; rd 3 0x10 0; wt 4 0x10 0 42; sw 5 0 ].
Definition prog_f1 : list creq := [ sw 2 1; mkCReq T_INV 5 0 0 0; rd 6 0x10 0 ].
Definition sched_f : list (choice * choice) := combine (slow 5 25 ++ slow 4 25) (repeat (mkCh false true true true) 150 ++ slow 3 25).
Definition ts_f : list cyc := map two (fst (mdrive px z_m sm sm1 mem_k [] [] prog_f0 prog_f1 sched_f)).
Definition end_f : mem := snd (mdrive px z_m sm sm1 mem_k [] [] prog_f0 prog_f1 sched_f).
Lemma run_f : clients px z_m 2 st_m ts_f /\ exists rq rs, mmem px 2 mem_k no_reqs no_resps ts_f end_f rq rs.
Proof.
  apply (mdrive_racy px z_m sm sm1 mem_k prog_f0 prog_f1 sched_f); try apply mk_reset_ok; apply wf_all; vm_compute; reflexivity.
Qed.
