(** C73: hits of a cache and of a bigger one; theorems about runs. *)
From Coq Require Import Arith NArith List Bool Lia.
From Verif Require Import Bits Params Msg Rtl Mem Spec System ParamsProofs Traffic MetaProofs PendProofs TrafProofs ExactSpec Exact Exact2 Hide MultiSys Proto LiveMulti MultiFacts
  Bigger BiggerSpec Bigger2 Bigger3 Bigger4.
Import ListNotations.
Open Scope N_scope.

Lemma remove_split : forall l (L : list N) x A C, x <> l -> remove N.eq_dec l L = A ++ x :: C -> exists A0 C0, L = A0 ++ x :: C0 /\ A = remove N.eq_dec l A0 /\ C = remove N.eq_dec l C0.
Proof.
  intros l L. induction L as [|y L IH]; intros x A C N E; cbn [remove] in E.
  - destruct A; discriminate.
  - destruct (N.eq_dec l y) as [->|NY].
    + destruct (IH x A C N E) as (A0 & C0 & -> & -> & ->). exists (y :: A0), C0. split; auto. cbn [remove]. destruct (N.eq_dec y y); [auto | contradiction].
    + destruct A as [|a A]; cbn [app] in E; inversion E; subst.
      * exists [], L. auto.
      * destruct (IH x A C N) as (A0 & C0 & -> & -> & ->); auto. exists (a :: A0), C0. split; auto. cbn [remove]. destruct (N.eq_dec l a); [contradiction | auto].
Qed.
Lemma remove_app : forall l (L M : list N), remove N.eq_dec l (L ++ M) = remove N.eq_dec l L ++ remove N.eq_dec l M.
Proof. intros l L M. induction L as [|y L IH]; auto. cbn [app remove]. destruct (N.eq_dec l y); auto. cbn [app]. rewrite IH. auto. Qed.
Lemma nodup_remove : forall l (L : list N), NoDup L -> NoDup (remove N.eq_dec l L).
Proof.
  intros l L H. induction H as [|y L NI H IH]; cbn [remove]; [constructor|]. destruct (N.eq_dec l y); auto. constructor; auto. intros I. apply in_remove in I. tauto.
Qed.
Lemma nodup_app_l : forall (A C : list N), NoDup (A ++ C) -> NoDup A.
Proof. intros A C. induction A as [|a A IH]; intros H; [constructor|]. inversion H; subst. constructor; auto. intros I. apply H2. apply in_or_app. auto. Qed.
Lemma nodup_firstn : forall n (L : list N), NoDup L -> NoDup (firstn n L).
Proof. intros n L H. apply (nodup_app_l _ (skipn n L)). rewrite firstn_skipn. auto. Qed.

Section H.
Variables p q : params.
Hypothesis Wp : wf_params p.
Hypothesis Wq : wf_params q.
Hypothesis B : bigger p q.

(** whatever is in the small cache is in the big one, behind no other lines than there *)
Record linc (L M : N -> list N) : Prop := mkLinc {
  li_nodup : forall i, NoDup (M i);
  li_set : forall i x, In x (M i) -> x mod nblocks q = i;
  li_in : forall x A C, L (x mod nblocks p) = A ++ x :: C -> exists A' C', M (x mod nblocks q) = A' ++ x :: C' /\ incl A' A }.

Lemma linc_in : forall L M x, linc L M -> In x (L (x mod nblocks p)) -> In x (M (x mod nblocks q)).
Proof. intros L M x H I. apply in_split in I. destruct I as (A & C & E). destruct (li_in _ _ H x A C E) as (A' & C' & -> & _). apply in_or_app. right. left. auto. Qed.
Lemma ways_pos : (1 <= N.to_nat (p_assoc p) <= N.to_nat (p_assoc q))%nat.
Proof. destruct B as (_ & _ & E & _). destruct (wf_assoc p Wp) as [A|A]; rewrite A in *; lia. Qed.

Lemma linc_rw : forall L M l, linc L M ->
  linc (fun j => if j =? l mod nblocks p then firstn (N.to_nat (p_assoc p)) (l :: remove N.eq_dec l (L (l mod nblocks p))) else L j)
       (fun j => if j =? l mod nblocks q then firstn (N.to_nat (p_assoc q)) (l :: remove N.eq_dec l (M (l mod nblocks q))) else M j).
Proof.
  intros L M l H. pose proof ways_pos as WP. set (k := N.to_nat (p_assoc p)) in *. set (k' := N.to_nat (p_assoc q)) in *. clearbody k k'. constructor.
  - intros i. destruct (N.eqb_spec i (l mod nblocks q)); [|apply (li_nodup _ _ H)]. apply nodup_firstn. constructor; [apply remove_In | apply nodup_remove, (li_nodup _ _ H)].
  - intros i x. destruct (N.eqb_spec i (l mod nblocks q)) as [->|]; [|apply (li_set _ _ H)]. intros I.
    assert (I2 : In x (l :: remove N.eq_dec l (M (l mod nblocks q)))) by (rewrite <- (firstn_skipn k'); apply in_or_app; auto).
    destruct I2 as [<-|I2]; auto. apply in_remove in I2. apply (li_set _ _ H). tauto.
  - intros x A C E. destruct (N.eq_dec x l) as [->|NE].
    + rewrite N.eqb_refl. destruct k' as [|k']; [lia|]. cbn [firstn]. exists [], (firstn k' (remove N.eq_dec l (M (l mod nblocks q)))). split; auto. intros a [].
    + destruct (N.eqb_spec (x mod nblocks p) (l mod nblocks p)) as [E0|E0].
      * assert (E1 : exists D, l :: remove N.eq_dec l (L (l mod nblocks p)) = A ++ x :: D).
        { exists (C ++ skipn k (l :: remove N.eq_dec l (L (l mod nblocks p)))). rewrite <- (firstn_skipn k (l :: remove N.eq_dec l (L (l mod nblocks p)))) at 1. rewrite E, <- app_assoc. auto. }
        destruct E1 as (D & E1). assert (LA : (length A < k)%nat).
        { apply (f_equal (@length _)) in E. rewrite app_length in E. pose proof (firstn_le_length k (l :: remove N.eq_dec l (L (l mod nblocks p)))). cbn [length] in E. lia. }
        destruct A as [|a A1]; cbn [app] in E1; inversion E1 as [[EA ED]]; [congruence|]. subst a.
        destruct (remove_split _ _ _ _ _ NE ED) as (A0 & C0 & EL & -> & _). rewrite <- E0 in EL.
        destruct (li_in _ _ H x A0 C0 EL) as (A' & C' & EM & IN).
        destruct (N.eqb_spec (x mod nblocks q) (l mod nblocks q)) as [E2|E2].
        -- rewrite <- E2, EM, remove_app. cbn [remove]. destruct (N.eq_dec l x); [congruence|].
           assert (IN' : incl (l :: remove N.eq_dec l A') (l :: remove N.eq_dec l A0)).
           { intros y [<-|Iy]; [left; auto|]. apply in_remove in Iy. right. apply in_in_remove; [tauto | apply IN; tauto]. }
           assert (LL : (length (l :: remove N.eq_dec l A') <= length (l :: remove N.eq_dec l A0))%nat).
           { apply NoDup_incl_length; auto. constructor; [apply remove_In|]. apply nodup_remove. apply (nodup_app_l _ (x :: C')). rewrite <- EM. apply (li_nodup _ _ H). }
           change (l :: remove N.eq_dec l A' ++ x :: remove N.eq_dec l C') with ((l :: remove N.eq_dec l A') ++ x :: remove N.eq_dec l C').
           rewrite firstn_app, firstn_all2 by lia. destruct (k' - length (l :: remove N.eq_dec l A'))%nat as [|m] eqn:EK; [lia|]. cbn [firstn].
           eexists _, _. split; [reflexivity | exact IN'].
        -- exists A', C'. split; auto. intros y Iy. right. apply in_in_remove; [|apply IN; auto]. intros ->.
           apply E2. symmetry. apply (li_set _ _ H). rewrite EM. apply in_or_app. auto.
      * destruct (li_in _ _ H x A C E) as (A' & C' & EM & IN). destruct (N.eqb_spec (x mod nblocks q) (l mod nblocks q)) as [E2|E2]; [|eauto].
        elim E0. apply (sub_sets p q Wp Wq B). auto.
Qed.
Lemma linc_amo : forall L M l, linc L M ->
  linc (fun j => if j =? l mod nblocks p then remove N.eq_dec l (L (l mod nblocks p)) else L j)
       (fun j => if j =? l mod nblocks q then remove N.eq_dec l (M (l mod nblocks q)) else M j).
Proof.
  intros L M l H. constructor.
  - intros i. destruct (i =? _); [apply nodup_remove|]; apply (li_nodup _ _ H).
  - intros i x. destruct (N.eqb_spec i (l mod nblocks q)) as [->|]; [|apply (li_set _ _ H)]. intros I. apply in_remove in I. apply (li_set _ _ H). tauto.
  - intros x A C E.
    assert (E1 : exists A0 C0, L (x mod nblocks p) = A0 ++ x :: C0 /\ x <> l /\ A = if x mod nblocks p =? l mod nblocks p then remove N.eq_dec l A0 else A0).
    { destruct (N.eqb_spec (x mod nblocks p) (l mod nblocks p)) as [E0|E0].
      - assert (NE : x <> l) by (intros ->; assert (I : In l (remove N.eq_dec l (L (l mod nblocks p)))) by (rewrite E; apply in_or_app; right; left; auto); apply in_remove in I; tauto).
        destruct (remove_split _ _ _ _ _ NE E) as (A0 & C0 & E1 & -> & _). rewrite E0. eauto.
      - exists A, C. split; auto. split; auto. intros ->. auto. }
    destruct E1 as (A0 & C0 & EL & NE & EA). destruct (li_in _ _ H x A0 C0 EL) as (A' & C' & EM & IN).
    destruct (N.eqb_spec (x mod nblocks q) (l mod nblocks q)) as [E2|E2].
    + pose proof (sub_sets p q Wp Wq B _ _ E2) as E0. rewrite E0, N.eqb_refl in EA. rewrite <- E2, EM, remove_app. cbn [remove]. destruct (N.eq_dec l x); [congruence|].
      eexists _, _. split; [reflexivity|]. rewrite EA. intros y Iy. apply in_remove in Iy. apply in_in_remove; [tauto | apply IN; tauto].
    + exists A', C'. split; auto. intros y Iy. rewrite EA. destruct (x mod nblocks p =? l mod nblocks p); [|apply IN; auto]. apply in_in_remove; [|apply IN; auto]. intros ->.
      apply E2. symmetry. apply (li_set _ _ H). rewrite EM. apply in_or_app. auto.
Qed.
Lemma linc_step : forall L M r, linc L M -> linc (fst (lru_step p L r)) (fst (lru_step q M r)) /\ snd (lru_step p L r) <= snd (lru_step q M r).
Proof.
  intros L M r H. unfold lru_step. cbv zeta. rewrite (line_same p q B). set (l := line_of p (cq_addr r)). destruct (rw_req r).
  - cbn [fst snd]. split; [apply linc_rw; auto|]. destruct (in_dec N.eq_dec l (L (l mod nblocks p))) as [I|I]; [|destruct (in_dec _ _ _); lia].
    apply (linc_in L M l H) in I. destruct (in_dec N.eq_dec l (M (l mod nblocks q))); [lia | contradiction].
  - destruct (is_amo (cq_type r)); [cbn [fst snd]; split; [apply linc_amo; auto | lia]|]. destruct (cq_type r =? T_INV); cbn [fst snd]; (split; [|lia]); auto.
    constructor; [intros; constructor | intros i x [] | intros x A C E; destruct A; discriminate].
Qed.
Lemma tests_le : forall R L M, linc L M -> Forall2 N.le (lru_tests p L R) (lru_tests q M R).
Proof. induction R as [|r R IH]; intros L M H; cbn [lru_tests]; [constructor|]. destruct (linc_step L M r H) as [H1 H2]. constructor; auto. Qed.
Lemma linc_empty : linc lru_empty lru_empty.
Proof. constructor; [intros; constructor | intros i x [] | intros x A C E; destruct A; discriminate]. Qed.
End H.

Lemma lru_addr : forall p R R' L, map addr_of R = map addr_of R' -> lru_tests p L R = lru_tests p L R'.
Proof.
  intros p R. induction R as [|r R IH]; intros [|r' R'] L E; try discriminate E; auto. cbn [map] in E. injection E as E1 E2 E3 E4. cbn [lru_tests].
  assert (S : lru_step p L r = lru_step p L r') by (unfold lru_step, rw_req; rewrite E1, E2; auto). rewrite S. f_equal. apply IH. auto.
Qed.
Lemma lru_firstn : forall p n R L, lru_tests p L (firstn n R) = firstn n (lru_tests p L R).
Proof. intros p n. induction n as [|n IH]; intros [|r R] L; auto. cbn [firstn lru_tests]. f_equal. apply IH. Qed.
Lemma nth_le : forall (A C : list N) j a c, Forall2 N.le A C -> nth_error A j = Some a -> nth_error C j = Some c -> a <= c.
Proof. intros A C j a c H. revert j. induction H as [|x y A C XY H IH]; intros [|j] E E'; try discriminate; cbn in *; [congruence | eauto]. Qed.

Section M.
Variables p q : params.
Hypothesis Wp : wf_params p.
Hypothesis Wq : wf_params q.
Hypothesis B : bigger p q.

Lemma test_at : forall p0, wf_params p0 -> forall s0 is j y, proto_run p0 s0 is -> nth_error (responses (trace_of p0 s0 is)) j = Some y ->
  nth_error (lru_tests p0 lru_empty (accepted (trace_of p0 s0 is))) j = Some (cr_test y).
Proof.
  intros p0 W0 s0 is j y P E. destruct (proto_tests p0 W0 s0 is P) as (rest & ->). rewrite nth_error_app1; [apply map_nth_error; auto|].
  rewrite map_length. apply nth_error_Some. congruence.
Qed.
Theorem bigger_hits : forall s0 is s0' is' j y y', proto_run p s0 is -> proto_run q s0' is' ->
  let tr := trace_of p s0 is in let tr' := trace_of q s0' is' in
  firstn (S j) (map addr_of (accepted tr)) = firstn (S j) (map addr_of (accepted tr')) ->
  nth_error (responses tr) j = Some y -> nth_error (responses tr') j = Some y' -> cr_test y <= cr_test y'.
Proof.
  intros s0 is s0' is' j y y' P P' tr tr' E Y Y'. apply (test_at p Wp _ _ _ _ P) in Y. apply (test_at q Wq _ _ _ _ P') in Y'. fold tr in Y. fold tr' in Y'.
  rewrite !firstn_map in E. apply (nth_le _ _ j _ _ (tests_le p q Wp Wq B (firstn (S j) (accepted tr)) _ _ (linc_empty p q))).
  - rewrite lru_firstn, <- Y. rewrite <- (firstn_skipn (S j) (lru_tests p lru_empty (accepted tr))) at 2. rewrite nth_error_app1; auto.
    rewrite firstn_length. assert (j < length (lru_tests p lru_empty (accepted tr)))%nat by (apply nth_error_Some; congruence). lia.
  - rewrite (lru_addr q _ _ _ E), lru_firstn, <- Y'. rewrite <- (firstn_skipn (S j) (lru_tests q lru_empty (accepted tr'))) at 2. rewrite nth_error_app1; auto.
    rewrite firstn_length. assert (j < length (lru_tests q lru_empty (accepted tr')))%nat by (apply nth_error_Some; congruence). lia.
Qed.

Lemma len_cnt : forall (f : shape -> bool) (g : mreq -> bool) tr, (forall x, f (shape_of x) = g x) -> length (filter g tr) = cnt f (map shape_of tr).
Proof. intros f g tr H. rewrite cnt_map. unfold cnt. f_equal. apply filter_ext. auto. Qed.
Lemma refills_cnt : forall p0 l tr, length (refills p0 l tr) = cnt (qR p0 l) (map shape_of (memreqs tr)).
Proof. intros. apply len_cnt. intros x. reflexivity. Qed.
Lemma writebacks_cnt : forall p0 l tr, length (writebacks p0 l tr) = cnt (qW p0 l) (map shape_of (memreqs tr)).
Proof. intros. apply len_cnt. intros x. reflexivity. Qed.
Lemma words_cnt : forall p0 l j tr, length (word_writebacks p0 l j tr) = cnt (qJ p0 l j) (map shape_of (memreqs tr)).
Proof.
  intros. unfold word_writebacks, writebacks. rewrite cnt_map. unfold cnt. f_equal. induction (memreqs tr) as [|x L IH]; auto. cbn [filter].
  assert (E : qJ p0 l j (shape_of x) = ((mq_type x =? T_WRITE) && (mq_addr x =? line_bytes p0 * l)) && N.testbit (mq_mask x) j).
  { unfold qJ, qW, isW, shape_of. cbn [sh_type sh_addr sh_mask]. destruct (mq_type x =? T_WRITE); auto. }
  rewrite E. destruct ((mq_type x =? T_WRITE) && (mq_addr x =? line_bytes p0 * l)); cbn [andb filter]; auto. rewrite IH. auto.
Qed.

Theorem bigger_traffic : forall s0 is s0' is', proto_run p s0 is -> proto_run q s0' is' ->
  let tr := trace_of p s0 is in let tr' := trace_of q s0' is' in
  map addr_of (accepted tr) = map addr_of (accepted tr') -> length (responses tr) = length (accepted tr) ->
  (forall l, length (refills p l tr') <= length (refills p l tr))%nat /\
  (forall l, length (writebacks p l tr') <= length (writebacks p l tr))%nat /\
  (forall l j, length (word_writebacks p l j tr') <= length (word_writebacks p l j tr))%nat /\
  (length (memreqs tr') <= length (memreqs tr))%nat.
Proof.
  intros s0 is s0' is' P P' tr tr' E L. pose proof (proto_exact_done p Wp s0 is P L) as D. fold tr in D.
  destruct (proto_exact_traffic q Wq s0' is' P') as [(rest & D') _]. fold tr' in D'. rewrite <- (predict_addr q _ _ E) in D'.
  assert (F : Forall (wf_req p) (accepted tr)).
  { destruct P as (_ & C & _). apply accepted_wf in C. exact C. }
  assert (F' : Forall (wf_req q) (accepted tr)).
  { destruct P' as (_ & C & _). apply accepted_wf in C. fold tr' in C. revert E C. generalize (accepted tr) (accepted tr'). clear. induction l as [|r R IH]; intros [|r' R'] E C; try discriminate E; constructor; cbn [map] in E; injection E; inversion C; subst; intros.
    - apply (wf_addr q r' r); auto. unfold addr_of. congruence.
    - eapply IH; eauto. }
  destruct (predict_le p q Wp Wq B (accepted tr) F F') as (H1 & H2 & H3 & H4 & _). rewrite D' in H1, H2, H3, H4. rewrite <- D in H1, H2, H3, H4.
  assert (CA : forall f : shape -> bool, (cnt f (map shape_of (memreqs tr')) <= cnt f (map shape_of (memreqs tr') ++ rest))%nat) by (intros; rewrite cnt_app; lia).
  repeat split.
  - intros l. rewrite !refills_cnt. eapply Nat.le_trans; [apply CA | apply H1].
  - intros l. rewrite !writebacks_cnt. eapply Nat.le_trans; [apply CA | apply H2].
  - intros l j. rewrite !words_cnt. eapply Nat.le_trans; [apply CA | apply H3].
  - rewrite app_length, !map_length in H4. lia.
Qed.
End M.

(** caches among others *)
Section U.
Variables (p q : params) (z z' : nat -> N * N) (n n' : nat).
Hypothesis W : wf_caches p z n.
Hypothesis W' : wf_caches q z' n'.
Theorem multi_bigger : forall s0 m0 ts m rq rs s0' m0' ts' m' rq' rs' i i',
  clients p z n s0 ts -> mmem p n m0 no_reqs no_resps ts m rq rs -> (i < n)%nat ->
  clients q z' n' s0' ts' -> mmem q n' m0' no_reqs no_resps ts' m' rq' rs' -> (i' < n')%nat ->
  bigger (sized p z i) (sized q z' i') ->
  (forall j y y', firstn (S j) (map addr_of (accepted (proj i ts))) = firstn (S j) (map addr_of (accepted (proj i' ts'))) ->
     nth_error (responses (proj i ts)) j = Some y -> nth_error (responses (proj i' ts')) j = Some y' -> cr_test y <= cr_test y') /\
  (map addr_of (accepted (proj i ts)) = map addr_of (accepted (proj i' ts')) -> length (responses (proj i ts)) = length (accepted (proj i ts)) ->
     (forall l, length (refills (sized p z i) l (proj i' ts')) <= length (refills (sized p z i) l (proj i ts)))%nat /\
     (forall l, length (writebacks (sized p z i) l (proj i' ts')) <= length (writebacks (sized p z i) l (proj i ts)))%nat /\
     (forall l j, length (word_writebacks (sized p z i) l j (proj i' ts')) <= length (word_writebacks (sized p z i) l j (proj i ts)))%nat /\
     (length (memreqs (proj i' ts')) <= length (memreqs (proj i ts)))%nat).
Proof.
  intros s0 m0 ts m rq rs s0' m0' ts' m' rq' rs' i i' C M I C' M' I' B.
  pose proof (multi_proto p z n s0 m0 _ _ _ _ i C M I) as P. pose proof (multi_proto q z' n' s0' m0' _ _ _ _ i' C' M' I') as P'.
  pose proof (eq_sym (proj1 (proj2 (C i I)))) as E. pose proof (eq_sym (proj1 (proj2 (C' i' I')))) as E'.
  split.
  - intros j y y'. pose proof (bigger_hits _ _ (W i I) (W' i' I') B _ _ _ _ j y y' P P') as H. cbv zeta in H. rewrite E, E' in H. exact H.
  - pose proof (bigger_traffic _ _ (W i I) (W' i' I') B _ _ _ _ P P') as H. cbv zeta in H. rewrite E, E' in H. exact H.
Qed.
End U.
