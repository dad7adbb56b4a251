(** A race-free test keeps the discipline of DynSpec.v in every run. *)
From Coq Require Import Arith NArith List Bool Lia Sorted.
From Verif Require Import Bits Params Msg Units Rtl Mem Spec System Tl ParamsProofs RefineInv RefineProofs
  UnitProofs ViewDefs ViewOps ViewProofs SysProofs SysFacts Traffic MetaProofs PendProofs TrafProofs
  Hide Proto MultiSys MultiProofs MultiFacts DynSpec DynProofs DynFacts DynMore BulkSpec.
Import ListNotations.
Open Scope N_scope.

(** *** Deciding ownership *)
Lemma absentb_iff : forall p k A, absentb p k A = true <-> absent p k A.
Proof.
  intros p k A. split; [apply absentb_ok|]. intros H. destruct (absentb p k A) eqn:E; auto. apply absentb_no in E. contradiction.
Qed.
Lemma cleansb_iff : forall p k A f, cleansb p k A f = true <-> cleans p k A f.
Proof.
  intros p k A f. split; [apply cleansb_ok|]. unfold cleans, cleansb. intros H.
  rewrite !orb_true_iff, !andb_true_iff, !negb_true_iff, !N.eqb_eq, N.eqb_neq.
  destruct H as [H | [H | (H1 & H2 & H3)]]; auto. right. split; auto. split; [|apply absentb_iff; auto].
  destruct (absentb p k A) eqn:E; auto. apply absentb_iff in E. contradiction.
Qed.
Fixpoint pendb (p : params) (k : N) (A l : list creq) (d : bool) : bool :=
  match l with
  | [] => d
  | r :: l => pendb p k (A ++ [r]) l (writesb p r k || d && negb (cleansb p k A r))
  end.
Lemma pendb_ok : forall p k l A d, pendb p k A l d = true <->
  (d = true /\ forall l3 f l4, l = l3 ++ f :: l4 -> ~ cleans p k (A ++ l3) f) \/
  (exists l1 w l2, l = l1 ++ w :: l2 /\ write_word p w k /\ forall l3 f l4, l2 = l3 ++ f :: l4 -> ~ cleans p k (A ++ l1 ++ w :: l3) f).
Proof.
  intros p k. induction l as [|r l IH]; intros A d; cbn [pendb].
  - split; [left; split; auto; intros [|? ?] f l4 X; discriminate X|].
    intros [[H _] | ([|? ?] & w & l2 & X & _)]; auto; discriminate X.
  - rewrite IH. clear IH.
    assert (AS : forall l3, (A ++ [r]) ++ l3 = A ++ r :: l3) by (intros; rewrite <- app_assoc; auto).
    split.
    + intros [[H1 H2] | (l1 & w & l2 & E & Wr & H2)].
      * apply orb_prop in H1. destruct H1 as [H1 | H1].
        -- right. exists [], r, l. split; auto. split; [apply writesb_ok; auto|]. intros l3 f l4 E. cbn [app]. rewrite <- AS. eauto.
        -- apply andb_prop in H1. destruct H1 as [H1 H3]. left. split; auto. intros [|a l3] f l4 E; cbn [app] in E; injection E as <- E.
           ++ rewrite app_nil_r. intros X. apply cleansb_iff in X. rewrite X in H3. discriminate H3.
           ++ rewrite <- AS. eauto.
      * right. exists (r :: l1), w, l2. subst l. split; auto. split; auto. intros l3 f l4 E. cbn [app]. rewrite <- AS. eauto.
    + intros [[H1 H2] | ([|a l1] & w & l2 & E & Wr & H2)].
      * left. split.
        -- rewrite H1. cbn [andb]. destruct (cleansb p k A r) eqn:E; [|apply orb_true_r]. exfalso. apply cleansb_iff in E.
           apply (H2 [] r l eq_refl). rewrite app_nil_r. auto.
        -- intros l3 f l4 E. rewrite AS. apply (H2 (r :: l3) f l4). cbn. congruence.
      * cbn [app] in E. injection E as <- <-. left. split; [apply writesb_ok in Wr; rewrite Wr; auto|].
        intros l3 f l4 E. rewrite AS. apply (H2 l3 f l4 E).
      * cbn [app] in E. injection E as <- E. right. exists l1, w, l2. split; auto. split; auto.
        intros l3 f l4 E3. rewrite AS. apply (H2 l3 f l4 E3).
Qed.
Lemma pendb_dirty : forall p k A, pendb p k [] A false = true <-> dirty_after p k A.
Proof.
  intros p k A. rewrite pendb_ok. unfold dirty_after. split.
  - intros [[X _] | H]; [discriminate X | auto].
  - auto.
Qed.
Definition ownsb (p : params) (k : N) (M : list msg) (o : N) (i : nat) : bool :=
  existsb (fun x => (m_ord x =? o) && modb p (m_req x) k) (of_cache i M) || pendb p k [] (upto M o i) false.
Lemma ownsb_ok : forall p k M o i, ownsb p k M o i = true <-> owns p k M o i.
Proof.
  intros p k M o i. unfold ownsb, owns. rewrite orb_true_iff, pendb_dirty, existsb_exists. apply or_iff_compat_r. split.
  - intros (x & I & X). exists x. rewrite andb_true_iff, N.eqb_eq, <- modb_ok in X. tauto.
  - intros (x & I & X & Y). exists x. rewrite andb_true_iff, N.eqb_eq, <- modb_ok. tauto.
Qed.
Definition freeb (p : params) (z : nat -> N * N) (n : nat) (k : N) (M : list msg) (o : N) (i : nat) : bool :=
  forallb (fun j => Nat.eqb j i || negb (ownsb (sized p z j) k M o j)) (seq 0 n).
Lemma freeb_ok : forall p z n k M o i, freeb p z n k M o i = true <-> free_for p z n k M o i.
Proof.
  intros p z n k M o i. unfold freeb, free_for. rewrite forallb_forall. split.
  - intros H j J NE O. specialize (H j ltac:(apply in_seq; lia)). apply ownsb_ok in O. rewrite O in H. apply Nat.eqb_neq in NE. rewrite NE in H. discriminate H.
  - intros H j J. apply in_seq in J. destruct (Nat.eqb_spec j i) as [|NE]; auto. cbn [orb].
    destruct (ownsb (sized p z j) k M o j) eqn:E; auto. apply ownsb_ok in E. exfalso. apply (H j); auto. lia.
Qed.

(** *** Lists *)
Lemma max_ge : forall l x, In x l -> x <= fold_right N.max 0 l.
Proof. induction l as [|y l IH]; intros x I; [destruct I|]. cbn [fold_right]. destruct I as [->|I]; [lia|]. specialize (IH x I). lia. Qed.
Lemma max_in : forall l, l <> [] -> In (fold_right N.max 0 l) l.
Proof.
  induction l as [|y l IH]; intros H; [congruence|]. cbn [fold_right]. destruct l as [|z l]; [left; cbn; lia|].
  specialize (IH ltac:(discriminate)). destruct (N.max_spec y (fold_right N.max 0 (z :: l))) as [[_ ->] | [_ ->]]; [right; auto | left; auto].
Qed.
Lemma firstn_filter : forall A (f : A -> bool) l a, (a <= length l)%nat ->
  (forall j x, nth_error l j = Some x -> ((j < a)%nat <-> f x = true)) -> firstn a l = filter f l.
Proof.
  induction l as [|x l IH]; intros a L H; [destruct a; auto|]. destruct a as [|a].
  - cbn [firstn]. assert (N : forall y, In y (x :: l) -> f y = false).
    { intros y Y. apply In_nth_error in Y. destruct Y as (j & Y). apply H in Y. destruct (f y); auto. destruct Y as [_ Y]. specialize (Y eq_refl). lia. }
    clear - N. induction (x :: l) as [|z m IH]; auto. cbn [filter]. rewrite (N z) by (left; auto). apply IH. intros; apply N. right; auto.
  - cbn [firstn filter]. assert (F : f x = true) by (apply (H 0%nat x); auto; lia). rewrite F. f_equal. apply IH.
    + cbn [length] in L. lia.
    + intros j y Y. specialize (H (S j) y Y). rewrite <- H. split; lia.
Qed.

Lemma nth_firstn : forall A (l : list A) a j, (j < a)%nat -> nth_error (firstn a l) j = nth_error l j.
Proof.
  induction l as [|x l IH]; intros a j L; [rewrite firstn_nil; auto|]. destruct a; [lia|]. destruct j; cbn; auto. apply IH. lia.
Qed.

Lemma proj_nth : forall i ts T x, nth_error (proj i ts) T = Some x -> exists t, nth_error ts T = Some t /\ x = t i.
Proof.
  intros i. induction ts as [|t ts IH]; intros T x E; [destruct T; discriminate E|]. destruct T as [|T]; cbn in *.
  - injection E as <-. eauto.
  - apply IH. auto.
Qed.

Section B.
Variable p : params.
Variable sz : nat -> N * N.
Variable n : nat.
Hypothesis W : wf_caches p sz n.
Notation pp := (sized p sz).
Variables (s0 : nat -> st) (m0 : mem) (M : list msg) (ts : list cyc).
Variables (m : mem) (rq : nat -> list mreq) (rs : nat -> list mresp).
Hypothesis TO : test_ok p n M.
Hypothesis RE : released n M ts.
Hypothesis CL : clients p sz n s0 ts.
Hypothesis MM : mmem p n m0 no_reqs no_resps ts m rq rs.

Definition acc (i T : nat) : nat := length (accepted (proj i (firstn T ts))).
Definition rsp (i T : nat) : nat := length (responses (proj i (firstn T ts))).

Lemma rsp_acc : forall i T, (i < n)%nat -> (rsp i T <= acc i T)%nat.
Proof.
  intros i T I. assert (E : ts = firstn T ts ++ skipn T ts) by (rewrite firstn_skipn; auto).
  destruct (mmem_split p n _ _ _ _ _ _ _ MM _ _ E) as (m1 & rq1 & rs1 & M1 & _).
  assert (C1 : clients p sz n s0 (firstn T ts)) by (apply (clients_app p sz n s0 _ (skipn T ts)); rewrite <- E; auto).
  destruct (proto_echo (pp i) (W i I) _ _ (multi_proto p sz n s0 m0 _ _ _ _ i C1 M1 I)) as (rest & X).
  destruct (C1 i I) as (_ & TR & _). rewrite <- TR in X. apply (f_equal (@length _)) in X.
  rewrite map_length, app_length, map_length in X. unfold rsp, acc. lia.
Qed.
Lemma firstn_S : forall T t, nth_error ts T = Some t -> firstn (S T) ts = firstn T ts ++ [t].
Proof.
  intros T t E. apply nth_error_split in E. destruct E as (a & b & -> & L). rewrite <- L.
  replace (a ++ t :: b) with ((a ++ [t]) ++ b) by (rewrite <- app_assoc; auto).
  replace (S (length a)) with (length (a ++ [t])) by (rewrite app_length; cbn; lia).
  rewrite firstn_app, Nat.sub_diag, firstn_all. cbn [firstn]. rewrite app_nil_r. f_equal.
  rewrite <- app_assoc, firstn_app, Nat.sub_diag, firstn_all. cbn [firstn]. rewrite app_nil_r. auto.
Qed.
Lemma acc_S : forall i T t, nth_error ts T = Some t -> acc i (S T) = (acc i T + (if i_req_en (fst (t i)) then 1 else 0))%nat.
Proof.
  intros i T t E. unfold acc. rewrite (firstn_S _ _ E), proj_app, accepted_app, app_length. cbn [proj map]. rewrite acc1.
  destruct (i_req_en (fst (t i))); auto.
Qed.
Lemma past_end : forall T, nth_error ts T = None -> firstn (S T) ts = firstn T ts.
Proof. intros T E. apply nth_error_None in E. rewrite !firstn_all2; auto. Qed.
Lemma acc_mono1 : forall i T, (acc i T <= acc i (S T))%nat.
Proof.
  intros i T. destruct (nth_error ts T) as [t|] eqn:E; [rewrite (acc_S _ _ _ E); lia|]. unfold acc. rewrite past_end; auto.
Qed.
Lemma acc_mono : forall i T T', (T <= T')%nat -> (acc i T <= acc i T')%nat.
Proof. intros i T T' L. induction L; auto. pose proof (acc_mono1 i m1). lia. Qed.
Lemma acc_cross : forall i T j, (j < acc i T)%nat -> exists T' t, (T' < T)%nat /\ nth_error ts T' = Some t /\
  i_req_en (fst (t i)) = true /\ acc i T' = j.
Proof.
  intros i. induction T as [|T IH]; intros j J; [cbn in J; lia|].
  destruct (Nat.lt_ge_cases j (acc i T)) as [L|L].
  - destruct (IH j L) as (T' & t & X & Y). exists T', t. split; auto.
  - destruct (nth_error ts T) as [t|] eqn:E.
    + rewrite (acc_S _ _ _ E) in J. exists T, t. destruct (i_req_en (fst (t i))) eqn:EN; [|lia]. repeat split; auto; lia.
    + unfold acc in J. rewrite past_end in J by auto. unfold acc in L. lia.
Qed.
Lemma acc_is : forall i T, (i < n)%nat -> accepted (proj i (firstn T ts)) = map m_req (firstn (acc i T) (of_cache i M)).
Proof.
  intros i T I. destruct (re_prog _ _ _ RE i I) as (rest & E). rewrite <- (firstn_skipn T ts), proj_app, accepted_app in E.
  rewrite <- firstn_map, E, <- app_assoc, firstn_app. unfold acc. rewrite Nat.sub_diag, firstn_all. cbn [firstn]. rewrite app_nil_r. auto.
Qed.
Lemma acc_len : forall i T, (i < n)%nat -> (acc i T <= length (of_cache i M))%nat.
Proof.
  intros i T I. pose proof (acc_is i T I) as E. apply (f_equal (@length _)) in E. rewrite map_length, firstn_length in E. unfold acc in *. lia.
Qed.
Lemma barrier : forall T t i x, nth_error ts T = Some t -> (i < n)%nat -> i_req_en (fst (t i)) = true ->
  nth_error (of_cache i M) (acc i T) = Some x ->
  forall i' j' x', (i' < n)%nat -> nth_error (of_cache i' M) j' = Some x' -> m_ord x' < m_ord x -> (j' < rsp i' T)%nat.
Proof.
  intros T t i x E I EN NX. apply nth_error_split in E. destruct E as (a & b & E & L).
  assert (F : firstn T ts = a) by (rewrite E, <- L, firstn_app, Nat.sub_diag, firstn_all; cbn [firstn]; apply app_nil_r).
  unfold rsp, acc in *. rewrite F in *. eapply (re_order _ _ _ RE); eauto.
Qed.
Lemma acc_next : forall T t i, nth_error ts T = Some t -> (i < n)%nat -> i_req_en (fst (t i)) = true ->
  exists x, nth_error (of_cache i M) (acc i T) = Some x /\ i_req (fst (t i)) = m_req x.
Proof.
  intros T t i E I EN. pose proof (acc_S i T t E) as A. rewrite EN in A. pose proof (acc_len i (S T) I) as L.
  destruct (nth_error (of_cache i M) (acc i T)) as [x|] eqn:NX.
  - exists x. split; auto. pose proof (acc_is i (S T) I) as Q. rewrite (firstn_S _ _ E), proj_app, accepted_app in Q. cbn [proj map] in Q.
    rewrite acc1, EN in Q. apply (f_equal (fun l => nth_error l (acc i T))) in Q. rewrite nth_error_app2 in Q by (unfold acc; lia).
    unfold acc at 1 in Q. rewrite Nat.sub_diag in Q. cbn [nth_error] in Q. rewrite nth_error_map in Q.
    assert (F : nth_error (firstn (acc i (S T)) (of_cache i M)) (acc i T) = Some x).
    { rewrite nth_firstn; auto. lia. }
    rewrite F in Q. cbn [option_map] in Q. congruence.
  - apply nth_error_None in NX. lia.
Qed.

(** *** Phases *)
Definition phase (T : nat) : N :=
  fold_right N.max 0 (flat_map (fun i => map m_ord (firstn (acc i T) (of_cache i M))) (seq 0 n)).
Lemma phase_ge : forall T i j x, (i < n)%nat -> nth_error (of_cache i M) j = Some x -> (j < acc i T)%nat -> m_ord x <= phase T.
Proof.
  intros T i j x I E J. apply max_ge. apply in_flat_map. exists i. split; [apply in_seq; lia|]. apply in_map.
  apply (nth_error_In _ j). rewrite nth_firstn; auto.
Qed.
Lemma phase_at : forall T, (phase T = 0 /\ forall i, (i < n)%nat -> acc i T = 0%nat) \/
  exists i j x, (i < n)%nat /\ (j < acc i T)%nat /\ nth_error (of_cache i M) j = Some x /\ m_ord x = phase T.
Proof.
  intros T. unfold phase. set (l := flat_map _ _). destruct l as [|y l'] eqn:E.
  - left. split; auto. intros i I. pose proof (acc_len i T I) as L. destruct (acc i T) eqn:A; auto. exfalso.
    destruct (of_cache i M) as [|x r] eqn:O; [cbn in L; lia|].
    assert (X : In (m_ord x) l). { unfold l. apply in_flat_map. exists i. split; [apply in_seq; lia|]. rewrite A, O. left; auto. }
    rewrite E in X. destruct X.
  - right. pose proof (max_in (y :: l') ltac:(discriminate)) as X. rewrite <- E in X at 2. unfold l in X. apply in_flat_map in X.
    destruct X as (i & I & X). apply in_seq in I. apply in_map_iff in X. destruct X as (x & EX & X). apply In_nth_error in X. destruct X as (j & X).
    assert (J : (j < acc i T)%nat).
    { assert (j < length (firstn (acc i T) (of_cache i M)))%nat by (apply nth_error_Some; congruence). rewrite firstn_length in *. lia. }
    rewrite nth_firstn in X by auto. exists i, j, x. repeat split; auto. lia.
Qed.
Lemma phase_mono : forall T T', (T <= T')%nat -> phase T <= phase T'.
Proof.
  intros T T' L. destruct (phase_at T) as [[-> _] | (i & j & x & I & J & E & <-)]; [lia|]. apply (phase_ge _ i j); auto.
  pose proof (acc_mono i _ _ L). lia.
Qed.
Lemma phase_now : forall T t i x, nth_error ts T = Some t -> (i < n)%nat -> i_req_en (fst (t i)) = true ->
  nth_error (of_cache i M) (acc i T) = Some x -> phase (S T) = m_ord x.
Proof.
  intros T t i x E I EN NX. pose proof (acc_S i T t E) as A. rewrite EN in A.
  assert (G : m_ord x <= phase (S T)) by (apply (phase_ge _ i (acc i T)); auto; lia).
  destruct (phase_at (S T)) as [[Z _] | (i' & j' & x' & I' & J' & E' & P')]; [lia|].
  destruct (N.eq_dec (m_ord x) (phase (S T))) as [|NE]; auto. exfalso.
  destruct (acc_cross _ _ _ J') as (T' & t' & L & Et & EN' & <-).
  pose proof (barrier T' t' i' x' Et I' EN' E' i (acc i T) x I NX ltac:(lia)) as B.
  pose proof (rsp_acc i T' I). pose proof (acc_mono i T' T ltac:(lia)). lia.
Qed.
Lemma phase_jump : forall T i j x, phase T < phase (S T) -> (i < n)%nat -> nth_error (of_cache i M) j = Some x ->
  m_ord x < phase (S T) -> (j < rsp i T)%nat.
Proof.
  intros T i j x P I E L. destruct (phase_at (S T)) as [[Z _] | (i' & j' & x' & I' & J' & E' & P')]; [lia|].
  destruct (Nat.lt_ge_cases j' (acc i' T)) as [LT|GE].
  - pose proof (phase_ge T i' j' x' I' E' LT). lia.
  - destruct (nth_error ts T) as [t|] eqn:Et.
    + pose proof (acc_S i' T t Et) as A. destruct (i_req_en (fst (t i'))) eqn:EN; [|lia]. assert (j' = acc i' T) by lia. subst j'.
      eapply (barrier T t i' x'); eauto. lia.
    + unfold acc in J', GE. rewrite past_end in J' by auto. lia.
Qed.
Lemma jump_upto : forall T i, phase T < phase (S T) -> (i < n)%nat ->
  accepted (proj i (firstn T ts)) = upto M (phase (S T)) i /\ rsp i T = acc i T.
Proof.
  intros T i P I. split.
  - rewrite acc_is by auto. unfold upto. f_equal. apply firstn_filter; [apply acc_len; auto|]. intros j x E. rewrite N.ltb_lt. split; intros H.
    + pose proof (phase_ge T i j x I E H). lia.
    + pose proof (phase_jump T i j x P I E H). pose proof (rsp_acc i T I). lia.
  - pose proof (rsp_acc i T I) as R. destruct (Nat.eq_dec (rsp i T) (acc i T)) as [|NE]; auto. exfalso.
    assert (L : (rsp i T < length (of_cache i M))%nat) by (pose proof (acc_len i T I); lia).
    apply nth_error_Some in L. destruct (nth_error (of_cache i M) (rsp i T)) as [x|] eqn:E; [|congruence].
    pose proof (phase_ge T i (rsp i T) x I E ltac:(lia)). pose proof (phase_jump T i _ x P I E ltac:(lia)). lia.
Qed.

(** *** The discipline *)
Definition own_b (k : N) (t i : nat) : bool := ownsb (pp i) k M (phase (S t)) i.
Definition may_b (k : N) (t i : nat) : bool := freeb p sz n k M (phase (S t)) i.
Lemma phase_in : forall T, phase T = 0 /\ (forall i, (i < n)%nat -> acc i T = 0%nat) \/ In (phase T) (map m_ord M).
Proof.
  intros T. destruct (phase_at T) as [H | (i & j & x & I & J & E & <-)]; auto. right. apply in_map. apply nth_error_In in E.
  unfold of_cache in E. apply filter_In in E. apply E.
Qed.
Lemma owns_in : forall k o i, owns (pp i) k M o i -> o = 0 -> In o (map m_ord M).
Proof.
  intros k o i [(x & X & <- & _) | (l1 & w & l2 & E & _)] Z.
  - apply in_map. unfold of_cache in X. apply filter_In in X. apply X.
  - exfalso. subst o. unfold upto in E.
    assert (F : forall l, filter (fun x => m_ord x <? 0) l = []).
    { induction l as [|x l IH]; auto. cbn [filter]. destruct (N.ltb_spec (m_ord x) 0); auto. lia. }
    rewrite F in E. destruct l1; discriminate E.
Qed.
Theorem bulk_synced : forall k, race_free p sz n k M -> synced p sz n k (may_b k) (own_b k) ts.
Proof.
  intros k RF. constructor.
  - intros t i _ I O. apply ownsb_ok in O. apply freeb_ok. apply (rf_excl _ _ _ _ _ RF); auto.
    destruct (phase_in (S t)) as [[Z _] | X]; auto. eapply owns_in; eauto.
  - intros t i j _ I J O F. apply ownsb_ok in O. apply freeb_ok in F. destruct (Nat.eq_dec i j) as [|NE]; auto. exfalso. apply (F i); auto.
  - intros i T x I NT EN TC. 
    assert (ET : exists t, nth_error ts T = Some t /\ x = t i) by (apply proj_nth; auto).
    destruct ET as (t & ET & ->).
    destruct (acc_next T t i ET I EN) as (x & NX & RX). rewrite RX in TC.
    pose proof (nth_error_split _ _ NX) as (A & B & EA & LA).
    destruct (rf_touch _ _ _ _ _ RF i A x B I EA TC) as (A1 & A2 & EA2 & AB & FR).
    assert (LA1 : (length A1 <= acc i T)%nat) by (rewrite <- LA, EA2, app_length; lia).
    assert (CR : (length A1 < acc i (S T))%nat) by (rewrite (acc_S _ _ _ ET), EN; lia).
    destruct (acc_cross _ _ _ CR) as (e & te & Le & Ete & ENe & Ae).
    assert (NXe : nth_error (of_cache i M) (acc i e) = Some (hd x A2)).
    { rewrite Ae, EA, EA2. rewrite <- app_assoc, nth_error_app2, Nat.sub_diag by lia. destruct A2; auto. }
    exists e. split; [lia|]. split.
    + intros t' T'. apply freeb_ok. apply FR.
      * destruct (phase_in (S t')) as [[_ Z] | X]; auto. exfalso. specialize (Z i I). pose proof (acc_S i e te Ete) as X. rewrite ENe in X.
        pose proof (acc_mono i (S e) (S t') ltac:(lia)). lia.
      * rewrite <- (phase_now e te i _ Ete I ENe NXe), <- (phase_now T t i x ET I EN NX). split; apply phase_mono; lia.
    + rewrite acc_is, Ae by auto. rewrite EA, EA2, <- app_assoc, firstn_app, Nat.sub_diag, firstn_all. cbn [firstn]. rewrite app_nil_r. auto.
  - intros i T x I NT EN TC.
    assert (ET : exists t, nth_error ts T = Some t /\ x = t i) by (apply proj_nth; auto).
    destruct ET as (t & ET & ->). destruct (acc_next T t i ET I EN) as (x & NX & RX). rewrite RX in TC.
    apply ownsb_ok. left. exists x. split; [eapply nth_error_In; eauto|]. split; auto. symmetry. eapply phase_now; eauto.
  - intros i T I L O1 O2 past. unfold own_b in *.
    assert (P : phase (S T) < phase (S (S T))).
    { pose proof (phase_mono (S T) (S (S T)) ltac:(lia)). destruct (N.eq_dec (phase (S T)) (phase (S (S T)))) as [E|]; [|lia]. rewrite E in O1. congruence. }
    destruct (jump_upto (S T) i P I) as [UP RA]. fold past in UP. unfold rsp, acc in RA. fold past in RA.
    rewrite RA. split.
    + intros l r E _. apply nth_error_Some. congruence.
    + intros l r E WR.
      assert (ND : ~ dirty_after (pp i) k (accepted past)).
      { intros D. rewrite UP in D. apply not_true_iff_false in O2. apply O2. apply ownsb_ok. right. auto. }
      pose proof (nth_error_split _ _ E) as (l1 & l2 & EA & EL).
      assert (DEC : forall l3 l4, l2 = l3 ++ l4 -> (exists a f b, l4 = a ++ f :: b /\ cleans (pp i) k (l1 ++ r :: l3 ++ a) f) \/
          forall a f b, l4 = a ++ f :: b -> ~ cleans (pp i) k (l1 ++ r :: l3 ++ a) f).
      { clear - p. intros l3 l4. revert l3. induction l4 as [|f l4 IH]; intros l3 EL.
        - right. intros [|? ?] f b X; discriminate X.
        - destruct (cleansb (pp i) k (l1 ++ r :: l3) f) eqn:C.
          + left. exists [], f, l4. split; auto. rewrite app_nil_r. apply cleansb_iff. auto.
          + destruct (IH (l3 ++ [f])) as [(a & g & b & X & Y) | X]; [subst; rewrite <- app_assoc; auto | |].
            * left. exists (f :: a), g, b. subst l4. split; auto. rewrite <- app_assoc in Y. auto.
            * right. intros [|f' a] g b Z; injection Z as <- Z.
              -- rewrite app_nil_r. intros Q. apply cleansb_iff in Q. congruence.
              -- specialize (X a g b Z). rewrite <- app_assoc in X. auto. }
      destruct (DEC [] l2 eq_refl) as [(a & f & b & X & Y) | X].
      * exists (length (l1 ++ r :: a)), f. cbn [app] in Y.
        assert (EQ : accepted past = (l1 ++ r :: a) ++ f :: b) by (rewrite EA, X, <- app_assoc; auto).
        split; [rewrite app_length; cbn; lia|]. split; [rewrite EQ, (app_length (l1 ++ r :: a) (f :: b)); cbn [length]; lia|]. split.
        -- rewrite EQ, nth_error_app2, Nat.sub_diag by lia. auto.
        -- rewrite EQ, firstn_app, Nat.sub_diag, firstn_all. cbn [firstn]. rewrite app_nil_r. auto.
      * exfalso. apply ND. exists l1, r, l2. split; auto.
  - intros i T I L O1 O2 past l r E _.
    assert (P : phase (S T) < phase (S (S T))).
    { unfold may_b in *. pose proof (phase_mono (S T) (S (S T)) ltac:(lia)). destruct (N.eq_dec (phase (S T)) (phase (S (S T)))) as [E1|]; [|lia]. rewrite E1 in O1. congruence. }
    destruct (jump_upto (S T) i P I) as [_ RA]. unfold rsp, acc in RA. fold past in RA. rewrite RA. apply nth_error_Some. congruence.
Qed.

(** *** The order of acceptance and the order of the list agree on every word *)
Notation tag := (nat * nat)%type.
Definition get (x : tag) : option msg := nth_error (of_cache (fst x) M) (snd x).
Definition treq (x : tag) : creq := match get x with Some y => m_req y | None => creq0 end.
Definition tord (x : tag) : N := match get x with Some y => m_ord y | None => 0 end.
Definition Rle (x y : tag) : Prop := tord x <= tord y /\ (fst x = fst y -> (snd x < snd y)%nat).
Definition ctags (T : nat) (js : list nat) : list tag :=
  match nth_error ts T with
  | Some t => flat_map (fun i => if i_req_en (fst (t i)) then [(i, acc i T)] else []) js
  | None => []
  end.
Definition rtags (T : nat) : list tag := flat_map (fun T' => ctags T' (seq 0 n)) (seq 0 T).

Lemma ctags_in : forall T js i j, In (i, j) (ctags T js) <->
  exists t, nth_error ts T = Some t /\ In i js /\ i_req_en (fst (t i)) = true /\ j = acc i T.
Proof.
  intros T js i j. unfold ctags. destruct (nth_error ts T) as [t|].
  - rewrite in_flat_map. split.
    + intros (x & X & Y). exists t. destruct (i_req_en (fst (t x))) eqn:E; [|destruct Y]. destruct Y as [Y | []]. injection Y as <- <-. auto.
    + intros (t' & E & I & EN & ->). injection E as <-. exists i. split; auto. rewrite EN. left; auto.
  - split; [intros [] | intros (t & X & _); discriminate X].
Qed.
Lemma rtags_S : forall T, rtags (S T) = rtags T ++ ctags T (seq 0 n).
Proof. intros T. unfold rtags. rewrite seq_S, flat_map_app. cbn. rewrite app_nil_r. auto. Qed.
Lemma rtags_in : forall T i j, In (i, j) (rtags T) <-> (i < n)%nat /\ (j < acc i T)%nat.
Proof.
  intros T i j. unfold rtags. rewrite in_flat_map. split.
  - intros (T' & ST & X). apply in_seq in ST. apply ctags_in in X. destruct X as (t & E & I & EN & ->). apply in_seq in I. split; [lia|].
    pose proof (acc_S i T' t E) as A. rewrite EN in A. pose proof (acc_mono i (S T') T ltac:(lia)). lia.
  - intros (I & J). destruct (acc_cross _ _ _ J) as (T' & t & L & E & EN & <-). exists T'. split; [apply in_seq; lia|].
    apply ctags_in. exists t. repeat split; auto. apply in_seq. lia.
Qed.
Lemma ctags_ord : forall T js i j, (forall i, In i js -> (i < n)%nat) -> In (i, j) (ctags T js) -> tord (i, j) = phase (S T).
Proof.
  intros T js i j H X. apply ctags_in in X. destruct X as (t & E & I & EN & ->). apply H in I.
  destruct (acc_next T t i E I EN) as (x & NX & _). unfold tord, get. cbn [fst snd]. rewrite NX. symmetry. eapply phase_now; eauto.
Qed.
Lemma rtags_ord : forall T i j, In (i, j) (rtags T) -> tord (i, j) <= phase T.
Proof.
  intros T i j X. apply rtags_in in X. destruct X as (I & J). pose proof (acc_len i T I) as L.
  assert (ST : (j < length (of_cache i M))%nat) by lia. apply nth_error_Some in ST. unfold tord, get. cbn [fst snd].
  destruct (nth_error (of_cache i M) j) as [x|] eqn:E; [|congruence]. eapply phase_ge; eauto.
Qed.
Lemma ctags_sorted : forall T a b, (a + b <= n)%nat -> StronglySorted Rle (ctags T (seq a b)).
Proof.
  intros T a b. revert a. induction b as [|b IH]; intros a L; unfold ctags in *; destruct (nth_error ts T) as [t|] eqn:E; try constructor.
  cbn [seq flat_map]. destruct (i_req_en (fst (t a))) eqn:EN; [|apply IH; lia]. cbn [app]. constructor; [apply IH; lia|].
  apply Forall_forall. intros [i j] X.
  assert (Y : In (i, j) (ctags T (seq (S a) b))) by (unfold ctags; rewrite E; auto). split.
  - rewrite (ctags_ord T [a] a (acc a T)), (ctags_ord T (seq (S a) b) i j); auto; try lia.
    + intros i0 I0. apply in_seq in I0. lia.
    + intros i0 [<- | []]. lia.
    + apply ctags_in. exists t. repeat split; auto. left; auto.
  - cbn [fst snd]. intros <-. apply ctags_in in Y. destruct Y as (_ & _ & I & _). apply in_seq in I. lia.
Qed.
Lemma SS_app : forall A (R : A -> A -> Prop) l1 l2, StronglySorted R l1 -> StronglySorted R l2 ->
  (forall x y, In x l1 -> In y l2 -> R x y) -> StronglySorted R (l1 ++ l2).
Proof.
  induction l1 as [|x l1 IH]; intros l2 S1 S2 H; auto. inversion S1; subst. cbn [app]. constructor.
  - apply IH; auto. intros; apply H; auto. right; auto.
  - apply Forall_app. split; auto. apply Forall_forall. intros y Y. apply H; auto. left; auto.
Qed.
Lemma rc_sorted : forall T a, (a <= n)%nat -> StronglySorted Rle (rtags T) -> StronglySorted Rle (rtags T ++ ctags T (seq 0 a)).
Proof.
  intros T a L S. apply SS_app; auto.
  - apply ctags_sorted. auto.
  - intros [i j] [i' j'] X Y. split.
    + rewrite (ctags_ord T (seq 0 a) i' j'); auto; [|intros i0 I0; apply in_seq in I0; lia].
      pose proof (rtags_ord _ _ _ X). pose proof (phase_mono T (Datatypes.S T) ltac:(lia)). lia.
    + cbn [fst snd]. intros <-. apply rtags_in in X. apply ctags_in in Y. destruct Y as (t & _ & _ & _ & ->). apply X.
Qed.
Lemma rtags_sorted : forall T, StronglySorted Rle (rtags T).
Proof.
  induction T as [|T IH]; [constructor|]. rewrite rtags_S. apply rc_sorted; auto.
Qed.
Lemma ctags_req : forall T t js, nth_error ts T = Some t -> (forall i, In i js -> (i < n)%nat) ->
  map treq (ctags T js) = flat_map (fun i => accepted [t i]) js.
Proof.
  intros T t js E H. unfold ctags. rewrite E. induction js as [|i js IH]; auto. cbn [flat_map].
  rewrite map_app.
  f_equal; [|apply IH; intros; apply H; right; auto]. rewrite acc1. destruct (i_req_en (fst (t i))) eqn:EN; auto.
  destruct (acc_next T t i E (H i (or_introl eq_refl)) EN) as (x & NX & RX). cbn [map]. unfold treq, get. cbn [fst snd]. rewrite NX, RX. auto.
Qed.
Lemma rtags_hist : forall T, (T <= length ts)%nat -> map treq (rtags T) = hist n (firstn T ts).
Proof.
  induction T as [|T IH]; intros L; auto. rewrite rtags_S, map_app, IH by lia.
  destruct (nth_error ts T) as [t|] eqn:E; [|apply nth_error_None in E; lia].
  rewrite (firstn_S _ _ E). unfold hist. rewrite flat_map_app. f_equal. cbn [flat_map]. rewrite app_nil_r. unfold cyc_reqs.
  apply ctags_req; auto. intros i I. apply in_seq in I. lia.
Qed.

Fixpoint stags (seen l : list msg) : list tag :=
  match l with
  | [] => []
  | x :: l => (m_cache x, length (of_cache (m_cache x) seen)) :: stags (seen ++ [x]) l
  end.
Lemma of_cache_app : forall i a b, of_cache i (a ++ b) = of_cache i a ++ of_cache i b.
Proof. intros. apply filter_app. Qed.
Lemma of_cache_cons : forall x l, of_cache (m_cache x) (x :: l) = x :: of_cache (m_cache x) l.
Proof. intros. unfold of_cache. cbn [filter]. rewrite Nat.eqb_refl. auto. Qed.
Lemma stags_in : forall l seen i j, In (i, j) (stags seen l) <->
  (length (of_cache i seen) <= j < length (of_cache i (seen ++ l)))%nat.
Proof.
  induction l as [|x l IH]; intros seen i j; cbn [stags In].
  - rewrite app_nil_r. split; [intros [] | lia].
  - rewrite IH, !of_cache_app, !app_length. destruct (Nat.eqb_spec (m_cache x) i) as [<-|NE].
    + rewrite (of_cache_cons x l), (of_cache_cons x []). cbn [length]. change (length (of_cache (m_cache x) [])) with 0%nat. split.
      * intros [X | X]; [injection X as <-|]; lia.
      * intros X. destruct (Nat.eq_dec j (length (of_cache (m_cache x) seen))) as [->|]; auto. right. lia.
    + assert (O : forall r, of_cache i (x :: r) = of_cache i r).
      { intros r. unfold of_cache. cbn [filter]. apply Nat.eqb_neq in NE. rewrite NE. auto. }
      rewrite !O. change (length (of_cache i [])) with 0%nat. split.
      * intros [X | X]; [injection X as X _; congruence | lia].
      * intros X. right. lia.
Qed.
Lemma stags_get : forall l seen rest, M = seen ++ l ++ rest -> map get (stags seen l) = map Some l.
Proof.
  induction l as [|x l IH]; intros seen rest E; cbn [stags map]; auto. f_equal.
  - unfold get. cbn [fst snd]. rewrite E, of_cache_app, nth_error_app2, Nat.sub_diag by lia. cbn [app]. rewrite of_cache_cons. auto.
  - apply (IH _ rest). rewrite E, <- app_assoc. auto.
Qed.
Lemma stags_req : forall l rest, M = l ++ rest -> map treq (stags [] l) = map m_req l.
Proof.
  intros l rest E. pose proof (stags_get l [] rest E) as G. revert G. generalize (stags [] l). clear. 
  induction l as [|x l IH]; intros [|t g] G; try discriminate G; auto. cbn [map] in *. injection G as G1 G2. f_equal; auto.
  unfold treq. rewrite G1. auto.
Qed.
Lemma SS_mid : forall A (R : A -> A -> Prop) a x b y, StronglySorted R (a ++ x :: b) -> In y b -> R x y.
Proof. induction a as [|z a IH]; intros x b y S I; inversion S; subst; cbn in *; eauto. rewrite Forall_forall in *. auto. Qed.
Lemma SS_bef : forall A (R : A -> A -> Prop) a x b y, StronglySorted R (a ++ x :: b) -> In y a -> R y x.
Proof.
  induction a as [|z a IH]; intros x b y S I; [destruct I|]. inversion S; subst. destruct I as [->|I]; [|eapply IH; eauto].
  rewrite Forall_forall in *. apply H2. apply in_or_app. right. left. auto.
Qed.
Lemma stags_sorted : forall l seen rest, M = seen ++ l ++ rest -> StronglySorted Rle (stags seen l).
Proof.
  induction l as [|x l IH]; intros seen rest E; cbn [stags]; constructor.
  - apply (IH _ rest). rewrite E, <- app_assoc. auto.
  - apply Forall_forall. intros [i j] X.
    assert (E' : M = (seen ++ [x]) ++ l ++ rest) by (rewrite E, <- app_assoc; auto). split.
    + pose proof (stags_get l _ _ E') as G.
      assert (Y : exists y, In y l /\ get (i, j) = Some y).
      { apply (in_map get) in X. rewrite G in X. apply in_map_iff in X. destruct X as (y & Y1 & Y2). eauto. }
      destruct Y as (y & Y & GY). unfold tord. rewrite GY. unfold get. cbn [fst snd].
      rewrite E, of_cache_app, nth_error_app2, Nat.sub_diag by lia. cbn [app]. rewrite of_cache_cons. cbn [nth_error].
      pose proof (to_sorted _ _ _ TO) as SS. rewrite E in SS. cbn [app] in SS. apply (SS_mid _ _ _ _ _ y SS). apply in_or_app. auto.
    + cbn [fst snd]. intros <-. apply stags_in in X. rewrite of_cache_app, app_length, of_cache_cons in X. cbn in X. lia.
Qed.
Lemma sorted_unique : forall A (R : A -> A -> Prop) l1 l2, (forall x y, R x y -> R y x -> False) ->
  StronglySorted R l1 -> StronglySorted R l2 -> (forall x, In x l1 <-> In x l2) -> l1 = l2.
Proof.
  intros A R l1. induction l1 as [|x l1 IH]; intros l2 AS S1 S2 H.
  - destruct l2 as [|y l2]; auto. exfalso. apply (H y). left; auto.
  - destruct l2 as [|y l2]; [exfalso; apply (H x); left; auto|]. inversion S1 as [|? ? S1' F1]; subst. inversion S2 as [|? ? S2' F2]; subst.
    rewrite Forall_forall in F1, F2.
    assert (x = y).
    { destruct (proj1 (H x) (or_introl eq_refl)) as [->|X]; auto. destruct (proj2 (H y) (or_introl eq_refl)) as [->|Y]; auto.
      exfalso. eapply AS; eauto. }
    subst y. f_equal. apply IH; auto. intros z. split; intros Z.
    + destruct (proj1 (H z) (or_intror Z)) as [<-|]; auto. exfalso. apply F1 in Z. eapply AS; eauto.
    + destruct (proj2 (H z) (or_intror Z)) as [<-|]; auto. exfalso. apply F2 in Z. eapply AS; eauto.
Qed.
Lemma SS_filter : forall A (R R' : A -> A -> Prop) f l, StronglySorted R l ->
  (forall x y, In x l -> In y l -> f x = true -> f y = true -> R x y -> R' x y) -> StronglySorted R' (filter f l).
Proof.
  intros A R R' f l S. induction S as [|x l S IH F]; intros H; cbn [filter]; [constructor|].
  assert (IH' : StronglySorted R' (filter f l)) by (apply IH; intros; apply H; auto; right; auto).
  destruct (f x) eqn:E; auto. constructor; auto. apply Forall_forall. intros y Y. apply filter_In in Y. destruct Y as [Y1 Y2].
  rewrite Forall_forall in F. apply H; auto; [left | right]; auto.
Qed.
Lemma filter_map : forall A B (f : B -> bool) (g : A -> B) l, filter f (map g l) = map g (filter (fun x => f (g x)) l).
Proof. induction l as [|x l IH]; auto. cbn [map filter]. destruct (f (g x)); cbn [map]; rewrite IH; auto. Qed.

Lemma of_cache_sorted : forall i, StronglySorted (fun x y => m_ord x <= m_ord y) (of_cache i M).
Proof. intros i. apply (SS_filter _ (fun x y => m_ord x <= m_ord y)); auto. apply (to_sorted _ _ _ TO). Qed.
Lemma of_cache_in : forall i x, In x (of_cache i M) -> In x M /\ m_cache x = i.
Proof. intros i x H. unfold of_cache in H. apply filter_In in H. destruct H as [H E]. apply Nat.eqb_eq in E. auto. Qed.

Lemma same_mods : forall k T t i x l1 l2, race_free p sz n k M -> nth_error ts T = Some t -> (i < n)%nat -> i_req_en (fst (t i)) = true ->
  nth_error (of_cache i M) (acc i T) = Some x -> touches p (m_req x) k -> M = l1 ++ x :: l2 -> length (of_cache i l1) = acc i T ->
  filter (fun r => modb p r k) (before n (firstn T ts) t i) = filter (fun r => modb p r k) (map m_req l1).
Proof.
  intros k T t i x l1 l2 RF ET I EN NX TC EM LC.
  assert (LT : (T < length ts)%nat) by (apply nth_error_Some; congruence).
  assert (XI : m_cache x = i) by (apply nth_error_In, of_cache_in in NX; apply NX).
  pose proof (phase_now T t i x ET I EN NX) as PH.
  unfold before. rewrite <- rtags_hist by lia. rewrite <- (ctags_req T t (seq 0 i)); auto.
  2:{ intros j J. apply in_seq in J. lia. }
  rewrite <- map_app. rewrite <- (stags_req l1 (x :: l2) EM).
  rewrite !filter_map. f_equal.
  assert (FR : free_for p sz n k M (m_ord x) i).
  { pose proof (nth_error_split _ _ NX) as (A & B & EA & LA).
    destruct (rf_touch _ _ _ _ _ RF i A x B I EA TC) as (A1 & A2 & EA2 & AB & FR). apply FR.
    - apply in_map. rewrite EM. apply in_or_app. right. left. auto.
    - split; [|lia]. destruct A2 as [|z A2]; cbn [hd]; [lia|]. pose proof (of_cache_sorted i) as SS. rewrite EA in SS.
      apply (SS_bef _ _ _ _ _ _ SS). subst A. apply in_or_app. right. left. auto. }
  set (f := fun y => modb p (treq y) k).
  assert (OWN : forall y, f y = true -> exists z, get y = Some z /\ In z (of_cache (fst y) M) /\ tord y = m_ord z /\ owns (pp (fst y)) k M (tord y) (fst y)).
  { intros y F. unfold f, treq in F. destruct (get y) as [z|] eqn:G; [|discriminate F]. exists z. split; auto.
    assert (Z : In z (of_cache (fst y) M)) by (eapply nth_error_In; apply G). split; auto.
    assert (TZ : tord y = m_ord z) by (unfold tord; rewrite G; auto). split; auto. left. exists z. split; auto. split; auto. apply modb_ok. auto. }
  assert (CN : forall z, In z M -> (m_cache z < n)%nat).
  { intros z Z. pose proof (to_range _ _ _ TO) as F. rewrite Forall_forall in F. apply F. auto. }
  assert (EXC : forall y z, f y = true -> f z = true -> tord y = tord z -> fst y = fst z).
  { intros y z Fy Fz E. destruct (OWN y Fy) as (y' & _ & Y1 & Y2 & Y3). destruct (OWN z Fz) as (z' & _ & Z1 & Z2 & Z3).
    apply of_cache_in in Y1, Z1. destruct Y1 as [Y1 Y4], Z1 as [Z1 Z4]. destruct (Nat.eq_dec (fst y) (fst z)) as [|NE]; auto. exfalso.
    assert (FR' : free_for p sz n k M (tord z) (fst z)).
    { apply (rf_excl _ _ _ _ _ RF); auto; [rewrite Z2; apply in_map; auto | rewrite <- Z4; auto]. }
    apply (FR' (fst y)); auto; [rewrite <- Y4; auto | rewrite <- E; auto]. }
  apply (sorted_unique _ (fun y z => tord y < tord z \/ fst y = fst z /\ (snd y < snd z)%nat /\ tord y <= tord z)).
  - intros y z [A|A] [B|B]; lia.
  - apply (SS_filter _ Rle); [apply rc_sorted; [lia | apply rtags_sorted]|]. intros y z _ _ Fy Fz [R1 R2].
    destruct (N.eq_dec (tord y) (tord z)) as [E|]; [|left; lia]. right. pose proof (EXC y z Fy Fz E). split; auto.
  - apply (SS_filter _ Rle); [apply (stags_sorted l1 [] (x :: l2)); auto|]. intros y z _ _ Fy Fz [R1 R2].
    destruct (N.eq_dec (tord y) (tord z)) as [E|]; [|left; lia]. right. pose proof (EXC y z Fy Fz E). split; auto.
  - assert (FRE : forall y, f y = true -> tord y = m_ord x -> fst y = i).
    { intros y Fy E. destruct (OWN y Fy) as (z & _ & Y1 & Y2 & Y3). apply of_cache_in in Y1. destruct Y1 as [Y1 Y4].
      destruct (Nat.eq_dec (fst y) i) as [|NE]; auto. exfalso. apply (FR (fst y)); auto; [rewrite <- Y4; auto | rewrite <- E; auto]. }
    assert (C : forall y, f y = true -> ((In y (rtags T ++ ctags T (seq 0 i)) <-> tord y < m_ord x \/ fst y = i /\ (snd y < acc i T)%nat) /\
       (In y (stags [] l1) <-> tord y < m_ord x \/ fst y = i /\ (snd y < acc i T)%nat))).
    { intros [i' j'] Fy. destruct (OWN _ Fy) as (z & G & Y1 & Y2 & Y3). unfold get in G. cbn [fst snd] in *.
      pose proof (of_cache_in _ _ Y1) as [ZM ZC].
      assert (I' : (i' < n)%nat) by (rewrite <- ZC; auto). split; split.
      - intros X. destruct (N.lt_trichotomy (tord (i', j')) (m_ord x)) as [L | [E | G1]]; auto; [right | exfalso].
        + pose proof (FRE _ Fy E) as EI. cbn [fst] in EI. rewrite EI in *. clear EI. split; auto. apply in_app_or in X. destruct X as [X|X].
          * apply rtags_in in X. apply X.
          * apply ctags_in in X. destruct X as (_ & _ & X & _). apply in_seq in X. lia.
        + apply in_app_or in X. destruct X as [X|X].
          * apply rtags_ord in X. pose proof (phase_mono T (S T) ltac:(lia)). lia.
          * apply (ctags_ord T (seq 0 i)) in X; [lia|]. intros i0 I0. apply in_seq in I0. lia.
      - intros X. apply in_or_app. left. apply rtags_in. split; auto. destruct X as [X | [-> X]]; auto.
        pose proof (barrier T t i x ET I EN NX i' j' z I' G ltac:(lia)). pose proof (rsp_acc i' T I'). lia.
      - intros X.
        assert (ZL : In z l1).
        { pose proof (stags_get l1 [] (x :: l2) EM) as GG. apply (in_map get) in X. rewrite GG in X. apply in_map_iff in X.
          destruct X as (z' & EZ & Z). unfold get in EZ. cbn [fst snd] in EZ. congruence. }
        pose proof (to_sorted _ _ _ TO) as SS. rewrite EM in SS. pose proof (SS_bef _ _ _ _ _ _ SS ZL) as LE. cbn beta in LE.
        destruct (N.eq_dec (tord (i', j')) (m_ord x)) as [E|]; [|left; lia]. right. pose proof (FRE _ Fy E) as EI. cbn [fst] in EI. rewrite EI in *. clear EI.
        split; auto. apply stags_in in X. cbn [app] in X. lia.
      - intros X. apply stags_in. cbn [app]. split; [apply Nat.le_0_l|]. destruct X as [X | [-> X]]; [|lia].
        destruct (Nat.lt_ge_cases j' (length (of_cache i' l1))) as [|GE]; auto. exfalso.
        rewrite EM, of_cache_app, nth_error_app2 in G by auto. apply nth_error_In in G. unfold of_cache in G. apply filter_In in G. destruct G as [G _].
        destruct G as [<- | G]; [lia|]. pose proof (to_sorted _ _ _ TO) as SS. rewrite EM in SS. pose proof (SS_mid _ _ _ _ _ _ SS G) as LE. cbn beta in LE. lia. }
    intros y. rewrite !filter_In. split; intros [A B]; (split; [|exact B]); destruct (C y B) as [C1 C2].
    + apply C2, C1, A.
    + apply C1, C2, A.
Qed.
End B.
