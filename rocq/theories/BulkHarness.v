(** The repository's multi-cache tests meet the hypotheses of C52; a checker for [driven]. *)
From Coq Require Import Arith NArith List Bool Lia Sorted.
From Verif Require Import Bits Params ParamsProofs Msg Rtl Mem Spec System Harness Traffic FlModel MultiSys MultiHarness Hide DynSpec Multicore
  BulkSpec BulkProofs BulkMore MultiData.
Import ListNotations.
Open Scope N_scope.

Lemma multi_tests_ok : Forall (fun t => wf_caches (mt_p t) (mt_z t) (mt_n t) /\ test_ok (mt_p t) (mt_n t) (map fst (mt_msgs t)) /\ txs_ok (mt_n t) (map fst (map fst (mt_msgs t))) /\
  (forall k, race_free (mt_p t) (mt_z t) (mt_n t) k (map fst (mt_msgs t))) /\
  expected (mt_p t) (mt_z t) (load_words multicache_mem) [] (map fst (mt_msgs t)) = map snd (mt_msgs t)) multi_tests.
Proof.
  repeat (apply Forall_cons || apply Forall_nil).
  all: cbn [mt_p mt_n mt_msgs rd_wr_2c amo_2c inv_fl_2c inv_fl_4c].
  all: split; [intros i I; destruct i as [|[|[|[|i]]]]; try (exfalso; lia); (constructor; [cbn; auto | exists 7; split; [reflexivity | lia] | cbn; auto | cbn; lia | exists 1; split; [lia | reflexivity] | reflexivity])|].
  all: split; [constructor; [repeat (apply Forall_cons || apply Forall_nil); (split; [cbn; lia | apply wf_reqb_ok; reflexivity])
                            |cbn [map fst]; repeat (apply SSorted_cons || apply SSorted_nil); repeat (apply Forall_cons || apply Forall_nil); cbn; lia]|].
  all: split; [split; [repeat (apply Forall_cons || apply Forall_nil); (split; [cbn; lia | reflexivity]) | reflexivity]|].
  all: split; [apply race_free_all_ok; vm_compute; reflexivity|].
  all: vm_compute; reflexivity.
Qed.
Lemma directed_pass : forall t s0 m0 ts gs m rq rs i, In t multi_tests ->
  let p := mt_p t in let z := mt_z t in let n := mt_n t in let M := map fst (mt_msgs t) in
  clients p z n s0 ts -> mmem p n m0 no_reqs no_resps ts m rq rs -> driven n M ts gs ->
  (forall a, a < 2 ^ 32 -> trunc 8 (m0 a) = trunc 8 (load_words multicache_mem a)) -> (i < n)%nat ->
  exists rest, for_cache i M (map snd (mt_msgs t)) = responses (proj i ts) ++ rest.
Proof.
  intros t s0 m0 ts gs m rq rs i IN p z n M CL MM DR AG I.
  pose proof multi_tests_ok as F. rewrite Forall_forall in F. destruct (F t IN) as (W & OK & TX & RF & EX).
  assert (AB : p_abw p = 32). { clear - IN. subst p. repeat (destruct IN as [<-|IN]; [reflexivity|]). destruct IN. }
  rewrite <- EX. rewrite <- (expected_ext (mt_p t) (mt_z t) (mt_n t) W m0 (load_words multicache_mem)).
  - exact (bulk_expected p z n W s0 m0 M ts m rq rs i OK (fun k _ => RF k) CL MM (driven_released p z n W s0 m0 M ts gs m rq rs CL MM DR TX) I).
  - fold p. rewrite AB. exact AG.
  - cbn [app]. apply (to_range _ _ _ OK).
Qed.

(** *** Checking [driven] on a run *)
Definition creq_eq_dec : forall a b : creq, {a = b} + {a <> b}.
Proof. decide equality; apply N.eq_dec. Defined.
Definition norm (n : nat) (s : mc_st) : mc_st := let l := map (mc_sent s) (seq 0 n) in mkMc (mc_curr s) (mc_infl s) (fun i => nth i l 0%nat).
Definition sends_ok (n : nat) (M : list msg) (s : mc_st) (t : cyc) (g : nat -> bool) : bool :=
  forallb (fun i => match mc_sends (map fst M) s (mc_sig n t g) i with
          | Some _ => i_req_en (fst (t i)) && match nth_error (of_cache i M) (mc_sent s i) with
                        | Some x => if creq_eq_dec (m_req x) (i_req (fst (t i))) then true else false | None => false end
          | None => negb (i_req_en (fst (t i))) end) (seq 0 n).
Fixpoint drivenb (n : nat) (M : list msg) (s : mc_st) (tgs : list (cyc * (nat -> bool))) : bool :=
  match tgs with
  | [] => true
  | (t, g) :: tgs => sends_ok n M s t g && drivenb n M (norm n (mc_step n (map fst M) s (mc_sig n t g))) tgs
  end.
Definition same_mc (n : nat) (a b : mc_st) : Prop := mc_curr a = mc_curr b /\ mc_infl a = mc_infl b /\ forall i, (i < n)%nat -> mc_sent a i = mc_sent b i.
Lemma norm_same : forall n s, same_mc n s (norm n s).
Proof.
  intros n s. repeat split. intros i I. unfold norm. cbn [mc_sent]. rewrite (nth_indep _ _ (mc_sent s 0%nat)) by (rewrite map_length, seq_length; auto).
  rewrite map_nth, seq_nth by auto. auto.
Qed.
Lemma sends_same : forall n T a b x i, same_mc n a b -> (i < n)%nat -> mc_sends T a x i = mc_sends T b x i.
Proof. intros n T a b x i (E1 & E2 & E3) I. unfold mc_sends. rewrite E1, (E3 i I). auto. Qed.
Lemma step_same : forall n T a b x, same_mc n a b -> same_mc n (mc_step n T a x) (mc_step n T b x).
Proof.
  intros n T a b x S. pose proof S as (E1 & E2 & E3). unfold mc_step. repeat split; cbn [mc_curr mc_infl mc_sent]; try (rewrite E1, E2; auto).
  intros i I. rewrite (sends_same n T a b x i S I), (E3 i I). auto.
Qed.
Lemma drivenb_ok0 : forall n M tgs a b, same_mc n a b -> drivenb n M b tgs = true ->
  forall l1 t g l2 i, tgs = l1 ++ (t, g) :: l2 -> (i < n)%nat ->
  let s := fold_left (mc_step n (map fst M)) (map (fun x => mc_sig n (fst x) (snd x)) l1) a in
    match mc_sends (map fst M) s (mc_sig n t g) i with
    | Some _ => i_req_en (fst (t i)) = true /\ option_map m_req (nth_error (of_cache i M) (mc_sent s i)) = Some (i_req (fst (t i)))
    | None => i_req_en (fst (t i)) = false
    end.
Proof.
  intros n M tgs. induction tgs as [|[t0 g0] tgs IH]; intros a b S H l1 t g l2 i E I; [destruct l1; discriminate E|].
  cbn [drivenb] in H. apply andb_prop in H. destruct H as [H1 H2]. destruct l1 as [|z l1]; cbn [app] in E.
  - injection E as <- <- <-. cbn [map fold_left]. cbv zeta. unfold sends_ok in H1. rewrite forallb_forall in H1. specialize (H1 i ltac:(apply in_seq; lia)).
    rewrite (sends_same n _ a b _ i S I). destruct S as (_ & _ & E3). rewrite (E3 i I). destruct (mc_sends _ _ _ _).
    + apply andb_prop in H1. destruct H1 as [A B]. split; auto. destruct (nth_error _ _) as [x|]; [|discriminate B]. cbn [option_map].
      destruct (creq_eq_dec _ _) as [->|]; [auto | discriminate B].
    + apply negb_true_iff. auto.
  - injection E as <- E. cbn [map fold_left fst snd]. eapply IH; [| exact H2 | exact E | exact I].
    pose proof (step_same n (map fst M) a b (mc_sig n t0 g0) S) as (P1 & P2 & P3).
    pose proof (norm_same n (mc_step n (map fst M) b (mc_sig n t0 g0))) as (Q1 & Q2 & Q3).
    repeat split; try congruence. intros j J. rewrite P3, Q3; auto.
Qed.
Lemma drivenb_ok : forall n M ts gs, length gs = length ts -> drivenb n M (norm n (mc_reset (map fst M))) (combine ts gs) = true -> driven n M ts gs.
Proof.
  intros n M ts gs L H. split; auto. intros ts1 t ts2 gs1 g gs2 E1 E2 LL i I.
  assert (CM : forall A B (l1 l1' : list A) (l2 l2' : list B), length l1 = length l2 -> combine (l1 ++ l1') (l2 ++ l2') = combine l1 l2 ++ combine l1' l2').
  { intros A B l1. induction l1 as [|x l1 IHl]; intros l1' [|y l2] l2' X; try discriminate X; auto. cbn [combine app]. f_equal. apply IHl. injection X. auto. }
  apply (drivenb_ok0 n M (combine ts gs) (mc_reset (map fst M)) _ (norm_same _ _) H (combine ts1 gs1) t g (combine ts2 gs2) i); auto.
  rewrite E1, E2, CM by auto. auto.
Qed.
