(** C75: the test memory with several ports and plain messages; test/MemoryCL_test.py is right
    under every schedule. *)
From Coq Require Import Arith NArith List Bool Lia.
From Verif Require Import Bits Params Msg Mem MultiSys MemTestSpec MemTest.
Import ListNotations.
Open Scope N_scope.

(** C75.  Ports whose requests use different bytes do not notice each other: the responses
    delivered on a port are, in order, those of a private memory with the same initial contents that
    executes only this port's requests, for every schedule, any number of ports and any contents. *)
Theorem C75_ports : forall dw (Z : nat -> N -> Prop) m0 h m rq rs i, (forall i j a, i <> j -> Z i a -> Z j a -> False) ->
  pmem dw m0 h m rq rs -> (forall j, Forall (within dw (Z j)) (arrived j h)) ->
  exists rest, plain_run dw m0 (arrived i h) = delivered i h ++ rest.
Proof. exact (fun dw Z m0 h m rq rs i A => ports_private dw Z A m0 h m rq rs i). Qed.
Print Assumptions C75_ports.
(** When all is answered, memory holds at the port's bytes what the private memory would. *)
Theorem C75_ports_memory : forall dw (Z : nat -> N -> Prop) m0 h m rq rs i a, (forall i j a, i <> j -> Z i a -> Z j a -> False) ->
  pmem dw m0 h m rq rs -> (forall j, Forall (within dw (Z j)) (arrived j h)) ->
  length (delivered i h) = length (arrived i h) -> Z i a -> m a = plain_end dw m0 (arrived i h) a.
Proof. exact (fun dw Z m0 h m rq rs i a A => ports_memory dw Z A m0 h m rq rs i a). Qed.
Print Assumptions C75_ports_memory.

(** The tests of MemoryCL_test.py: [n] ports, each running any of the test cases from its own base
    address, bases at least 80 bytes apart.  At any moment of any schedule every port has delivered
    what the test expects of it so far. *)
Theorem C75_tests : forall n base msgs m0 h m rq rs i,
  (forall j, (j < n)%nat -> test_msgs (base j) (msgs j)) ->
  (forall j k, (j < n)%nat -> (k < n)%nat -> j <> k -> base j + 80 <= base k \/ base k + 80 <= base j) ->
  pmem 32 m0 h m rq rs ->
  (forall j, if Nat.ltb j n then exists rest, map fst (msgs j) = arrived j h ++ rest else arrived j h = []) ->
  (i < n)%nat -> exists rest, map snd (msgs i) = delivered i h ++ rest.
Proof. exact mem_tests. Qed.
Print Assumptions C75_tests.

(** test_read_write_mem: words put into memory by write_mem are what READs return, and
    read_mem finds them afterwards. *)
Theorem C75_read_write_mem : forall b data m0 h m rq rs, Forall (fun v => v < 2 ^ 32) data ->
  pmem 32 (write_mem m0 b (pack data)) h m rq rs ->
  (exists rest, map fst (check_msgs b data) = arrived 0 h ++ rest) -> (forall j, j <> 0%nat -> arrived j h = []) ->
  (exists rest, map snd (check_msgs b data) = delivered 0 h ++ rest) /\
  (length (delivered 0 h) = length data -> read_mem m b (length (pack data)) = pack data).
Proof. exact rw_test. Qed.
Print Assumptions C75_read_write_mem.

(** Executable histories *)
Inductive cmd := CA (i : nat) (q : mreq) | CE (i : nat) | CD (i : nat).
Fixpoint sim (m : mem) (rq : nat -> list mreq) (rs : nat -> list mresp) (cs : list cmd) : list pev :=
  match cs with
  | [] => []
  | CA i q :: cs => Arrive i q :: sim m (setq rq i (rq i ++ [q])) rs cs
  | CE i :: cs => match rq i with [] => sim m rq rs cs | q :: l =>
      Execute i :: sim (fst (plain_exec 32 m q)) (setq rq i l) (setq rs i (rs i ++ [snd (plain_exec 32 m q)])) cs end
  | CD i :: cs => match rs i with [] => sim m rq rs cs | y :: l => Deliver i y :: sim m rq (setq rs i l) cs end
  end.
Lemma sim_ok : forall m0 cs h m rq rs, pmem 32 m0 h m rq rs -> exists m' rq' rs', pmem 32 m0 (h ++ sim m rq rs cs) m' rq' rs'.
Proof.
  intros m0. induction cs as [|[i q|i|i] cs IH]; intros h m rq rs H; cbn [sim].
  - rewrite app_nil_r. eauto.
  - change (Arrive i q :: ?l) with ([Arrive i q] ++ l). rewrite app_assoc. apply IH. constructor. auto.
  - destruct (rq i) as [|q l] eqn:E; [auto|]. change (Execute i :: ?l) with ([Execute i] ++ l). rewrite app_assoc. apply IH. econstructor; eauto.
  - destruct (rs i) as [|y l] eqn:E; [auto|]. change (Deliver i y :: ?l) with ([Deliver i y] ++ l). rewrite app_assoc. apply IH. constructor; auto.
Qed.
(** Both ports' requests arrive alternately, the second port's are executed two steps late. *)
Definition both (l1 l2 : list msg) : list cmd :=
  flat_map (fun x => [CA 0 (fst (fst x)); CA 1 (fst (snd x)); CE 0; CD 0]) (combine l1 l2) ++ flat_map (fun _ => [CE 1; CD 1]) l2.
Definition junk_x : mem := fun a => 17 * a + 3.
Definition hist_x (l1 l2 : list msg) : list pev := sim junk_x no_reqs no_resps (both l1 l2).
(** Two ports, as test_2port has it, with the AMO test on both. *)
Example C75_example : let h := hist_x (amo_msgs 0x1000) (amo_msgs 0x2000) in
  (exists m rq rs, pmem 32 junk_x h m rq rs) /\
  arrived 0 h = map fst (amo_msgs 0x1000) /\ arrived 1 h = map fst (amo_msgs 0x2000) /\
  delivered 0 h = map snd (amo_msgs 0x1000) /\ delivered 1 h = map snd (amo_msgs 0x2000) /\
  test_msgs 0x1000 (amo_msgs 0x1000) /\ test_msgs 0x2000 (amo_msgs 0x2000).
Proof.
  intros h. split. { apply (sim_ok junk_x _ [] junk_x no_reqs no_resps). constructor. }
  repeat (split; [vm_compute; reflexivity|]). split; constructor.
Qed.
(** The bases of test_20port, for any number of ports *)
Example C75_bases : forall j k : nat, j <> k -> 0x1000 * N.of_nat j + 80 <= 0x1000 * N.of_nat k \/ 0x1000 * N.of_nat k + 80 <= 0x1000 * N.of_nat j.
Proof. intros j k N. lia. Qed.

(** With the same base address for both ports the expected responses are not always right. *)
Theorem C75_same_base_refuted : exists b msgs m0 h m rq rs, (forall j, test_msgs b (msgs j)) /\ pmem 32 m0 h m rq rs /\
  (forall j, (j < 2)%nat -> arrived j h = map fst (msgs j)) /\ (forall j, (2 <= j)%nat -> arrived j h = []) /\
  length (delivered 1 h) = length (msgs 1%nat) /\ delivered 1 h <> map snd (msgs 1%nat).
Proof.
  set (l0 := basic_msgs 0x1000). set (l1 := subword_wr_msgs 0x1000).
  set (cs := map (fun x => CA 0 (fst x)) l0 ++ map (fun x => CA 1 (fst x)) l1 ++ repeat (CE 1) 4 ++ repeat (CE 1) 3 ++ [CE 0] ++ repeat (CE 1) 5 ++ [CE 0] ++ repeat (CD 1) 12).
  destruct (sim_ok junk_x cs [] junk_x no_reqs no_resps (pm_start 32 junk_x)) as (m & rq & rs & H).
  exists 0x1000, (fun j => match j with O => l0 | _ => l1 end), junk_x, ([] ++ sim junk_x no_reqs no_resps cs), m, rq, rs.
  split. { intros [|j]; constructor. } split; [exact H|].
  split. { intros [|[|j]] J; [vm_compute; reflexivity.. | lia]. }
  split. { intros [|[|j]] J; [lia | lia|]. vm_compute. reflexivity. }
  split; [vm_compute; reflexivity|]. vm_compute. discriminate.
Qed.
Print Assumptions C75_same_base_refuted.
