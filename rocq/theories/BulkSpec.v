(** Tests for several caches: a list of messages with cache numbers and orders, and
    when such a list is free of races.  Specification vocabulary only. *)
From Coq Require Import Arith NArith List Bool Sorted.
From Verif Require Import Bits Params Msg Rtl Mem Spec System Traffic MultiSys DynSpec Multicore.
Import ListNotations.
Open Scope N_scope.

(** A message of a multi-cache test: cache number, order, request (test/sim_utils.py
    mreq; MulticoreModel.py 38-43). *)
Definition msg := (nat * N * creq)%type.
Definition m_cache (x : msg) : nat := fst (fst x).
Definition m_ord (x : msg) : N := snd (fst x).
Definition m_req (x : msg) : creq := snd x.
(** What goes to cache [i] (MulticoreModel.py 41-43). *)
Definition of_cache (i : nat) (M : list msg) : list msg := filter (fun x => Nat.eqb (m_cache x) i) M.

(** The caches are sent these messages: each its own, in the order of the list; and a message goes out
    only after every message of smaller order has been answered (what MulticoreModel guarantees: C40). *)
Record released (n : nat) (M : list msg) (ts : list cyc) : Prop := {
  re_prog : forall i, (i < n)%nat -> exists rest, map m_req (of_cache i M) = accepted (proj i ts) ++ rest;
  re_order : forall ts1 t ts2 i x, ts = ts1 ++ t :: ts2 -> (i < n)%nat -> i_req_en (fst (t i)) = true ->
    nth_error (of_cache i M) (length (accepted (proj i ts1))) = Some x ->
    forall i' j' x', (i' < n)%nat -> nth_error (of_cache i' M) j' = Some x' -> m_ord x' < m_ord x ->
    (j' < length (responses (proj i' ts1)))%nat
}.

(** The requests of cache [i] of order less than [o]. *)
Definition upto (M : list msg) (o : N) (i : nat) : list creq :=
  map m_req (filter (fun x => m_ord x <? o) (of_cache i M)).
(** After the requests [A], a write to word [k] has not been followed by a request
    that makes the cache write the line back. *)
Definition dirty_after (p : params) (k : N) (A : list creq) : Prop :=
  exists l1 w l2, A = l1 ++ w :: l2 /\ write_word p w k /\
    forall l3 f l4, l2 = l3 ++ f :: l4 -> ~ cleans p k (l1 ++ w :: l3) f.
(** Among the messages of order [o], cache [i] (with parameters [p]) modifies word [k], or it still
    has modifications of messages of smaller order that it has not written back. *)
Definition owns (p : params) (k : N) (M : list msg) (o : N) (i : nat) : Prop :=
  (exists x, In x (of_cache i M) /\ m_ord x = o /\ modifies p (m_req x) k) \/ dirty_after p k (upto M o i).
Definition free_for (p : params) (z : nat -> N * N) (n : nat) (k : N) (M : list msg) (o : N) (i : nat) : Prop :=
  forall j, (j < n)%nat -> j <> i -> ~ owns (sized p z j) k M o j.

(** No races on word [k].  At most one cache owns it in each order.  When cache
    [i] touches it, no other cache owns it in this order, and none has owned
    it since (in the program of cache [i]) the line was absent from cache [i]. *)
Record race_free (p : params) (z : nat -> N * N) (n : nat) (k : N) (M : list msg) : Prop := {
  rf_excl : forall o i, In o (map m_ord M) -> (i < n)%nat -> owns (sized p z i) k M o i -> free_for p z n k M o i;
  rf_touch : forall i A x B, (i < n)%nat -> of_cache i M = A ++ x :: B -> touches p (m_req x) k ->
    exists A1 A2, A = A1 ++ A2 /\ absent (sized p z i) k (map m_req A1) /\
      forall o, In o (map m_ord M) -> m_ord (hd x A2) <= o <= m_ord x -> free_for p z n k M o i
}.
(** A well-formed test for [n] caches: listed by order. *)
Record test_ok (p : params) (n : nat) (M : list msg) : Prop := {
  to_range : Forall (fun x => (m_cache x < n)%nat /\ wf_req p (m_req x)) M;
  to_sorted : StronglySorted (fun x y => m_ord x <= m_ord y) M
}.
(** The response of a cache that had accepted the requests [A] to its next request [r], over memory
    contents [m]: type, opaque and length of the request, the hit flag of the
    least-recently-used rule, and the data of memory. *)
Definition answer_to (p : params) (m : mem) (A : list creq) (r : creq) : cresp :=
  mkCResp (cq_type r) (cq_opq r) (snd (lru_step p (lru_run p lru_empty A) r)) (cq_len r) (snd (flat_exec p m r)).

(** The signals MulticoreModel sees of the caches in a cycle [t]; [g i]: the
    delay of source [i] has run out.  ProcModel passes them through (ProcModel.py 26-31;
    what it does to the response ready is covered because the response
    readies of a run are arbitrary, C35). *)
Definition mc_sig (n : nat) (t : cyc) (g : nat -> bool) : mc_in :=
  mkMi (fun i => o_req_rdy (snd (t i))) g
       (fun i => Nat.ltb i n && match o_resp (snd (t i)) with Some _ => true | None => false end).
Definition mc_sigs (n : nat) (ts : list cyc) (gs : list (nat -> bool)) : list mc_in :=
  map (fun x => mc_sig n (fst x) (snd x)) (combine ts gs).
(** In the run [ts] the request ports are driven by MulticoreModel with the
    messages [M] (test/MulticoreModel.py; source delays [gs]). *)
Definition driven (n : nat) (M : list msg) (ts : list cyc) (gs : list (nat -> bool)) : Prop :=
  length gs = length ts /\
  forall ts1 t ts2 gs1 g gs2, ts = ts1 ++ t :: ts2 -> gs = gs1 ++ g :: gs2 -> (length gs1 = length ts1)%nat ->
  forall i, (i < n)%nat ->
    let s := mc_run n (map fst M) (mc_sigs n ts1 gs1) in
    match mc_sends (map fst M) s (mc_sig n t g) i with
    | Some _ => i_req_en (fst (t i)) = true /\ option_map m_req (nth_error (of_cache i M) (mc_sent s i)) = Some (i_req (fst (t i)))
    | None => i_req_en (fst (t i)) = false
    end.
(** The responses a test should give: each message answered as if the messages were executed
    one at a time, on one memory, in the order of the list. *)
Fixpoint expected (p : params) (z : nat -> N * N) (m0 : mem) (seen M : list msg) : list cresp :=
  match M with
  | [] => []
  | x :: M' => answer_to (sized p z (m_cache x)) (flat_mem p m0 (map m_req seen)) (map m_req (of_cache (m_cache x) seen)) (m_req x)
               :: expected p z m0 (seen ++ [x]) M'
  end.
(** Those that cache [i] should give. *)
Definition for_cache (i : nat) (M : list msg) (Y : list cresp) : list cresp :=
  map snd (filter (fun z => Nat.eqb (m_cache (fst z)) i) (combine M Y)).
