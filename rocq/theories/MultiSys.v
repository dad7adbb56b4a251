(** Several caches over one memory (blocking_cache/test/MultiCacheTestCases.py,
    test/MulticoreModel.py: one MemoryCL with a port per cache).  Specification
    vocabulary only: runs of [n] caches, ownership of words, and what a
    processor may do.  The caches have the same message types, and each its own
    size and associativity (test/sim_utils.py 250-275, 283-296). *)
From Coq Require Import Arith NArith List Bool Lia.
From Verif Require Import Bits Params Msg Rtl Mem Spec System Traffic.
Import ListNotations.
Open Scope N_scope.

(** The caches: [p] gives the widths of lines, addresses, opaques and data they
    share (CacheReqType, ..., MemRespType of sim_utils.py 262-265); [z i] is size and
    associativity of cache [i] (cache_size[i], associativity[i], sim_utils.py 266-267, 291-292).
    The size and associativity in [p] itself play no role. *)
Definition sized (p : params) (z : nat -> N * N) (i : nat) : params :=
  mkParams (fst (z i)) (snd (z i)) (p_clw p) (p_abw p) (p_obw p) (p_dbw p).
Definition wf_caches (p : params) (z : nat -> N * N) (n : nat) : Prop :=
  forall i, (i < n)%nat -> wf_params (sized p z i).

(** One clock cycle: inputs and outputs of every cache. *)
Definition cyc := nat -> inp * outp.
(** What cache [i] sees. *)
Definition proj (i : nat) (ts : list cyc) : trace := map (fun t => t i) ts.

Definition setq {A} (f : nat -> A) (i : nat) (v : A) : nat -> A := fun j => if Nat.eqb j i then v else f j.

(** A memory with one port per cache (test/MemoryCL.py 60-104): on each port the
    requests are executed in the order received and answered in that order; the
    requests of different ports are executed in any order, at any time.
    [mmem p n m rq rs ts m' rq' rs']: from contents [m], requests [rq i] not yet
    executed and answers [rs i] not yet delivered on port [i], through the
    cycles [ts], to [m'], [rq'], [rs']. *)
Inductive mmem (p : params) (n : nat) (m0 : mem) (rq0 : nat -> list mreq) (rs0 : nat -> list mresp) :
  list cyc -> mem -> (nat -> list mreq) -> (nat -> list mresp) -> Prop :=
| mm_start : mmem p n m0 rq0 rs0 [] m0 rq0 rs0
| mm_exec : forall ts m rq rs i q l, mmem p n m0 rq0 rs0 ts m rq rs -> (i < n)%nat -> rq i = q :: l ->
    mmem p n m0 rq0 rs0 ts (fst (mem_exec p m q)) (setq rq i l) (setq rs i (rs i ++ [snd (mem_exec p m q)]))
| mm_cycle : forall ts m rq rs t, mmem p n m0 rq0 rs0 ts m rq rs ->
    (forall i, (i < n)%nat -> i_mresp_en (fst (t i)) = true -> exists l, rs i = i_mresp (fst (t i)) :: l) ->
    mmem p n m0 rq0 rs0 (ts ++ [t]) m (fun i => rq i ++ opt_list (o_mreq (snd (t i))))
      (fun i => if i_mresp_en (fst (t i)) then List.tl (rs i) else rs i).

(** Word [k] is (partly) written by a WRITE / changed by an AMO. *)
Definition write_word (p : params) (r : creq) (k : N) : Prop :=
  cq_type r = T_WRITE /\ word_num (cq_addr r) <= k <= word_num (cq_addr r + req_bytes p r - 1).
Definition amo_word (r : creq) (k : N) : Prop := is_amo (cq_type r) = true /\ k = word_num (cq_addr r).

(** Each word has at most one owner.  Only the owner may write it.  A word
    without an owner may be changed by AMOs of any cache; otherwise only the
    owner may use AMOs on it.  Anybody may read anything, invalidate and flush. *)
Definition respects (p : params) (owner : N -> option nat) (i : nat) (r : creq) : Prop :=
  (forall k, write_word p r k -> owner k = Some i) /\
  (forall k, amo_word r k -> owner k = Some i \/ owner k = None).

Definition no_reqs : nat -> list mreq := fun _ => [].
Definition no_resps : nat -> list mresp := fun _ => [].

(** A run of [n] caches out of reset. *)
Definition multi_run (p : params) (z : nat -> N * N) (n : nat) (owner : N -> option nat) (s0 : nat -> st) (ts : list cyc)
    (m0 m : mem) (rq : nat -> list mreq) (rs : nat -> list mresp) : Prop :=
  (forall i, (i < n)%nat ->
     reset_state (sized p z i) (s0 i) /\
     proj i ts = trace_of (sized p z i) (s0 i) (map fst (proj i ts)) /\
     client_ok p (proj i ts) /\
     Forall (respects p owner i) (accepted (proj i ts))) /\
  mmem p n m0 no_reqs no_resps ts m rq rs.

(** *** Atomic operations on words that nobody WRITEs *)
Definition is_amor (r : creq) : bool := is_amo (cq_type r).
(** AMOs accepted by a cache, and those it has answered with the value returned. *)
Definition amos (tr : trace) : list creq := filter is_amor (accepted tr).
Definition amos_done (tr : trace) : list (creq * N) :=
  map (fun ry => (fst ry, cr_data (snd ry))) (filter (fun ry => is_amor (fst ry)) (combine (accepted tr) (responses tr))).
(** One after the other on a 32-bit word: each returns the value it found and
    leaves the result of its function. *)
Fixpoint amo_seq (v : N) (L : list (creq * N)) (v' : N) : Prop :=
  match L with
  | [] => v' = v
  | (r, d) :: L => d = v /\ amo_seq (amo_fun (cq_type r) v (trunc 32 (cq_data r))) L v'
  end.
Definition at_word (a : N) (L : list (creq * N)) : list (creq * N) := filter (fun x => cq_addr (fst x) =? a) L.
Definition prefix {A} (l l' : list A) : Prop := exists r, l' = l ++ r.
(** The part of a global list that concerns cache [i]. *)
Definition by_cache {A} (i : nat) (L : list (nat * A)) : list A := map snd (filter (fun x => Nat.eqb (fst x) i) L).

(** No WRITE of any cache touches word [k]. *)
Definition unwritten (p : params) (n : nat) (ts : list cyc) (k : N) : Prop :=
  forall i r, (i < n)%nat -> In r (accepted (proj i ts)) -> ~ write_word p r k.

(** Sum of the operands of the AMOs accepted at [a], over the caches below [n]. *)
Definition operands (a : N) (tr : trace) : N :=
  fold_right N.add 0 (map (fun r => trunc 32 (cq_data r)) (filter (fun r => cq_addr r =? a) (amos tr))).
Definition all_operands (n : nat) (a : N) (ts : list cyc) : N :=
  fold_right N.add 0 (map (fun i => operands a (proj i ts)) (seq 0 n)).
