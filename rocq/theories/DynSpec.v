(** Software coherence: the discipline under which caches that know nothing of
    each other share a word.  Specification vocabulary only. *)
From Coq Require Import Arith NArith List Bool.
From Verif Require Import Bits Params Msg Rtl Mem Spec System Traffic MultiSys.
Import ListNotations.
Open Scope N_scope.

(** Requests accepted in one cycle, by cache number; all requests of a run in
    the order of their acceptance. *)
Definition cyc_reqs (n : nat) (t : cyc) : list creq := flat_map (fun i => accepted [t i]) (seq 0 n).
Definition hist (n : nat) (ts : list cyc) : list creq := flat_map (cyc_reqs n) ts.
(** The requests accepted before the one cache [i] accepts in cycle [t], after
    the cycles [ts1]: by cycle, and within a cycle by cache number. *)
Definition before (n : nat) (ts1 : list cyc) (t : cyc) (i : nat) : list creq :=
  hist n ts1 ++ flat_map (fun j => accepted [t j]) (seq 0 i).

(** A READ or WRITE of at least a byte of word [k], or an AMO on it. *)
Definition touches (p : params) (r : creq) (k : N) : Prop :=
  ((cq_type r = T_READ \/ cq_type r = T_WRITE) /\
   word_num (cq_addr r) <= k <= word_num (cq_addr r + req_bytes p r - 1)) \/ amo_word r k.
(** A WRITE of at least a byte of it, or an AMO. *)
Definition modifies (p : params) (r : creq) (k : N) : Prop := write_word p r k \/ amo_word r k.

(** The line of word [k] is not among the lines a cache keeps after the
    requests [A] (the least-recently-used rule of [Traffic.v]). *)
Definition absent (p : params) (k : N) (A : list creq) : Prop :=
  ~ In (line_of p (4 * k)) (lru_run p lru_empty A (line_of p (4 * k) mod nblocks p)).
(** Request [f], after the requests [A], makes the cache write the line of word
    [k] back: a FLUSH, an AMO on the line, or the request that replaces the line. *)
Definition cleans (p : params) (k : N) (A : list creq) (f : creq) : Prop :=
  cq_type f = T_FLUSH \/
  is_amo (cq_type f) = true /\ line_of p (cq_addr f) = line_of p (4 * k) \/
  cq_type f <> T_INV /\ ~ absent p k A /\ absent p k (A ++ [f]).

(** Who may use word [k] when: [may t i], cache [i] may touch it in cycle [t];
    [own t i], it may also modify it, and then no other cache may touch it.
    A cache touches the word only if it may, and only if at some time since it
    may its line was absent (so that it was, or will be, fetched anew: after an INV, an
    AMO on the line, a replacement, or if it was never there).
    When a cache loses [own], its modifications have been answered, and so has,
    for every write, a later request that writes the line back; when it loses
    [may], its requests touching the word have been answered. *)
Record synced (p : params) (z : nat -> N * N) (n : nat) (k : N) (may own : nat -> nat -> bool) (ts : list cyc) : Prop := {
  sy_may : forall t i, (t <= length ts)%nat -> (i < n)%nat -> own t i = true -> may t i = true;
  sy_excl : forall t i j, (t <= length ts)%nat -> (i < n)%nat -> (j < n)%nat -> own t i = true -> may t j = true -> i = j;
  sy_touch : forall i t x, (i < n)%nat -> nth_error (proj i ts) t = Some x -> i_req_en (fst x) = true ->
    touches p (i_req (fst x)) k ->
    exists e, (e <= t)%nat /\ (forall t', (e <= t' <= t)%nat -> may t' i = true) /\
      absent (sized p z i) k (accepted (proj i (firstn e ts)));
  sy_modify : forall i t x, (i < n)%nat -> nth_error (proj i ts) t = Some x -> i_req_en (fst x) = true ->
    modifies p (i_req (fst x)) k -> own t i = true;
  sy_disown : forall i t, (i < n)%nat -> (t < length ts)%nat -> own t i = true -> own (S t) i = false ->
    let past := proj i (firstn (S t) ts) in
    (forall l r, nth_error (accepted past) l = Some r -> modifies p r k -> (l < length (responses past))%nat) /\
    (forall l r, nth_error (accepted past) l = Some r -> write_word p r k ->
       exists l' f, (l < l')%nat /\ (l' < length (responses past))%nat /\
         nth_error (accepted past) l' = Some f /\ cleans (sized p z i) k (firstn l' (accepted past)) f);
  sy_leave : forall i t, (i < n)%nat -> (t < length ts)%nat -> may t i = true -> may (S t) i = false ->
    let past := proj i (firstn (S t) ts) in
    forall l r, nth_error (accepted past) l = Some r -> touches p r k -> (l < length (responses past))%nat
}.
