(** Locks: the discipline of programs that protect shared words by a test-and-set
    lock.  Specification vocabulary only. *)
From Coq Require Import Arith NArith List Bool.
From Verif Require Import Bits Params Msg Rtl Mem Spec System Traffic MultiSys DynSpec.
Import ListNotations.
Open Scope N_scope.

(** An AMO on the lock at address [a]. *)
Definition lock_op (a : N) (r : creq) : bool := is_amo (cq_type r) && (cq_addr r =? a).
(** A cache (its client) holds the lock: its last AMO on it has been answered, it
    swapped 1 in and got 0 out. *)
Definition holds (a : N) (tr : trace) : bool :=
  match rev (at_word a (amos_done tr)) with
  | (r, d) :: l => (trunc 32 (cq_data r) =? 1) && (d =? 0) && Nat.eqb (S (length l)) (length (filter (lock_op a) (accepted tr)))
  | [] => false
  end.
(** Since it holds the lock it has invalidated its cache. *)
Definition critical (a : N) (tr : trace) : Prop :=
  exists u y v, tr = u ++ y :: v /\ holds a u = true /\ i_req_en (fst y) = true /\ cq_type (i_req (fst y)) = T_INV /\
    forall r, In r (accepted v) -> lock_op a r = false.

(** What the client of one cache does.  The lock word is modified by swapping in 1
    (try to acquire) or 0 (release) only, and released only by who holds it; a word of
    [G] is touched only while holding the lock, after an INV; and before the next AMO on
    the lock, the accesses to words of [G] have been answered, and so has a FLUSH
    after each write. *)
Record lock_client (p : params) (a : N) (G : N -> Prop) (tr : trace) : Prop := {
  lc_lock : forall r, In r (accepted tr) -> modifies p r (word_num a) ->
    cq_type r = T_AMO_SWAP /\ (trunc 32 (cq_data r) = 0 \/ trunc 32 (cq_data r) = 1);
  lc_release : forall t1 x t2, tr = t1 ++ x :: t2 -> i_req_en (fst x) = true -> lock_op a (i_req (fst x)) = true ->
    trunc 32 (cq_data (i_req (fst x))) = 0 -> holds a t1 = true;
  lc_enter : forall t1 x t2 k, tr = t1 ++ x :: t2 -> i_req_en (fst x) = true -> G k -> touches p (i_req (fst x)) k -> critical a t1;
  lc_leave : forall t1 x t2 l r k, tr = t1 ++ x :: t2 -> i_req_en (fst x) = true -> lock_op a (i_req (fst x)) = true ->
    holds a t1 = true -> nth_error (accepted t1) l = Some r -> G k ->
    (touches p r k -> (l < length (responses (t1 ++ [x])))%nat) /\
    (write_word p r k -> exists l' f, (l < l' < length (responses (t1 ++ [x])))%nat /\
       nth_error (accepted t1) l' = Some f /\ cq_type f = T_FLUSH)
}.

(** The client of cache [i] uses word [k] as a counter: whenever it modifies the word,
    it WRITEs [inc] (of the cycle) plus what its READ of the word returned, with no AMO on
    the lock and no modification of the word between that READ and the WRITE. *)
Definition counts_up (p : params) (a k : N) (inc : nat -> nat -> N) (ts : list cyc) (i : nat) : Prop :=
  forall ts1 t ts2, ts = ts1 ++ t :: ts2 -> i_req_en (fst (t i)) = true -> modifies p (i_req (fst (t i))) k ->
  let w := i_req (fst (t i)) in
  cq_type w = T_WRITE /\ cq_addr w = 4 * k /\ req_bytes p w = 4 /\
  exists ts0 t0 tsm y, ts1 = ts0 ++ t0 :: tsm /\ i_req_en (fst (t0 i)) = true /\
    let r := i_req (fst (t0 i)) in
    cq_type r = T_READ /\ cq_addr r = 4 * k /\ req_bytes p r = 4 /\
    nth_error (responses (proj i ts)) (length (accepted (proj i ts0))) = Some y /\
    (forall q, In q (accepted (proj i tsm)) -> lock_op a q = false /\ ~ modifies p q k) /\
    trunc 32 (cq_data w) = trunc 32 (cr_data y + inc (length ts1) i).
(** The increments of all caches in one cycle, and in a run. *)
Definition cyc_sum (k : N) (n : nat) (inc : nat -> N) (t : cyc) : N :=
  fold_right N.add 0 (map (fun i => let r := i_req (fst (t i)) in
    if i_req_en (fst (t i)) && ((cq_type r =? T_WRITE) && (cq_addr r =? 4 * k)) then inc i else 0) (seq 0 n)).
Definition total (k : N) (n : nat) (inc : nat -> nat -> N) (ts : list cyc) : N :=
  fold_right N.add 0 (map (fun T => match nth_error ts T with Some t => cyc_sum k n (inc T) t | None => 0 end) (seq 0 (length ts))).
