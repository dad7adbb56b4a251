(** Cycles that count for liveness.  Specification vocabulary only. *)
From Coq Require Import Arith NArith List Bool.
From Verif Require Import Params Msg Rtl System MultiSys BulkSpec.
Import ListNotations.
Open Scope N_scope.

(** A client with [total] requests to make, after the past [tr0], does not decline: if the cache
    is ready it sends a request, unless all are sent. *)
Definition offers (total : nat) (tr0 : trace) (io : inp * outp) : bool :=
  implb (o_req_rdy (snd io)) (i_req_en (fst io) || Nat.leb total (length (accepted tr0))).
(** Number of cycles of [tr] (after [tr0]) that are productive (System.v) and in
    which the client does not decline. *)
Fixpoint offer_cycles (total : nat) (tr0 tr : trace) : nat :=
  match tr with
  | [] => 0
  | io :: tr => ((if productive tr0 (fst io) && offers total tr0 io then 1 else 0) + offer_cycles total (tr0 ++ [io]) tr)%nat
  end.

(** Several caches, driven by sources ([snd x i]: the delay of source [i] has run out).
    Cache [i] can send and the source may. *)
Definition willing (i : nat) (x : cyc * (nat -> bool)) : bool :=
  i_resp_rdy (fst (fst x i)) && i_mreq_rdy (fst (fst x i)) && snd x i.
(** One round, after the past [ts0]: every cache has enough productive cycles to answer what
    it has accepted (C15), and later a cycle in which both its sides are ready and its source is not delayed.
    The caches need not be served in the same cycles. *)
Definition round (p : params) (z : nat -> N * N) (n : nat) (ts0 : list cyc) (seg : list (cyc * (nat -> bool))) : Prop :=
  forall i, (i < n)%nat -> exists u v, seg = u ++ v /\
    (2 * N.to_nat (5 * total_lines (sized p z i) + 3) <= productive_cycles (proj i ts0) (proj i (map fst u)))%nat /\
    existsb (willing i) v = true.
(** At least [k] rounds. *)
Inductive rounds (p : params) (z : nat -> N * N) (n : nat) : nat -> list cyc -> list (cyc * (nat -> bool)) -> Prop :=
| rounds_0 : forall ts0 rest, rounds p z n 0 ts0 rest
| rounds_S : forall k ts0 seg rest, round p z n ts0 seg -> rounds p z n k (ts0 ++ map fst seg) rest -> rounds p z n (S k) ts0 (seg ++ rest).
(** In every [D+1] consecutive cycles there is one in which source [i] is not delayed. *)
Definition delay_within (D : nat) (i : nat) (gs : list (nat -> bool)) : Prop :=
  forall g1 g2 g3, gs = g1 ++ g2 ++ g3 -> length g2 = S D -> existsb (fun g => g i) g2 = true.

(** The largest order in a test. *)
Definition last_order (M : list msg) : N := fold_right N.max 0 (map m_ord M).
(** MulticoreModel can send the messages of each cache in the order given: their orders do not decrease. *)
Definition sendable (n : nat) (M : list msg) : Prop := forall i, (i < n)%nat -> forall l1 x l2 y l3, of_cache i M = l1 ++ x :: l2 ++ y :: l3 -> m_ord x <= m_ord y.
(** The number of rounds after which a test is over. *)
Definition rounds_for (M : list msg) : nat := (2 * length M + N.to_nat (last_order M) + 1)%nat.
