(** Specification vocabulary of C73: comparing two caches. *)
From Coq Require Import NArith List Bool.
From Verif Require Import Bits Params Msg Rtl Mem Spec System Traffic.
Import ListNotations.
Open Scope N_scope.

(** [q] is [p] with more ways, more sets, or both: same line size and data width. *)
Definition bigger (p q : params) : Prop :=
  p_clw q = p_clw p /\ p_dbw q = p_dbw p /\ p_assoc p <= p_assoc q /\ nblocks p <= nblocks q.

(** Memory requests for line [l]: refills, write-backs, and write-backs of word [j] of the line. *)
Definition refills (p : params) (l : N) (tr : trace) : list mreq :=
  filter (fun q => (mq_type q =? T_READ) && (mq_addr q =? line_bytes p * l)) (memreqs tr).
Definition writebacks (p : params) (l : N) (tr : trace) : list mreq :=
  filter (fun q => (mq_type q =? T_WRITE) && (mq_addr q =? line_bytes p * l)) (memreqs tr).
Definition word_writebacks (p : params) (l j : N) (tr : trace) : list mreq :=
  filter (fun q => N.testbit (mq_mask q) j) (writebacks p l tr).
