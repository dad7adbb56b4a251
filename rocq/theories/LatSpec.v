(** C63: the schedule of a program with a memory of fixed latency.  Specification vocabulary only. *)
From Coq Require Import NArith List Bool.
From Verif Require Import Bits Params Msg Rtl Mem Spec System Traffic TimeSpec ExactSpec ScheduleSpec.
Import ListNotations.
Open Scope N_scope.

(** A memory request is sent in cycle [t]. *)
Definition sent_at (tr : trace) (t : nat) : bool :=
  match nth_error tr t with Some io => match o_mreq (snd io) with Some _ => true | None => false end | None => false end.
(** The memory answers every request [L] cycles after the one in which it is sent. *)
Definition latency (L : nat) (tr : trace) : Prop :=
  forall t io, nth_error tr t = Some io -> i_mresp_en (fst io) = Nat.leb L t && sent_at tr (t - L).
(** The client takes responses and the memory takes requests in every cycle; the client, with
    [total] requests to make, sends the next one whenever the cache is ready. *)
Fixpoint prompt (total : nat) (tr0 tr : trace) : bool :=
  match tr with
  | [] => true
  | io :: tr =>
      i_resp_rdy (fst io) && i_mreq_rdy (fst io) &&
      implb (o_req_rdy (snd io)) (i_req_en (fst io) || Nat.leb total (length (accepted tr0))) &&
      prompt total (tr0 ++ [io]) tr
  end.

Section S.
Variable p : params.
Variable L : nat.

(** How often the cache waits for memory if it makes [n] memory requests for [r]: the
    write-back of a replaced line and the request that follows go out back to back, so
    they are one; FLUSH waits for every write-back. *)
Definition bursts (r : creq) (n : nat) : nat :=
  if cq_type r =? T_FLUSH then n else match n with O => 0%nat | _ => 1%nat end.
(** Every one takes [L]-1 cycles more than with a memory that answers in the next cycle. *)
Definition lat_service (r : creq) (n : nat) : nat := (service p r n + (L - 1) * bursts r n)%nat.
Definition lat_gap (x : xst) (r : creq) : nat := (gap p x r + (L - 1) * bursts r (made p x r))%nat.

Fixpoint lat_starts_from (t : nat) (x : xst) (R : list creq) : list nat :=
  match R with [] => [] | r :: R => t :: lat_starts_from (t + lat_gap x r) (snd (x_step p x r)) R end.
Fixpoint lat_ends_from (t : nat) (x : xst) (R : list creq) : list nat :=
  match R with [] => [] | r :: R => (t + lat_service r (made p x r))%nat :: lat_ends_from (t + lat_gap x r) (snd (x_step p x r)) R end.
Fixpoint lat_next_from (t : nat) (x : xst) (R : list creq) : nat :=
  match R with [] => t | r :: R => lat_next_from (t + lat_gap x r) (snd (x_step p x r)) R end.
Definition lat_starts (R : list creq) : list nat := lat_starts_from (N.to_nat (total_lines p)) x_empty R.
Definition lat_ends (R : list creq) : list nat := lat_ends_from (N.to_nat (total_lines p)) x_empty R.
Definition lat_next (R : list creq) : nat := lat_next_from (N.to_nat (total_lines p)) x_empty R.

(** The number of times the cache waits for memory in a program. *)
Fixpoint waits_from (x : xst) (R : list creq) : nat :=
  match R with [] => 0%nat | r :: R => (bursts r (made p x r) + waits_from (snd (x_step p x r)) R)%nat end.
Definition mem_waits (R : list creq) : nat := waits_from x_empty R.
End S.
