(** C70: WRITE_INIT in a cache with one way.  Specification vocabulary: what a client
    that also issues WRITE_INIT can rely on, whatever memory answers.  Nothing of the
    cache model is used beyond messages and traces. *)
From Coq Require Import NArith List Bool.
From Verif Require Import Bits Params Msg Rtl Mem Spec System Traffic Hide.
Import ListNotations.
Open Scope N_scope.

Section Init.
Variable p : params.

(** A WRITE_INIT of the shape of a supported WRITE (aligned, at most a word or the double word). *)
Definition as_write (r : creq) : creq := mkCReq T_WRITE (cq_opq r) (cq_addr r) (cq_len r) (cq_data r).
Definition wf_init (r : creq) : Prop := cq_type r = T_INIT /\ wf_req p (as_write r) /\ wf_write p (as_write r).

Definition clientI_ok (tr : trace) : Prop :=
  Forall (fun io => i_req_en (fst io) = true ->
     o_req_rdy (snd io) = true /\ (wf_req p (i_req (fst io)) \/ wf_init (i_req (fst io)))) tr.
(** Out of reset, with such a client and a memory of whose data nothing is known. *)
Definition init_run (s0 : st) (is : list inp) : Prop :=
  reset_state p s0 /\ clientI_ok (trace_of p s0 is) /\ answers_typed (trace_of p s0 is).

(** What the client knows about the cache: for each set which line can be used there, if
    any, and the value of some bytes of those lines. *)
Record know := mkK { k_line : N -> option N; k_byte : N -> option N }.
Definition know0 : know := mkK (fun _ => None) (fun _ => None).

Definition set_of (a : N) : N := line_of p a mod nblocks p.
Definition there (k : know) (r : creq) : bool :=
  match k_line k (set_of (cq_addr r)) with Some l => l =? line_of p (cq_addr r) | None => false end.
(** bytes accessed *)
Definition size (r : creq) : N := req_bytes p (if cq_type r =? T_INIT then as_write r else r).
(** the value of the byte at [a] according to data [d] of an access at [r] *)
Definition byte_of (r : creq) (d a : N) : option N :=
  if (cq_addr r <=? a) && (a <? cq_addr r + size r)
  then Some (slice d (8 * (a - cq_addr r)) (8 * (a - cq_addr r) + 8)) else None.

(** The line is in the cache from now on, and no other line of the set; the bytes of [d] are known. *)
Definition learn (k : know) (r : creq) (d : N) : know :=
  mkK (fun i => if i =? set_of (cq_addr r) then Some (line_of p (cq_addr r)) else k_line k i)
      (fun a => match byte_of r d a with
                | Some v => Some v
                | None => if (set_of a =? set_of (cq_addr r)) && negb (line_of p a =? line_of p (cq_addr r)) then None else k_byte k a
                end).
Definition drop (k : know) (r : creq) : know :=
  mkK (fun i => if i =? set_of (cq_addr r) then None else k_line k i)
      (fun a => if set_of a =? set_of (cq_addr r) then None else k_byte k a).

(** after request [r] with response [y] *)
Definition know_next (k : know) (r : creq) (y : cresp) : know :=
  if cq_type r =? T_INV then know0
  else if cq_type r =? T_FLUSH then k
  else if is_amo (cq_type r) then (if there k r then drop k r else k)
  else if cq_type r =? T_READ then learn k r (cr_data y)
  else learn k r (trunc (p_dbw p) (cq_data r)).   (* WRITE, WRITE_INIT *)

(** What is promised of the response [y] to [r] *)
Record resp_ok (k : know) (r : creq) (y : cresp) : Prop := mkRespOk {
  ro_type : cr_type y = cq_type r;
  ro_opq : cr_opq y = cq_opq r;
  ro_len : cr_len y = cq_len r;
  ro_test : cr_test y = if ((cq_type r =? T_READ) || (cq_type r =? T_WRITE)) && there k r then 1 else 0;
  ro_known : cq_type r = T_READ -> forall a v, k_byte k a = Some v -> forall v', byte_of r (cr_data y) a = Some v' -> v' = v;
  ro_short : cq_type r = T_READ -> cr_data y < 2 ^ (8 * size r);
  ro_zero : cq_type r <> T_READ -> is_amo (cq_type r) = false -> cr_data y = 0
}.

(** Every response is as promised, in the order of the requests. *)
Fixpoint explained (k : know) (A : list creq) (Y : list cresp) : Prop :=
  match Y with
  | [] => True
  | y :: Y => match A with [] => False | r :: A => resp_ok k r y /\ explained (know_next k r y) A Y end
  end.
(** What the client knows once it has seen the responses [Y] to [A]. *)
Fixpoint knows (k : know) (A : list creq) (Y : list cresp) : know :=
  match Y, A with
  | y :: Y, r :: A => knows (know_next k r y) A Y
  | _, _ => k
  end.

(** Requests that may use memory: neither INV nor WRITE_INIT, nor a READ or WRITE of
    a line known to be there. *)
Definition needs_memory (k : know) (r : creq) : bool :=
  negb ((cq_type r =? T_INIT) || (cq_type r =? T_INV) ||
        ((cq_type r =? T_READ) || (cq_type r =? T_WRITE)) && there k r).
End Init.
