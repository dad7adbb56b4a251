(** C64: how to read a line of the trace.  Specification vocabulary: text only. *)
From Coq Require Import NArith List Bool String Ascii.
From Verif Require Import Msg.
Import ListNotations.
Open Scope string_scope.

(** The text without its colours: what is between ESC and "m" is dropped. *)
Fixpoint strip (drop : bool) (s : string) : string :=
  match s with
  | EmptyString => EmptyString
  | String c r =>
      if drop then strip (negb (Ascii.eqb c "m")) r
      else if Ascii.eqb c "027" then strip true r else String c (strip false r)
  end.
Definition plain (s : string) : string := strip false s.
(** The line is printed in green somewhere; in red. *)
Fixpoint has_code (code : string) (s : string) : bool :=
  String.prefix (String "027"%char ("[" ++ code ++ "m")) s ||
  match s with EmptyString => false | String _ r => has_code code r end.
Definition green (s : string) : bool := has_code "32" s.
Definition red (s : string) : bool := has_code "31" s.

(** The columns: [>]|[#][(state)][M0]|[M1]|[M2]|[>] *)
Definition col (a n : nat) (s : string) : string := substring a n (plain s).
Definition c_memresp (s : string) : string := col 0 1 s.
Definition c_busy (s : string) : string := col 2 1 s.
Definition c_state (s : string) : string := col 3 6 s.
Definition c_M0 (s : string) : string := col 9 3 s.
Definition c_M1 (s : string) : string := col 13 3 s.
Definition c_M2 (s : string) : string := col 17 3 s.
Definition c_memreq (s : string) : string := col 21 1 s.
Definition bars (s : string) : list string := map (fun a => col a 1 s) [1; 12; 16; 20]%nat.

(** What M0 shows when a request of a type comes in. *)
Definition new_label (t : N) : string :=
  if N.eqb t T_READ then " rd" else if N.eqb t T_WRITE then " wr" else if N.eqb t T_INIT then " in"
  else if N.eqb t T_INV then "iv0" else if N.eqb t T_FLUSH then "fl0" else "amo".
Definition new_labels : list string := [" rd"; " wr"; " in"; "iv0"; "fl0"; "amo"].

(** The labels M2 may show when a response of a type is sent: on a hit the first, else the second. *)
Definition done_labels (t : N) : list string :=
  if N.eqb t T_READ then [" rd"; "rpr"] else if N.eqb t T_WRITE then [" wr"; "rpw"] else if N.eqb t T_INIT then [" in"]
  else if N.eqb t T_INV then ["ivp"] else if N.eqb t T_FLUSH then ["flp"] else ["rpa"].
(** The labels with which M2 answers, if it does not send a memory request. *)
Definition answering : list string := [" rd"; " wr"; " in"; "rpr"; "rpw"; "rpa"; "ivp"; "flp"].

(** The memory request M2 sends. *)
Definition send_labels (t : N) : list string :=
  if N.eqb t T_READ then [" rd"; " wr"] else if N.eqb t T_WRITE then [" ev"; "flr"] else ["amo"].
