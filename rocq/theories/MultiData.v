(** Generated by tools/multi.py from blocking_cache/test/MultiCacheTestCases.py.  Do not edit. *)
From Coq Require Import NArith List.
From Verif Require Import Params Msg BulkSpec.
Import ListNotations.
Open Scope N_scope.

(** number of caches, widths, size and associativity of each cache, messages and expected responses in the order of the test *)
Record mtest := mkMT { mt_n : nat; mt_p : params; mt_sizes : list (N * N); mt_msgs : list (msg * cresp) }.
Definition mt_z (t : mtest) (i : nat) : N * N := nth i (mt_sizes t) (0, 0).

(** MultiCacheTestCases.py 17-45 *)
Definition multicache_mem : list (N * N) :=
  [(0, 0); (4, 1); (8, 2); (12, 3); (16, 4); (20, 5); (24, 6); (28, 7); (32, 8); (36, 9); (40, 10); (44, 11); (131072, 12); (131076, 13); (131080, 14); (131084, 15); (131088, 16); (131092, 17); (4096, 16909060); (4100, 84281096); (4104, 151653132); (4108, 219025168); (8192, 16435934); (8196, 97132013); (8304, 1895484126); (8308, 1976180205)].
(** MultiCacheTestCases.py 47-58 (line size and widths: test/sim_utils.py) *)
Definition rd_wr_2c : mtest := mkMT 2 (mkParams 32 1 128 32 8 32) [(32, 1); (32, 1)]
  [ ((0%nat, 0, mkCReq 0 0 0 0 0), mkCResp 0 0 0 0 0);
    ((0%nat, 0, mkCReq 1 0 0 0 1), mkCResp 1 0 1 0 0);
    ((0%nat, 0, mkCReq 0 0 131076 0 0), mkCResp 0 0 0 0 13);
    ((1%nat, 1, mkCReq 0 0 0 0 0), mkCResp 0 0 0 0 1) ].
(** MultiCacheTestCases.py 60-70 (line size and widths: test/sim_utils.py) *)
Definition amo_2c : mtest := mkMT 2 (mkParams 32 1 128 32 8 32) [(32, 1); (32, 1)]
  [ ((0%nat, 0, mkCReq 3 0 0 0 1), mkCResp 3 0 0 0 0);
    ((0%nat, 1, mkCReq 0 1 0 0 0), mkCResp 0 1 0 0 1);
    ((1%nat, 1, mkCReq 0 0 0 0 0), mkCResp 0 0 0 0 1) ].
(** MultiCacheTestCases.py 72-85 (line size and widths: test/sim_utils.py) *)
Definition inv_fl_2c : mtest := mkMT 2 (mkParams 32 1 128 32 8 32) [(32, 1); (32, 1)]
  [ ((0%nat, 0, mkCReq 1 0 0 0 1), mkCResp 1 0 0 0 0);
    ((0%nat, 0, mkCReq 1 1 8 0 3), mkCResp 1 1 1 0 0);
    ((1%nat, 0, mkCReq 1 0 4 0 18), mkCResp 1 0 0 0 0);
    ((1%nat, 0, mkCReq 15 1 0 0 0), mkCResp 15 1 0 0 0);
    ((0%nat, 0, mkCReq 14 2 0 0 0), mkCResp 14 2 0 0 0);
    ((0%nat, 1, mkCReq 0 3 8 0 0), mkCResp 0 3 0 0 3);
    ((0%nat, 1, mkCReq 0 4 4 0 0), mkCResp 0 4 1 0 18) ].
(** MultiCacheTestCases.py 87-109 (line size and widths: test/sim_utils.py) *)
Definition inv_fl_4c : mtest := mkMT 4 (mkParams 64 2 128 32 8 32) [(64, 2); (64, 2); (64, 2); (64, 2)]
  [ ((0%nat, 0, mkCReq 1 0 0 0 1), mkCResp 1 0 0 0 0);
    ((1%nat, 0, mkCReq 1 0 4 0 18), mkCResp 1 0 0 0 0);
    ((2%nat, 0, mkCReq 1 0 8 0 35), mkCResp 1 0 0 0 0);
    ((3%nat, 0, mkCReq 1 0 12 0 52), mkCResp 1 0 0 0 0);
    ((0%nat, 0, mkCReq 15 1 0 0 0), mkCResp 15 1 0 0 0);
    ((1%nat, 0, mkCReq 15 1 0 0 0), mkCResp 15 1 0 0 0);
    ((2%nat, 0, mkCReq 15 1 0 0 0), mkCResp 15 1 0 0 0);
    ((3%nat, 0, mkCReq 15 1 0 0 0), mkCResp 15 1 0 0 0);
    ((0%nat, 0, mkCReq 14 2 0 0 0), mkCResp 14 2 0 0 0);
    ((1%nat, 0, mkCReq 14 2 0 0 0), mkCResp 14 2 0 0 0);
    ((2%nat, 0, mkCReq 14 2 0 0 0), mkCResp 14 2 0 0 0);
    ((3%nat, 0, mkCReq 14 2 0 0 0), mkCResp 14 2 0 0 0);
    ((0%nat, 1, mkCReq 0 3 12 0 0), mkCResp 0 3 0 0 52);
    ((1%nat, 1, mkCReq 0 3 8 0 0), mkCResp 0 3 0 0 35);
    ((2%nat, 1, mkCReq 0 3 4 0 0), mkCResp 0 3 0 0 18);
    ((3%nat, 1, mkCReq 0 3 0 0 0), mkCResp 0 3 0 0 1) ].
Definition multi_tests : list mtest := [rd_wr_2c; amo_2c; inv_fl_2c; inv_fl_4c].
