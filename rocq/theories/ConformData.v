(** Generated by tools/conform.py from the directed test tables of the repository
    (blocking_cache/test/*.py).  Do not edit. *)
From Coq Require Import NArith List.
From Verif Require Import Params Msg.
Import ListNotations.
Open Scope N_scope.

(** name of the test, parameters, initial memory, (request, expected response) list *)
Record dtest := mkT { t_p : params; t_mem : list (N * N); t_msgs : list (creq * cresp) }.

(** GenericTestCases.py: gen_mem *)
Definition m_GenericTestCases_gen_mem : list (N * N) :=
  [(0, 0); (4, 1); (8, 2); (12, 3); (16, 4); (20, 5); (24, 6); (28, 7); (32, 8); (36, 9); (40, 10); (44, 11); (131072, 12); (131076, 13); (131080, 14); (131084, 15); (131088, 16); (131092, 17); (4096, 16909060); (4100, 84281096); (4104, 151653132); (4108, 219025168); (8192, 16435934); (8196, 97132013); (8304, 1895484126); (8308, 1976180205)].
(** AmoTests.py: amo_mem *)
Definition m_AmoTests_amo_mem : list (N * N) :=
  [(0, 1); (4, 2); (8, 3); (12, 4); (16, 17); (20, 18); (24, 19); (28, 20); (32, 33); (36, 34); (40, 35); (44, 36); (48, 49); (52, 50); (56, 51); (60, 52); (131072, 5); (131076, 6); (131080, 7); (131084, 8); (131088, 9); (131092, 10); (131096, 11); (131100, 12); (196608, 13); (196612, 14); (196616, 15); (196620, 16); (92, 9); (96, 10)].
(** InvFlushTests.py: inv_flush_mem *)
Definition m_InvFlushTests_inv_flush_mem : list (N * N) :=
  [(0, 1); (4, 2); (8, 3); (12, 4); (16, 17); (20, 18); (24, 19); (28, 20); (32, 33); (36, 34); (40, 35); (44, 36); (48, 49); (52, 50); (56, 51); (60, 52); (131072, 5); (131076, 6); (131080, 7); (131084, 8); (131088, 9); (131092, 10); (131096, 11); (131100, 12); (196608, 13); (196612, 14); (196616, 15); (196620, 16); (196624, 2730); (196628, 3003); (196632, 3276); (92, 9); (96, 10)].
(** OtherCiferTests.py: inv_flush_mem *)
Definition m_OtherCiferTests_inv_flush_mem : list (N * N) :=
  [(0, 1); (4, 2); (8, 3); (12, 4); (16, 17); (20, 18); (24, 19); (28, 20); (32, 33); (36, 34); (40, 35); (44, 36); (48, 49); (52, 50); (56, 51); (60, 52); (131072, 5); (131076, 6); (131080, 7); (131084, 8); (131088, 9); (131092, 10); (131096, 11); (131100, 12); (196608, 13); (196612, 14); (196616, 15); (196620, 16); (196624, 2730); (196628, 3003); (196632, 3735928559); (196636, 4290838510); (92, 9); (96, 10)].
(** blocking_cache/test/GenericTestCases.py 48-55: rd_hit_1wd *)
Definition GenericTestCases_rd_hit_1wd : dtest := mkT (mkParams 32 1 128 32 8 32) m_GenericTestCases_gen_mem
  [ (mkCReq 2 0 700416 0 3735928559, mkCResp 2 0 0 0 0);
    (mkCReq 0 1 700416 0 0, mkCResp 0 1 1 0 3735928559) ].
(** blocking_cache/test/GenericTestCases.py 57-67: rd_hit_many *)
Definition GenericTestCases_rd_hit_many : dtest := mkT (mkParams 32 1 128 32 8 32) m_GenericTestCases_gen_mem
  [ (mkCReq 2 0 294912 0 0, mkCResp 2 0 0 0 0);
    (mkCReq 2 1 294916 0 1, mkCResp 2 1 0 0 0);
    (mkCReq 2 2 294920 0 2, mkCResp 2 2 0 0 0);
    (mkCReq 2 3 294924 0 3, mkCResp 2 3 0 0 0);
    (mkCReq 0 0 294912 0 0, mkCResp 0 0 1 0 0);
    (mkCReq 0 1 294916 0 0, mkCResp 0 1 1 0 1);
    (mkCReq 0 2 294920 0 0, mkCResp 0 2 1 0 2);
    (mkCReq 0 3 294924 0 0, mkCResp 0 3 1 0 3) ].
(** blocking_cache/test/GenericTestCases.py 73-86: rd_hit_cline *)
Definition GenericTestCases_rd_hit_cline : dtest := mkT (mkParams 32 1 128 32 8 32) m_GenericTestCases_gen_mem
  [ (mkCReq 2 0 32 0 3735928559, mkCResp 2 0 0 0 0);
    (mkCReq 2 1 36 0 3405695742, mkCResp 2 1 0 0 0);
    (mkCReq 2 2 40 0 4210752250, mkCResp 2 2 0 0 0);
    (mkCReq 2 3 44 0 3132799674, mkCResp 2 3 0 0 0);
    (mkCReq 0 4 32 0 0, mkCResp 0 4 1 0 3735928559);
    (mkCReq 0 5 36 0 0, mkCResp 0 5 1 0 3405695742);
    (mkCReq 0 6 40 0 0, mkCResp 0 6 1 0 4210752250);
    (mkCReq 0 7 44 0 0, mkCResp 0 7 1 0 3132799674) ].
(** blocking_cache/test/GenericTestCases.py 92-106: wr_hit_clean *)
Definition GenericTestCases_wr_hit_clean : dtest := mkT (mkParams 32 1 128 32 8 32) m_GenericTestCases_gen_mem
  [ (mkCReq 2 0 4480 0 3735928559, mkCResp 2 0 0 0 0);
    (mkCReq 1 1 4480 0 50, mkCResp 1 1 1 0 0);
    (mkCReq 1 1 4484 0 51, mkCResp 1 1 1 0 0);
    (mkCReq 1 1 4488 0 52, mkCResp 1 1 1 0 0);
    (mkCReq 1 1 4492 0 53, mkCResp 1 1 1 0 0);
    (mkCReq 0 2 4480 0 0, mkCResp 0 2 1 0 50);
    (mkCReq 0 2 4484 0 0, mkCResp 0 2 1 0 51);
    (mkCReq 0 2 4488 0 0, mkCResp 0 2 1 0 52);
    (mkCReq 0 2 4492 0 0, mkCResp 0 2 1 0 53) ].
(** blocking_cache/test/GenericTestCases.py 113-124: wr_hit_dirty *)
Definition GenericTestCases_wr_hit_dirty : dtest := mkT (mkParams 32 1 128 32 8 32) m_GenericTestCases_gen_mem
  [ (mkCReq 2 0 419424 0 3735928559, mkCResp 2 0 0 0 0);
    (mkCReq 1 1 419424 0 4294967295, mkCResp 1 1 1 0 0);
    (mkCReq 1 2 419428 0 49391, mkCResp 1 2 1 0 0);
    (mkCReq 1 3 419432 0 234119, mkCResp 1 3 1 0 0);
    (mkCReq 1 4 419436 0 703727, mkCResp 1 4 1 0 0);
    (mkCReq 0 5 419432 0 0, mkCResp 0 5 1 0 234119) ].
(** blocking_cache/test/GenericTestCases.py 131-140: wr_hit_rd_hit *)
Definition GenericTestCases_wr_hit_rd_hit : dtest := mkT (mkParams 32 1 128 32 8 32) m_GenericTestCases_gen_mem
  [ (mkCReq 2 0 0 0 3735928559, mkCResp 2 0 0 0 0);
    (mkCReq 0 1 0 0 0, mkCResp 0 1 1 0 3735928559);
    (mkCReq 1 2 0 0 4294967295, mkCResp 1 2 1 0 0);
    (mkCReq 0 3 0 0 0, mkCResp 0 3 1 0 4294967295) ].
(** blocking_cache/test/GenericTestCases.py 146-153: rd_miss_1wd_cn *)
Definition GenericTestCases_rd_miss_1wd_cn : dtest := mkT (mkParams 32 1 128 32 8 32) m_GenericTestCases_gen_mem
  [ (mkCReq 0 0 0 0 0, mkCResp 0 0 0 0 0);
    (mkCReq 0 1 4 0 0, mkCResp 0 1 1 0 1) ].
(** blocking_cache/test/GenericTestCases.py 159-167: wr_miss_1wd_cn *)
Definition GenericTestCases_wr_miss_1wd_cn : dtest := mkT (mkParams 32 1 128 32 8 32) m_GenericTestCases_gen_mem
  [ (mkCReq 1 0 0 0 12648430, mkCResp 1 0 0 0 0);
    (mkCReq 0 1 0 0 0, mkCResp 0 1 1 0 12648430);
    (mkCReq 0 2 8 0 0, mkCResp 0 2 1 0 2) ].
(** blocking_cache/test/GenericTestCases.py 173-181: rd_miss_dty *)
Definition GenericTestCases_rd_miss_dty : dtest := mkT (mkParams 32 1 128 32 8 32) m_GenericTestCases_gen_mem
  [ (mkCReq 1 0 0 0 3203383019, mkCResp 1 0 0 0 0);
    (mkCReq 0 1 131072 0 0, mkCResp 0 1 0 0 12);
    (mkCReq 0 2 0 0 0, mkCResp 0 2 0 0 3203383019) ].
(** blocking_cache/test/GenericTestCases.py 187-195: rd_ev_1wd *)
Definition GenericTestCases_rd_ev_1wd : dtest := mkT (mkParams 32 1 128 32 8 32) m_GenericTestCases_gen_mem
  [ (mkCReq 1 0 8192 0 4294967040, mkCResp 1 0 0 0 0);
    (mkCReq 0 1 0 0 0, mkCResp 0 1 0 0 0);
    (mkCReq 0 2 8192 0 0, mkCResp 0 2 0 0 4294967040) ].
(** blocking_cache/test/GenericTestCases.py 198-231: long_msg_1way *)
Definition GenericTestCases_long_msg_1way : dtest := mkT (mkParams 4096 1 128 32 8 32) m_GenericTestCases_gen_mem
  [ (mkCReq 1 0 0 0 4294967040, mkCResp 1 0 0 0 0);
    (mkCReq 1 1 4 0 4294967041, mkCResp 1 1 1 0 0);
    (mkCReq 1 2 8 0 4294967042, mkCResp 1 2 1 0 0);
    (mkCReq 1 3 12 0 4294967043, mkCResp 1 3 1 0 0);
    (mkCReq 1 4 4096 0 4294967044, mkCResp 1 4 0 0 0);
    (mkCReq 1 5 4100 0 4294967045, mkCResp 1 5 1 0 0);
    (mkCReq 1 6 4104 0 4294967046, mkCResp 1 6 1 0 0);
    (mkCReq 1 7 4108 0 4294967047, mkCResp 1 7 1 0 0);
    (mkCReq 0 8 8192 0 0, mkCResp 0 8 0 0 16435934);
    (mkCReq 0 9 8196 0 0, mkCResp 0 9 1 0 97132013);
    (mkCReq 0 10 4100 0 0, mkCResp 0 10 0 0 4294967045);
    (mkCReq 1 11 4108 0 4294967049, mkCResp 1 11 1 0 0);
    (mkCReq 0 12 4108 0 0, mkCResp 0 12 1 0 4294967049);
    (mkCReq 0 13 0 0 0, mkCResp 0 13 0 0 4294967040);
    (mkCReq 1 16 112 0 4294967040, mkCResp 1 16 0 0 0);
    (mkCReq 1 17 116 0 4294967041, mkCResp 1 17 1 0 0);
    (mkCReq 1 18 120 0 4294967042, mkCResp 1 18 1 0 0);
    (mkCReq 1 19 124 0 4294967043, mkCResp 1 19 1 0 0);
    (mkCReq 1 20 4208 0 4294967044, mkCResp 1 20 0 0 0);
    (mkCReq 1 21 4212 0 4294967045, mkCResp 1 21 1 0 0);
    (mkCReq 1 22 4216 0 4294967046, mkCResp 1 22 1 0 0);
    (mkCReq 1 23 4220 0 4294967047, mkCResp 1 23 1 0 0);
    (mkCReq 0 24 8304 0 0, mkCResp 0 24 0 0 1895484126);
    (mkCReq 0 25 8308 0 0, mkCResp 0 25 1 0 1976180205);
    (mkCReq 0 26 4212 0 0, mkCResp 0 26 0 0 4294967045);
    (mkCReq 1 27 4220 0 4294967049, mkCResp 1 27 1 0 0);
    (mkCReq 0 28 4220 0 0, mkCResp 0 28 1 0 4294967049);
    (mkCReq 0 29 112 0 0, mkCResp 0 29 0 0 4294967040) ].
(** blocking_cache/test/GenericTestCases.py 233-243: rd_hit_1b *)
Definition GenericTestCases_rd_hit_1b : dtest := mkT (mkParams 32 1 128 32 8 32) m_GenericTestCases_gen_mem
  [ (mkCReq 2 0 0 0 2882400018, mkCResp 2 0 0 0 0);
    (mkCReq 0 1 0 1 0, mkCResp 0 1 1 1 18);
    (mkCReq 0 2 1 1 0, mkCResp 0 2 1 1 239);
    (mkCReq 0 3 2 1 0, mkCResp 0 3 1 1 205);
    (mkCReq 0 4 3 1 0, mkCResp 0 4 1 1 171) ].
(** blocking_cache/test/GenericTestCases.py 245-256: wr_hit_1b *)
Definition GenericTestCases_wr_hit_1b : dtest := mkT (mkParams 32 1 128 32 8 32) m_GenericTestCases_gen_mem
  [ (mkCReq 2 0 0 0 2882400018, mkCResp 2 0 0 0 0);
    (mkCReq 1 1 0 1 153, mkCResp 1 1 1 1 0);
    (mkCReq 1 1 1 1 102, mkCResp 1 1 1 1 0);
    (mkCReq 1 1 2 1 51, mkCResp 1 1 1 1 0);
    (mkCReq 1 1 3 1 17, mkCResp 1 1 1 1 0);
    (mkCReq 0 2 0 0 0, mkCResp 0 2 1 0 288581273) ].
(** blocking_cache/test/GenericTestCases.py 258-267: rd_miss_1b *)
Definition GenericTestCases_rd_miss_1b : dtest := mkT (mkParams 32 1 128 32 8 32) m_GenericTestCases_gen_mem
  [ (mkCReq 0 0 4096 1 0, mkCResp 0 0 0 1 4);
    (mkCReq 0 1 4097 1 0, mkCResp 0 1 1 1 3);
    (mkCReq 0 2 4098 1 0, mkCResp 0 2 1 1 2);
    (mkCReq 0 3 4099 1 0, mkCResp 0 3 1 1 1) ].
(** blocking_cache/test/GenericTestCases.py 269-282: wr_miss_1b *)
Definition GenericTestCases_wr_miss_1b : dtest := mkT (mkParams 32 1 128 32 8 32) m_GenericTestCases_gen_mem
  [ (mkCReq 1 0 4097 1 17, mkCResp 1 0 0 1 0);
    (mkCReq 1 1 4101 1 34, mkCResp 1 1 1 1 0);
    (mkCReq 1 2 4105 1 51, mkCResp 1 2 1 1 0);
    (mkCReq 1 3 4109 1 68, mkCResp 1 3 1 1 0);
    (mkCReq 0 0 4096 0 0, mkCResp 0 0 1 0 16912644);
    (mkCReq 0 1 4100 0 0, mkCResp 0 1 1 0 84288008);
    (mkCReq 0 2 4104 0 0, mkCResp 0 2 1 0 151663372);
    (mkCReq 0 3 4108 0 0, mkCResp 0 3 1 0 219038736) ].
(** blocking_cache/test/GenericTestCases.py 284-292: rd_hit_2b *)
Definition GenericTestCases_rd_hit_2b : dtest := mkT (mkParams 32 1 128 32 8 32) m_GenericTestCases_gen_mem
  [ (mkCReq 2 0 0 0 2882400018, mkCResp 2 0 0 0 0);
    (mkCReq 0 1 0 2 0, mkCResp 0 1 1 2 61202);
    (mkCReq 0 2 2 2 0, mkCResp 0 2 1 2 43981) ].
(** blocking_cache/test/GenericTestCases.py 294-303: wr_hit_2b *)
Definition GenericTestCases_wr_hit_2b : dtest := mkT (mkParams 32 1 128 32 8 32) m_GenericTestCases_gen_mem
  [ (mkCReq 2 0 0 0 2882400018, mkCResp 2 0 0 0 0);
    (mkCReq 1 1 0 2 153, mkCResp 1 1 1 2 0);
    (mkCReq 1 1 2 2 44051, mkCResp 1 1 1 2 0);
    (mkCReq 0 2 0 0 0, mkCResp 0 2 1 0 2886926489) ].
(** blocking_cache/test/GenericTestCases.py 305-312: rd_miss_2b *)
Definition GenericTestCases_rd_miss_2b : dtest := mkT (mkParams 32 1 128 32 8 32) m_GenericTestCases_gen_mem
  [ (mkCReq 0 0 4096 2 0, mkCResp 0 0 0 2 772);
    (mkCReq 0 2 8194 2 0, mkCResp 0 2 0 2 250) ].
(** blocking_cache/test/GenericTestCases.py 314-323: wr_miss_2b *)
Definition GenericTestCases_wr_miss_2b : dtest := mkT (mkParams 32 1 128 32 8 32) m_GenericTestCases_gen_mem
  [ (mkCReq 1 0 4096 2 17, mkCResp 1 0 0 2 0);
    (mkCReq 1 2 8194 2 51, mkCResp 1 2 0 2 0);
    (mkCReq 0 0 4096 0 0, mkCResp 0 0 0 0 16908305);
    (mkCReq 0 2 8192 0 0, mkCResp 0 2 0 0 3394270) ].
(** blocking_cache/test/GenericTestCases.py 325-340: rd_data128_line128 *)
Definition GenericTestCases_rd_data128_line128 : dtest := mkT (mkParams 32 1 128 32 8 128) m_GenericTestCases_gen_mem
  [ (mkCReq 0 0 4096 0 0, mkCResp 0 0 0 0 17352961607815555452177156349616063236);
    (mkCReq 0 2 4096 1 0, mkCResp 0 2 1 1 4);
    (mkCReq 0 3 4097 1 0, mkCResp 0 3 1 1 3);
    (mkCReq 0 4 4096 2 0, mkCResp 0 4 1 2 772);
    (mkCReq 0 5 4098 2 0, mkCResp 0 5 1 2 258);
    (mkCReq 0 6 4096 4 0, mkCResp 0 6 1 4 16909060);
    (mkCReq 0 7 4104 4 0, mkCResp 0 7 1 4 151653132);
    (mkCReq 0 8 4096 8 0, mkCResp 0 8 1 8 361984551007945476);
    (mkCReq 0 9 4104 8 0, mkCResp 0 9 1 8 940705933712558860) ].
(** blocking_cache/test/GenericTestCases.py 342-357: wr_data128_line128 *)
Definition GenericTestCases_wr_data128_line128 : dtest := mkT (mkParams 32 1 128 32 8 128) m_GenericTestCases_gen_mem
  [ (mkCReq 1 0 4096 0 1512366075204170947332355369683137040, mkCResp 1 0 0 0 0);
    (mkCReq 0 1 4096 0 0, mkCResp 0 1 1 0 1512366075204170947332355369683137040);
    (mkCReq 1 2 4096 1 255, mkCResp 1 2 1 1 0);
    (mkCReq 0 3 4096 0 0, mkCResp 0 3 1 0 1512366075204170947332355369683137279);
    (mkCReq 1 4 4098 2 255, mkCResp 1 4 1 2 0);
    (mkCReq 0 5 4096 0 0, mkCResp 0 5 1 0 1512366075204170947332355367714632447);
    (mkCReq 1 6 4108 4 255, mkCResp 1 6 1 4 0);
    (mkCReq 0 7 4096 0 0, mkCResp 0 7 1 0 20245788586310350042794253300479);
    (mkCReq 1 8 4096 8 255, mkCResp 1 8 1 8 0);
    (mkCReq 0 9 4096 0 0, mkCResp 0 9 1 0 20245788586291985284251728740607) ].
(** blocking_cache/test/GenericTestCases.py 359-367: rd_data32_line64 *)
Definition GenericTestCases_rd_data32_line64 : dtest := mkT (mkParams 16 1 64 32 8 32) m_GenericTestCases_gen_mem
  [ (mkCReq 0 0 4096 0 0, mkCResp 0 0 0 0 16909060);
    (mkCReq 0 1 4100 0 0, mkCResp 0 1 1 0 84281096);
    (mkCReq 0 2 4104 0 0, mkCResp 0 2 0 0 151653132) ].
(** blocking_cache/test/GenericTestCases.py 373-380: rd_hit_1s *)
Definition GenericTestCases_rd_hit_1s : dtest := mkT (mkParams 32 2 64 32 8 32) m_GenericTestCases_gen_mem
  [ (mkCReq 2 0 0 0 3735928559, mkCResp 2 0 0 0 0);
    (mkCReq 0 3 0 0 0, mkCResp 0 3 1 0 3735928559) ].
(** blocking_cache/test/GenericTestCases.py 382-390: wr_hit_1s *)
Definition GenericTestCases_wr_hit_1s : dtest := mkT (mkParams 32 2 64 32 8 32) m_GenericTestCases_gen_mem
  [ (mkCReq 2 0 8304 0 200, mkCResp 2 0 0 0 0);
    (mkCReq 1 1 8304 0 78787, mkCResp 1 1 1 0 0);
    (mkCReq 0 2 8304 0 0, mkCResp 0 2 1 0 78787) ].
(** blocking_cache/test/GenericTestCases.py 392-399: wr_miss_1s *)
Definition GenericTestCases_wr_miss_1s : dtest := mkT (mkParams 32 2 64 32 8 32) m_GenericTestCases_gen_mem
  [ (mkCReq 1 1 8304 0 78787, mkCResp 1 1 0 0 0);
    (mkCReq 0 2 8304 0 0, mkCResp 0 2 1 0 78787) ].
(** blocking_cache/test/GenericTestCases.py 401-410: rd_hit_2s *)
Definition GenericTestCases_rd_hit_2s : dtest := mkT (mkParams 32 2 64 32 8 32) m_GenericTestCases_gen_mem
  [ (mkCReq 2 0 0 0 3735928559, mkCResp 2 0 0 0 0);
    (mkCReq 1 2 8192 0 212, mkCResp 1 2 0 0 0);
    (mkCReq 0 2 0 0 0, mkCResp 0 2 1 0 3735928559);
    (mkCReq 0 3 8192 0 0, mkCResp 0 3 1 0 212) ].
(** blocking_cache/test/GenericTestCases.py 412-423: wr_hit_2s *)
Definition GenericTestCases_wr_hit_2s : dtest := mkT (mkParams 32 2 64 32 8 32) m_GenericTestCases_gen_mem
  [ (mkCReq 2 1 0 0 44159, mkCResp 2 1 0 0 0);
    (mkCReq 1 2 0 0 141636688, mkCResp 1 2 1 0 0);
    (mkCReq 0 4 0 0 0, mkCResp 0 4 1 0 141636688);
    (mkCReq 1 3 4096 0 703710, mkCResp 1 3 0 0 0);
    (mkCReq 0 5 4096 0 0, mkCResp 0 5 1 0 703710);
    (mkCReq 0 5 0 0 0, mkCResp 0 5 1 0 141636688) ].
(** blocking_cache/test/GenericTestCases.py 425-434: wr_miss_2s *)
Definition GenericTestCases_wr_miss_2s : dtest := mkT (mkParams 32 2 64 32 8 32) m_GenericTestCases_gen_mem
  [ (mkCReq 1 2 0 0 141636688, mkCResp 1 2 0 0 0);
    (mkCReq 1 3 4096 0 703710, mkCResp 1 3 0 0 0);
    (mkCReq 0 4 0 0 0, mkCResp 0 4 1 0 141636688);
    (mkCReq 0 5 4096 0 0, mkCResp 0 5 1 0 703710) ].
(** blocking_cache/test/GenericTestCases.py 436-446: ev_2way *)
Definition GenericTestCases_ev_2way : dtest := mkT (mkParams 32 2 64 32 8 32) m_GenericTestCases_gen_mem
  [ (mkCReq 1 2 0 0 78787, mkCResp 1 2 0 0 0);
    (mkCReq 1 3 131072 0 12648430, mkCResp 1 3 0 0 0);
    (mkCReq 0 4 4096 0 0, mkCResp 0 4 0 0 16909060);
    (mkCReq 0 5 131072 0 0, mkCResp 0 5 1 0 12648430);
    (mkCReq 0 6 0 0 0, mkCResp 0 6 0 0 78787) ].
(** blocking_cache/test/GenericTestCases.py 448-498: long_msg_2way *)
Definition GenericTestCases_long_msg_2way : dtest := mkT (mkParams 4096 2 128 32 8 32) m_GenericTestCases_gen_mem
  [ (mkCReq 1 0 655360 0 4294967040, mkCResp 1 0 0 0 0);
    (mkCReq 1 1 655364 0 4294967041, mkCResp 1 1 1 0 0);
    (mkCReq 1 2 655368 0 4294967042, mkCResp 1 2 1 0 0);
    (mkCReq 1 3 655372 0 4294967043, mkCResp 1 3 1 0 0);
    (mkCReq 1 4 4096 0 4294967044, mkCResp 1 4 0 0 0);
    (mkCReq 1 5 4100 0 4294967045, mkCResp 1 5 1 0 0);
    (mkCReq 1 6 4104 0 4294967046, mkCResp 1 6 1 0 0);
    (mkCReq 1 7 4108 0 4294967047, mkCResp 1 7 1 0 0);
    (mkCReq 0 8 8192 0 0, mkCResp 0 8 0 0 16435934);
    (mkCReq 0 9 8196 0 0, mkCResp 0 9 1 0 97132013);
    (mkCReq 0 10 4100 0 0, mkCResp 0 10 1 0 4294967045);
    (mkCReq 1 11 4108 0 4294967049, mkCResp 1 11 1 0 0);
    (mkCReq 0 12 4108 0 0, mkCResp 0 12 1 0 4294967049);
    (mkCReq 0 13 655360 0 0, mkCResp 0 13 0 0 4294967040);
    (mkCReq 1 16 655472 0 4294967040, mkCResp 1 16 0 0 0);
    (mkCReq 1 17 655476 0 4294967041, mkCResp 1 17 1 0 0);
    (mkCReq 1 18 655480 0 4294967042, mkCResp 1 18 1 0 0);
    (mkCReq 1 19 655484 0 4294967043, mkCResp 1 19 1 0 0);
    (mkCReq 1 20 4208 0 4294967044, mkCResp 1 20 0 0 0);
    (mkCReq 1 21 4212 0 4294967045, mkCResp 1 21 1 0 0);
    (mkCReq 1 22 4216 0 4294967046, mkCResp 1 22 1 0 0);
    (mkCReq 1 23 4220 0 4294967047, mkCResp 1 23 1 0 0);
    (mkCReq 0 24 8304 0 0, mkCResp 0 24 0 0 1895484126);
    (mkCReq 0 25 8308 0 0, mkCResp 0 25 1 0 1976180205);
    (mkCReq 0 26 4212 0 0, mkCResp 0 26 1 0 4294967045);
    (mkCReq 1 27 4220 0 4294967049, mkCResp 1 27 1 0 0);
    (mkCReq 0 28 4220 0 0, mkCResp 0 28 1 0 4294967049);
    (mkCReq 0 29 655472 0 0, mkCResp 0 29 0 0 4294967040) ].
(** blocking_cache/test/GenericTestCases.py 500-507: dbw64_clw64 *)
Definition GenericTestCases_dbw64_clw64 : dtest := mkT (mkParams 32 2 64 32 8 64) m_GenericTestCases_gen_mem
  [ (mkCReq 1 0 4 4 1, mkCResp 1 0 0 4 0);
    (mkCReq 0 1 4 1 0, mkCResp 0 1 1 1 1) ].
(** blocking_cache/test/AmoTests.py 50-58: cifer_hypo1 (not run by the repository) *)
Definition AmoTests_cifer_hypo1 : dtest := mkT (mkParams 16 1 64 32 8 32) m_AmoTests_amo_mem
  [ (mkCReq 1 0 92 0 4095, mkCResp 1 0 0 0 0);
    (mkCReq 0 1 8 0 0, mkCResp 0 1 0 0 3);
    (mkCReq 0 2 96 0 0, mkCResp 0 2 0 0 10) ].
(** blocking_cache/test/AmoTests.py 60-68: subword *)
Definition AmoTests_subword : dtest := mkT (mkParams 32 1 128 32 8 32) m_AmoTests_amo_mem
  [ (mkCReq 1 0 0 1 1, mkCResp 1 0 0 1 0);
    (mkCReq 3 1 0 0 2, mkCResp 3 1 0 0 1);
    (mkCReq 0 2 0 0 0, mkCResp 0 2 0 0 3) ].
(** blocking_cache/test/AmoTests.py 70-78: amo_read *)
Definition AmoTests_amo_read : dtest := mkT (mkParams 16 1 64 32 8 32) m_AmoTests_amo_mem
  [ (mkCReq 0 0 0 0 0, mkCResp 0 0 0 0 1);
    (mkCReq 3 1 0 0 16, mkCResp 3 1 0 0 1);
    (mkCReq 0 2 0 0 0, mkCResp 0 2 0 0 17) ].
(** blocking_cache/test/AmoTests.py 80-95: line_1way *)
Definition AmoTests_line_1way : dtest := mkT (mkParams 32 1 128 32 8 32) m_AmoTests_amo_mem
  [ (mkCReq 1 0 0 0 15, mkCResp 1 0 0 0 0);
    (mkCReq 3 1 0 0 16, mkCResp 3 1 0 0 15);
    (mkCReq 0 2 0 0 0, mkCResp 0 2 0 0 31);
    (mkCReq 1 0 4 0 240, mkCResp 1 0 1 0 0);
    (mkCReq 3 3 4 0 3, mkCResp 3 3 0 0 240);
    (mkCReq 0 4 4 0 0, mkCResp 0 4 0 0 243);
    (mkCReq 3 5 8 0 4, mkCResp 3 5 0 0 3);
    (mkCReq 0 6 8 0 0, mkCResp 0 6 0 0 7);
    (mkCReq 3 5 12 0 5, mkCResp 3 5 0 0 4);
    (mkCReq 0 6 12 0 0, mkCResp 0 6 0 0 9) ].
(** blocking_cache/test/AmoTests.py 97-105: diff_tag *)
Definition AmoTests_diff_tag : dtest := mkT (mkParams 64 2 128 32 8 32) m_AmoTests_amo_mem
  [ (mkCReq 1 1 0 0 255, mkCResp 1 1 0 0 0);
    (mkCReq 3 2 131072 0 1, mkCResp 3 2 0 0 5);
    (mkCReq 0 3 0 0 0, mkCResp 0 3 1 0 255) ].
(** blocking_cache/test/AmoTests.py 108-119: line_2way *)
Definition AmoTests_line_2way : dtest := mkT (mkParams 64 2 128 32 8 32) m_AmoTests_amo_mem
  [ (mkCReq 1 1 0 0 255, mkCResp 1 1 0 0 0);
    (mkCReq 3 2 131072 0 1, mkCResp 3 2 0 0 5);
    (mkCReq 1 2 196608 0 31, mkCResp 1 2 0 0 0);
    (mkCReq 0 2 0 0 0, mkCResp 0 2 1 0 255);
    (mkCReq 0 2 196608 0 0, mkCResp 0 2 1 0 31);
    (mkCReq 0 2 131072 0 0, mkCResp 0 2 0 0 6) ].
(** blocking_cache/test/AmoTests.py 121-129: amo_ad *)
Definition AmoTests_amo_ad : dtest := mkT (mkParams 16 1 64 32 8 32) m_AmoTests_amo_mem
  [ (mkCReq 3 0 4 0 1, mkCResp 3 0 0 0 2);
    (mkCReq 0 1 0 0 0, mkCResp 0 1 0 0 1);
    (mkCReq 0 2 4 0 0, mkCResp 0 2 1 0 3) ].
(** blocking_cache/test/AmoTests.py 131-139: amo_an *)
Definition AmoTests_amo_an : dtest := mkT (mkParams 16 1 64 32 8 32) m_AmoTests_amo_mem
  [ (mkCReq 4 0 4 0 1, mkCResp 4 0 0 0 2);
    (mkCReq 0 1 0 0 0, mkCResp 0 1 0 0 1);
    (mkCReq 0 2 4 0 0, mkCResp 0 2 1 0 0) ].
(** blocking_cache/test/AmoTests.py 141-149: amo_or *)
Definition AmoTests_amo_or : dtest := mkT (mkParams 16 1 64 32 8 32) m_AmoTests_amo_mem
  [ (mkCReq 5 0 4 0 1, mkCResp 5 0 0 0 2);
    (mkCReq 0 1 0 0 0, mkCResp 0 1 0 0 1);
    (mkCReq 0 2 4 0 0, mkCResp 0 2 1 0 3) ].
(** blocking_cache/test/AmoTests.py 151-159: amo_sw *)
Definition AmoTests_amo_sw : dtest := mkT (mkParams 16 1 64 32 8 32) m_AmoTests_amo_mem
  [ (mkCReq 6 0 4 0 15, mkCResp 6 0 0 0 2);
    (mkCReq 0 1 0 0 0, mkCResp 0 1 0 0 1);
    (mkCReq 0 2 4 0 0, mkCResp 0 2 1 0 15) ].
(** blocking_cache/test/AmoTests.py 161-169: amo_mi *)
Definition AmoTests_amo_mi : dtest := mkT (mkParams 16 1 64 32 8 32) m_AmoTests_amo_mem
  [ (mkCReq 7 0 4 0 4294967295, mkCResp 7 0 0 0 2);
    (mkCReq 0 1 0 0 0, mkCResp 0 1 0 0 1);
    (mkCReq 0 2 4 0 0, mkCResp 0 2 1 0 4294967295) ].
(** blocking_cache/test/AmoTests.py 171-179: amo_mu *)
Definition AmoTests_amo_mu : dtest := mkT (mkParams 16 1 64 32 8 32) m_AmoTests_amo_mem
  [ (mkCReq 8 0 4 0 1, mkCResp 8 0 0 0 2);
    (mkCReq 0 1 0 0 0, mkCResp 0 1 0 0 1);
    (mkCReq 0 2 4 0 0, mkCResp 0 2 1 0 1) ].
(** blocking_cache/test/AmoTests.py 181-189: amo_mx *)
Definition AmoTests_amo_mx : dtest := mkT (mkParams 16 1 64 32 8 32) m_AmoTests_amo_mem
  [ (mkCReq 9 0 4 0 2147483647, mkCResp 9 0 0 0 2);
    (mkCReq 0 1 0 0 0, mkCResp 0 1 0 0 1);
    (mkCReq 0 2 4 0 0, mkCResp 0 2 1 0 2147483647) ].
(** blocking_cache/test/AmoTests.py 191-199: amo_xu *)
Definition AmoTests_amo_xu : dtest := mkT (mkParams 16 1 64 32 8 32) m_AmoTests_amo_mem
  [ (mkCReq 10 0 4 0 4294967295, mkCResp 10 0 0 0 2);
    (mkCReq 0 1 0 0 0, mkCResp 0 1 0 0 1);
    (mkCReq 0 2 4 0 0, mkCResp 0 2 1 0 4294967295) ].
(** blocking_cache/test/AmoTests.py 201-209: amo_xo *)
Definition AmoTests_amo_xo : dtest := mkT (mkParams 16 1 64 32 8 32) m_AmoTests_amo_mem
  [ (mkCReq 11 0 4 0 2, mkCResp 11 0 0 0 2);
    (mkCReq 0 1 0 0 0, mkCResp 0 1 0 0 1);
    (mkCReq 0 2 4 0 0, mkCResp 0 2 1 0 0) ].
(** blocking_cache/test/AmoTests.py 211-219: same_line *)
Definition AmoTests_same_line : dtest := mkT (mkParams 32 1 128 32 8 32) m_AmoTests_amo_mem
  [ (mkCReq 1 1 0 0 255, mkCResp 1 1 0 0 0);
    (mkCReq 3 2 4 0 1, mkCResp 3 2 0 0 2);
    (mkCReq 0 3 0 0 0, mkCResp 0 3 0 0 255) ].
(** blocking_cache/test/AmoTests.py 221-231: amo_hypo2 *)
Definition AmoTests_amo_hypo2 : dtest := mkT (mkParams 64 2 128 32 8 32) m_AmoTests_amo_mem
  [ (mkCReq 0 0 0 0 0, mkCResp 0 0 0 0 1);
    (mkCReq 3 1 0 0 0, mkCResp 3 1 0 0 1);
    (mkCReq 1 2 0 0 0, mkCResp 1 2 0 0 0);
    (mkCReq 3 3 0 0 0, mkCResp 3 3 0 0 0);
    (mkCReq 0 4 0 0 0, mkCResp 0 4 0 0 0) ].
(** blocking_cache/test/AmoTests.py 233-242: amo_hypo3 *)
Definition AmoTests_amo_hypo3 : dtest := mkT (mkParams 64 2 128 32 8 32) m_AmoTests_amo_mem
  [ (mkCReq 0 0 0 0 0, mkCResp 0 0 0 0 1);
    (mkCReq 1 1 16 0 0, mkCResp 1 1 0 0 0);
    (mkCReq 3 2 16 0 0, mkCResp 3 2 0 0 0);
    (mkCReq 0 3 0 0 0, mkCResp 0 3 1 0 1) ].
(** blocking_cache/test/AmoTests.py 244-253: amo_hypo4 *)
Definition AmoTests_amo_hypo4 : dtest := mkT (mkParams 32 2 64 32 8 32) m_AmoTests_amo_mem
  [ (mkCReq 1 0 16 0 0, mkCResp 1 0 0 0 0);
    (mkCReq 0 1 0 0 0, mkCResp 0 1 0 0 1);
    (mkCReq 3 2 16 0 0, mkCResp 3 2 0 0 0);
    (mkCReq 0 3 0 0 0, mkCResp 0 3 1 0 1) ].
(** blocking_cache/test/AmoTests.py 255-265: amo_hypo5 *)
Definition AmoTests_amo_hypo5 : dtest := mkT (mkParams 64 2 128 32 8 32) m_AmoTests_amo_mem
  [ (mkCReq 0 0 16 0 0, mkCResp 0 0 0 0 17);
    (mkCReq 0 1 48 0 0, mkCResp 0 1 0 0 49);
    (mkCReq 3 2 16 0 0, mkCResp 3 2 0 0 17);
    (mkCReq 0 3 16 0 0, mkCResp 0 3 0 0 17);
    (mkCReq 0 4 48 0 0, mkCResp 0 4 1 0 49) ].
(** blocking_cache/test/AmoTests.py 267-277: amo_hypo6 *)
Definition AmoTests_amo_hypo6 : dtest := mkT (mkParams 64 2 128 32 8 32) m_AmoTests_amo_mem
  [ (mkCReq 0 0 16 0 0, mkCResp 0 0 0 0 17);
    (mkCReq 0 1 48 0 0, mkCResp 0 1 0 0 49);
    (mkCReq 3 2 48 0 1, mkCResp 3 2 0 0 49);
    (mkCReq 0 3 48 0 0, mkCResp 0 3 0 0 50);
    (mkCReq 0 4 16 0 0, mkCResp 0 4 1 0 17) ].
(** blocking_cache/test/InvFlushTests.py 53-68: invalidation_short *)
Definition InvFlushTests_invalidation_short : dtest := mkT (mkParams 256 2 128 32 8 32) m_InvFlushTests_inv_flush_mem
  [ (mkCReq 0 1 0 0 0, mkCResp 0 1 0 0 1);
    (mkCReq 0 2 16 0 0, mkCResp 0 2 0 0 17);
    (mkCReq 0 3 32 0 0, mkCResp 0 3 0 0 33);
    (mkCReq 0 4 0 0 0, mkCResp 0 4 1 0 1);
    (mkCReq 0 5 16 0 0, mkCResp 0 5 1 0 17);
    (mkCReq 0 6 32 0 0, mkCResp 0 6 1 0 33);
    (mkCReq 14 7 0 0 0, mkCResp 14 7 0 0 0);
    (mkCReq 0 8 0 0 0, mkCResp 0 8 0 0 1);
    (mkCReq 0 9 16 0 0, mkCResp 0 9 0 0 17);
    (mkCReq 0 10 32 0 0, mkCResp 0 10 0 0 33) ].
(** blocking_cache/test/InvFlushTests.py 70-80: inv_evict_short *)
Definition InvFlushTests_inv_evict_short : dtest := mkT (mkParams 256 2 128 32 8 32) m_InvFlushTests_inv_flush_mem
  [ (mkCReq 1 1 20 0 12648430, mkCResp 1 1 0 0 0);
    (mkCReq 0 2 131092 0 0, mkCResp 0 2 0 0 10);
    (mkCReq 14 3 0 0 0, mkCResp 14 3 0 0 0);
    (mkCReq 0 4 196628 0 0, mkCResp 0 4 0 0 3003);
    (mkCReq 0 5 20 0 0, mkCResp 0 5 0 0 12648430) ].
(** blocking_cache/test/InvFlushTests.py 82-104: invalidation_medium *)
Definition InvFlushTests_invalidation_medium : dtest := mkT (mkParams 256 2 128 32 8 32) m_InvFlushTests_inv_flush_mem
  [ (mkCReq 0 1 0 0 0, mkCResp 0 1 0 0 1);
    (mkCReq 0 2 16 0 0, mkCResp 0 2 0 0 17);
    (mkCReq 0 3 32 0 0, mkCResp 0 3 0 0 33);
    (mkCReq 0 4 0 0 0, mkCResp 0 4 1 0 1);
    (mkCReq 0 5 16 0 0, mkCResp 0 5 1 0 17);
    (mkCReq 0 6 32 0 0, mkCResp 0 6 1 0 33);
    (mkCReq 14 7 0 0 0, mkCResp 14 7 0 0 0);
    (mkCReq 0 8 0 0 0, mkCResp 0 8 0 0 1);
    (mkCReq 0 9 16 0 0, mkCResp 0 9 0 0 17);
    (mkCReq 0 10 32 0 0, mkCResp 0 10 0 0 33);
    (mkCReq 0 11 0 0 0, mkCResp 0 11 1 0 1);
    (mkCReq 0 12 16 0 0, mkCResp 0 12 1 0 17);
    (mkCReq 0 13 32 0 0, mkCResp 0 13 1 0 33);
    (mkCReq 14 14 0 0 0, mkCResp 14 14 0 0 0);
    (mkCReq 0 15 0 0 0, mkCResp 0 15 0 0 1);
    (mkCReq 0 16 16 0 0, mkCResp 0 16 0 0 17);
    (mkCReq 0 17 32 0 0, mkCResp 0 17 0 0 33) ].
(** blocking_cache/test/InvFlushTests.py 106-120: flush_short *)
Definition InvFlushTests_flush_short : dtest := mkT (mkParams 256 2 128 32 8 32) m_InvFlushTests_inv_flush_mem
  [ (mkCReq 0 1 0 0 0, mkCResp 0 1 0 0 1);
    (mkCReq 1 2 16 0 3735928559, mkCResp 1 2 0 0 0);
    (mkCReq 0 3 32 0 0, mkCResp 0 3 0 0 33);
    (mkCReq 1 4 48 0 12648430, mkCResp 1 4 0 0 0);
    (mkCReq 15 5 0 0 0, mkCResp 15 5 0 0 0);
    (mkCReq 0 6 0 0 0, mkCResp 0 6 1 0 1);
    (mkCReq 0 7 16 0 0, mkCResp 0 7 1 0 3735928559);
    (mkCReq 0 8 32 0 0, mkCResp 0 8 1 0 33);
    (mkCReq 0 9 48 0 0, mkCResp 0 9 1 0 12648430) ].
(** blocking_cache/test/InvFlushTests.py 122-131: flush_last_line1 *)
Definition InvFlushTests_flush_last_line1 : dtest := mkT (mkParams 32 1 128 32 8 32) m_InvFlushTests_inv_flush_mem
  [ (mkCReq 1 1 0 0 1, mkCResp 1 1 0 0 0);
    (mkCReq 15 2 0 0 0, mkCResp 15 2 0 0 0);
    (mkCReq 0 3 0 0 0, mkCResp 0 3 1 0 1) ].
(** blocking_cache/test/InvFlushTests.py 133-144: flush_last_line2 *)
Definition InvFlushTests_flush_last_line2 : dtest := mkT (mkParams 32 1 128 32 8 32) m_InvFlushTests_inv_flush_mem
  [ (mkCReq 1 1 0 0 1, mkCResp 1 1 0 0 0);
    (mkCReq 1 2 16 0 2, mkCResp 1 2 0 0 0);
    (mkCReq 15 3 0 0 0, mkCResp 15 3 0 0 0);
    (mkCReq 0 4 0 0 0, mkCResp 0 4 1 0 1);
    (mkCReq 0 5 16 0 0, mkCResp 0 5 1 0 2) ].
(** blocking_cache/test/InvFlushTests.py 146-161: inv_flush_short *)
Definition InvFlushTests_inv_flush_short : dtest := mkT (mkParams 256 2 128 32 8 32) m_InvFlushTests_inv_flush_mem
  [ (mkCReq 0 1 0 0 0, mkCResp 0 1 0 0 1);
    (mkCReq 1 2 16 0 3735928559, mkCResp 1 2 0 0 0);
    (mkCReq 0 3 32 0 0, mkCResp 0 3 0 0 33);
    (mkCReq 1 4 48 0 12648430, mkCResp 1 4 0 0 0);
    (mkCReq 15 5 0 0 0, mkCResp 15 5 0 0 0);
    (mkCReq 14 6 0 0 0, mkCResp 14 6 0 0 0);
    (mkCReq 0 7 0 0 0, mkCResp 0 7 0 0 1);
    (mkCReq 0 8 16 0 0, mkCResp 0 8 0 0 3735928559);
    (mkCReq 0 9 32 0 0, mkCResp 0 9 0 0 33);
    (mkCReq 0 10 48 0 0, mkCResp 0 10 0 0 12648430) ].
(** blocking_cache/test/InvFlushTests.py 163-171: inv_simple1 *)
Definition InvFlushTests_inv_simple1 : dtest := mkT (mkParams 64 2 128 32 8 32) m_InvFlushTests_inv_flush_mem
  [ (mkCReq 1 1 0 0 255, mkCResp 1 1 0 0 0);
    (mkCReq 14 2 0 0 0, mkCResp 14 2 0 0 0);
    (mkCReq 0 3 0 0 0, mkCResp 0 3 0 0 255) ].
(** blocking_cache/test/InvFlushTests.py 173-181: inv_simple2 *)
Definition InvFlushTests_inv_simple2 : dtest := mkT (mkParams 64 2 128 32 8 32) m_InvFlushTests_inv_flush_mem
  [ (mkCReq 0 1 0 0 0, mkCResp 0 1 0 0 1);
    (mkCReq 14 2 0 0 0, mkCResp 14 2 0 0 0);
    (mkCReq 0 3 0 0 0, mkCResp 0 3 0 0 1) ].
(** blocking_cache/test/InvFlushTests.py 183-193: inv_simple3 *)
Definition InvFlushTests_inv_simple3 : dtest := mkT (mkParams 64 2 128 32 8 32) m_InvFlushTests_inv_flush_mem
  [ (mkCReq 1 1 0 0 255, mkCResp 1 1 0 0 0);
    (mkCReq 14 2 0 0 0, mkCResp 14 2 0 0 0);
    (mkCReq 1 3 4 0 34, mkCResp 1 3 0 0 0);
    (mkCReq 0 4 0 0 0, mkCResp 0 4 1 0 255);
    (mkCReq 0 4 4 0 0, mkCResp 0 4 1 0 34) ].
(** blocking_cache/test/InvFlushTests.py 195-205: inv_refill_short1 *)
Definition InvFlushTests_inv_refill_short1 : dtest := mkT (mkParams 64 2 128 32 8 32) m_InvFlushTests_inv_flush_mem
  [ (mkCReq 1 1 20 0 12648430, mkCResp 1 1 0 0 0);
    (mkCReq 1 2 28 0 3735928559, mkCResp 1 2 1 0 0);
    (mkCReq 14 3 0 0 0, mkCResp 14 3 0 0 0);
    (mkCReq 0 4 20 0 0, mkCResp 0 4 0 0 12648430);
    (mkCReq 0 5 28 0 0, mkCResp 0 5 1 0 3735928559) ].
(** blocking_cache/test/InvFlushTests.py 207-218: inv_refill_short2 *)
Definition InvFlushTests_inv_refill_short2 : dtest := mkT (mkParams 64 2 128 32 8 32) m_InvFlushTests_inv_flush_mem
  [ (mkCReq 1 1 0 0 1, mkCResp 1 1 0 0 0);
    (mkCReq 1 2 131072 0 2, mkCResp 1 2 0 0 0);
    (mkCReq 14 3 0 0 0, mkCResp 14 3 0 0 0);
    (mkCReq 0 4 0 0 0, mkCResp 0 4 0 0 1);
    (mkCReq 0 5 131072 0 0, mkCResp 0 5 0 0 2);
    (mkCReq 0 6 131076 0 0, mkCResp 0 6 1 0 6) ].
(** blocking_cache/test/InvFlushTests.py 220-231: inv_refill_short3 *)
Definition InvFlushTests_inv_refill_short3 : dtest := mkT (mkParams 64 2 128 32 8 32) m_InvFlushTests_inv_flush_mem
  [ (mkCReq 1 1 0 0 1, mkCResp 1 1 0 0 0);
    (mkCReq 1 2 131072 0 2, mkCResp 1 2 0 0 0);
    (mkCReq 14 3 0 0 0, mkCResp 14 3 0 0 0);
    (mkCReq 0 4 131072 0 0, mkCResp 0 4 0 0 2);
    (mkCReq 0 5 0 0 0, mkCResp 0 5 0 0 1);
    (mkCReq 0 6 131076 0 0, mkCResp 0 6 1 0 6) ].
(** blocking_cache/test/InvFlushTests.py 233-245: inv_refill_short4 *)
Definition InvFlushTests_inv_refill_short4 : dtest := mkT (mkParams 64 2 128 32 8 32) m_InvFlushTests_inv_flush_mem
  [ (mkCReq 1 1 0 0 12648430, mkCResp 1 1 0 0 0);
    (mkCReq 1 2 12 0 3735928559, mkCResp 1 2 1 0 0);
    (mkCReq 14 3 0 0 0, mkCResp 14 3 0 0 0);
    (mkCReq 1 4 131072 0 1, mkCResp 1 4 0 0 0);
    (mkCReq 0 5 12 0 0, mkCResp 0 5 0 0 3735928559);
    (mkCReq 0 6 0 0 0, mkCResp 0 6 1 0 12648430);
    (mkCReq 0 7 131072 0 0, mkCResp 0 7 1 0 1) ].
(** blocking_cache/test/InvFlushTests.py 248-260: inv_refill1 *)
Definition InvFlushTests_inv_refill1 : dtest := mkT (mkParams 64 2 128 32 8 32) m_InvFlushTests_inv_flush_mem
  [ (mkCReq 1 1 0 0 12648430, mkCResp 1 1 0 0 0);
    (mkCReq 1 2 131084 0 3735928559, mkCResp 1 2 0 0 0);
    (mkCReq 14 3 0 0 0, mkCResp 14 3 0 0 0);
    (mkCReq 0 4 0 0 0, mkCResp 0 4 0 0 12648430);
    (mkCReq 0 5 196608 0 0, mkCResp 0 5 0 0 13);
    (mkCReq 0 7 0 0 0, mkCResp 0 7 1 0 12648430);
    (mkCReq 0 6 131084 0 0, mkCResp 0 6 0 0 3735928559) ].
(** blocking_cache/test/InvFlushTests.py 263-273: inv_refill2 *)
Definition InvFlushTests_inv_refill2 : dtest := mkT (mkParams 64 2 128 32 8 32) m_InvFlushTests_inv_flush_mem
  [ (mkCReq 1 1 0 0 12648430, mkCResp 1 1 0 0 0);
    (mkCReq 1 2 131084 0 3735928559, mkCResp 1 2 0 0 0);
    (mkCReq 14 3 0 0 0, mkCResp 14 3 0 0 0);
    (mkCReq 3 4 0 0 1, mkCResp 3 4 0 0 12648430);
    (mkCReq 0 5 0 0 0, mkCResp 0 5 0 0 12648431) ].
(** blocking_cache/test/InvFlushTests.py 276-287: inv_refill3 *)
Definition InvFlushTests_inv_refill3 : dtest := mkT (mkParams 64 2 128 32 8 32) m_InvFlushTests_inv_flush_mem
  [ (mkCReq 1 1 0 0 12648430, mkCResp 1 1 0 0 0);
    (mkCReq 1 2 131072 0 1, mkCResp 1 2 0 0 0);
    (mkCReq 14 3 0 0 0, mkCResp 14 3 0 0 0);
    (mkCReq 3 4 131072 0 16, mkCResp 3 4 0 0 1);
    (mkCReq 0 5 0 0 0, mkCResp 0 5 0 0 12648430);
    (mkCReq 0 6 131072 0 0, mkCResp 0 6 0 0 17) ].
(** blocking_cache/test/InvFlushTests.py 290-301: inv_refill4 *)
Definition InvFlushTests_inv_refill4 : dtest := mkT (mkParams 64 2 128 32 8 32) m_InvFlushTests_inv_flush_mem
  [ (mkCReq 1 1 0 0 12648430, mkCResp 1 1 0 0 0);
    (mkCReq 1 2 131072 0 1, mkCResp 1 2 0 0 0);
    (mkCReq 3 4 131072 0 16, mkCResp 3 4 0 0 1);
    (mkCReq 14 3 0 0 0, mkCResp 14 3 0 0 0);
    (mkCReq 0 5 0 0 0, mkCResp 0 5 0 0 12648430);
    (mkCReq 0 6 131072 0 0, mkCResp 0 6 0 0 17) ].
(** blocking_cache/test/InvFlushTests.py 304-312: inv_refill5 *)
Definition InvFlushTests_inv_refill5 : dtest := mkT (mkParams 32 1 128 32 8 32) m_InvFlushTests_inv_flush_mem
  [ (mkCReq 1 1 14 2 65518, mkCResp 1 1 0 2 0);
    (mkCReq 14 2 0 0 0, mkCResp 14 2 0 0 0);
    (mkCReq 0 3 14 2 0, mkCResp 0 3 0 2 65518) ].
(** blocking_cache/test/InvFlushTests.py 314-322: hypo_1 *)
Definition InvFlushTests_hypo_1 : dtest := mkT (mkParams 32 1 128 32 8 32) m_InvFlushTests_inv_flush_mem
  [ (mkCReq 15 0 0 0 0, mkCResp 15 0 0 0 0);
    (mkCReq 15 1 0 0 0, mkCResp 15 1 0 0 0) ].
(** blocking_cache/test/InvFlushTests.py 324-335: hypo_2 *)
Definition InvFlushTests_hypo_2 : dtest := mkT (mkParams 32 1 128 32 8 32) m_InvFlushTests_inv_flush_mem
  [ (mkCReq 1 0 0 0 10, mkCResp 1 0 0 0 0);
    (mkCReq 14 1 0 0 0, mkCResp 14 1 0 0 0);
    (mkCReq 0 2 0 0 0, mkCResp 0 2 0 0 10);
    (mkCReq 14 3 0 0 0, mkCResp 14 3 0 0 0);
    (mkCReq 0 4 0 0 0, mkCResp 0 4 0 0 10) ].
(** blocking_cache/test/InvFlushTests.py 337-345: hypo_test *)
Definition InvFlushTests_hypo_test : dtest := mkT (mkParams 32 2 64 32 8 64) m_InvFlushTests_inv_flush_mem
  [ (mkCReq 7 0 196624 4 0, mkCResp 7 0 0 4 2730);
    (mkCReq 3 1 196624 4 0, mkCResp 3 1 0 4 0) ].
(** blocking_cache/test/OtherCiferTests.py 51-72: len3_short *)
Definition OtherCiferTests_len3_short : dtest := mkT (mkParams 4096 2 128 32 8 32) m_OtherCiferTests_inv_flush_mem
  [ (mkCReq 0 1 131088 0 0, mkCResp 0 1 0 0 9);
    (mkCReq 0 2 131092 0 0, mkCResp 0 2 1 0 10);
    (mkCReq 1 3 131088 0 57005, mkCResp 1 3 1 0 0);
    (mkCReq 0 4 131088 0 0, mkCResp 0 4 1 0 57005);
    (mkCReq 0 5 131092 0 0, mkCResp 0 5 1 0 10);
    (mkCReq 1 6 131088 3 48879, mkCResp 1 6 1 3 0);
    (mkCReq 0 7 131088 0 0, mkCResp 0 7 1 0 48879);
    (mkCReq 0 8 131092 0 0, mkCResp 0 8 1 0 0);
    (mkCReq 0 9 196632 0 0, mkCResp 0 9 0 0 3735928559);
    (mkCReq 0 10 196636 0 0, mkCResp 0 10 1 0 4290838510);
    (mkCReq 1 11 196632 0 4293984240, mkCResp 1 11 1 0 0);
    (mkCReq 0 12 196632 0 0, mkCResp 0 12 1 0 4293984240);
    (mkCReq 0 13 196636 0 0, mkCResp 0 13 1 0 4290838510);
    (mkCReq 1 14 196632 3 3735936685, mkCResp 1 14 1 3 0);
    (mkCReq 0 15 196632 0 0, mkCResp 0 15 1 0 3735936685);
    (mkCReq 0 16 196636 0 0, mkCResp 0 16 1 0 0) ].
Definition tests_GenericTestCases : list dtest :=
  [GenericTestCases_rd_hit_1wd; GenericTestCases_rd_hit_many; GenericTestCases_rd_hit_cline; GenericTestCases_wr_hit_clean; GenericTestCases_wr_hit_dirty; GenericTestCases_wr_hit_rd_hit; GenericTestCases_rd_miss_1wd_cn; GenericTestCases_wr_miss_1wd_cn; GenericTestCases_rd_miss_dty; GenericTestCases_rd_ev_1wd; GenericTestCases_long_msg_1way; GenericTestCases_rd_hit_1b; GenericTestCases_wr_hit_1b; GenericTestCases_rd_miss_1b; GenericTestCases_wr_miss_1b; GenericTestCases_rd_hit_2b; GenericTestCases_wr_hit_2b; GenericTestCases_rd_miss_2b; GenericTestCases_wr_miss_2b; GenericTestCases_rd_data128_line128; GenericTestCases_wr_data128_line128; GenericTestCases_rd_data32_line64; GenericTestCases_rd_hit_1s; GenericTestCases_wr_hit_1s; GenericTestCases_wr_miss_1s; GenericTestCases_rd_hit_2s; GenericTestCases_wr_hit_2s; GenericTestCases_wr_miss_2s; GenericTestCases_ev_2way; GenericTestCases_long_msg_2way; GenericTestCases_dbw64_clw64].
Definition tests_AmoTests : list dtest :=
  [AmoTests_subword; AmoTests_amo_read; AmoTests_line_1way; AmoTests_diff_tag; AmoTests_line_2way; AmoTests_amo_ad; AmoTests_amo_an; AmoTests_amo_or; AmoTests_amo_sw; AmoTests_amo_mi; AmoTests_amo_mu; AmoTests_amo_mx; AmoTests_amo_xu; AmoTests_amo_xo; AmoTests_same_line; AmoTests_amo_hypo2; AmoTests_amo_hypo3; AmoTests_amo_hypo4; AmoTests_amo_hypo5; AmoTests_amo_hypo6].
Definition tests_InvFlushTests : list dtest :=
  [InvFlushTests_invalidation_short; InvFlushTests_inv_evict_short; InvFlushTests_invalidation_medium; InvFlushTests_flush_short; InvFlushTests_flush_last_line1; InvFlushTests_flush_last_line2; InvFlushTests_inv_flush_short; InvFlushTests_inv_simple1; InvFlushTests_inv_simple2; InvFlushTests_inv_simple3; InvFlushTests_inv_refill_short1; InvFlushTests_inv_refill_short2; InvFlushTests_inv_refill_short3; InvFlushTests_inv_refill_short4; InvFlushTests_inv_refill1; InvFlushTests_inv_refill2; InvFlushTests_inv_refill3; InvFlushTests_inv_refill4; InvFlushTests_inv_refill5; InvFlushTests_hypo_1; InvFlushTests_hypo_2; InvFlushTests_hypo_test].
Definition tests_OtherCiferTests : list dtest :=
  [OtherCiferTests_len3_short].
Definition tests_unused : list dtest :=
  [AmoTests_cifer_hypo1].
