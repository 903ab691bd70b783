(** The unit tests of the repository (tests/test_*.py) on the model. The files they read are the texts
    below, loaded with [load_text].  Tests that need Gurobi are not here. *)
From Verif Require Import Base Spec Instance OptModels Initial Bounds Refine Merge Knapsack Violations BigM Adaptive Ex Text.
From Coq Require Import Ascii String.
Local Open Scope nat_scope.
Local Open Scope list_scope.

(** tests/files-for-tests/ccmknap-2-2-5.csv *)
Definition f225 : string :=
"2,2,5
-1.0,-1.0
-1.5848,2.3585
-0.695,-2.0189
-1.783,1.9145
-0.5184,-1.825
-1.4579,1.3589
-1.0648,-2.2731
-1.8664,2.0737
-0.6048,-1.2414
-2.3417,1.4411
-1.1,-1.891
-0.355,-2.0
".

(** tests/files-for-tests/ccmknap-6-10-5.csv *)
Definition f6105 : string :=
"6,10,5,3800
100.0,600.0,1200.0,2400.0,500.0,2000.0
8.5261,11.8397,13.3373,62.4495,24.1286,41.2284
7.5835,11.9735,12.8315,90.0719,18.0926,45.4176
3.1547,6.5192,4.4625,17.6761,6.212,3.7281
4.2248,9.9783,8.0187,28.5214,5.7528,12.355
4.1615,14.7955,8.5881,38.9014,6.4504,22.4994
4.9078,11.8094,8.0013,50.3129,6.4505,19.8353
0.0,0.0,0.0,0.0,8.5337,0.0
3.3499,0.0,3.7387,0.0,8.3217,0.0
3.4796,2.117,4.2052,0.0,7.9316,3.6394
2.6275,2.0905,3.6715,7.8495,8.8261,3.817
8.3724,10.9111,14.9003,78.5605,19.3014,0.0
8.0471,9.5267,11.9253,69.1535,21.1707,0.0
2.6769,5.3828,3.862,18.9361,6.0313,0.0
4.8479,8.9136,8.0223,31.8631,6.5568,0.0
5.4217,14.3308,6.7009,35.4751,6.0885,0.0
4.7369,14.1636,7.5303,59.9353,5.0918,0.0
0.0,0.0,0.0,0.0,6.8219,0.0
3.3851,0.0,3.9451,0.0,8.4066,0.0
3.3548,1.6779,4.0253,0.0,8.2171,0.0
2.6554,1.9441,4.5076,7.7083,8.8505,0.0
8.3374,13.019,13.0499,67.7294,24.2584,42.1455
8.6652,10.5634,13.846,76.737,23.5743,47.5754
3.41,5.5301,4.1412,14.289,5.2901,2.7687
5.7394,9.018,7.7153,35.6823,6.3043,11.1648
4.3574,12.6999,8.0284,41.1299,5.2965,20.6904
5.3074,13.3213,7.0118,49.1058,5.5355,21.3563
0.0,0.0,0.0,0.0,9.9247,0.0
2.5851,0.0,4.5683,0.0,8.1142,0.0
3.2016,1.909,4.2922,0.0,9.0584,4.3591
3.7929,2.1497,4.6241,7.3294,9.2431,4.3142
8.1841,11.7846,15.5186,68.3488,24.6347,0.0
9.0568,11.7583,13.6906,60.4606,24.1183,0.0
3.1744,6.1058,3.4227,17.4788,6.6504,0.0
6.0021,9.5668,8.043,30.7466,4.706,0.0
5.2378,14.124,5.2907,45.7069,5.2983,0.0
5.791,10.6531,7.6283,37.9217,6.4943,0.0
0.0,0.0,0.0,0.0,8.0311,0.0
3.0788,0.0,3.8025,0.0,7.7712,0.0
2.655,1.9297,4.0967,0.0,7.4852,0.0
3.4187,2.0514,3.7924,8.468,6.4113,0.0
6.6738,14.2204,0.0,73.5703,22.0612,0.0
7.8188,13.8583,0.0,75.3577,23.3643,0.0
3.1884,6.4044,0.0,17.8496,6.6774,0.0
5.1997,9.9364,0.0,25.9983,6.3276,0.0
3.7316,12.4888,0.0,37.7386,5.0703,0.0
4.2685,13.3999,0.0,44.76,7.2354,0.0
0.0,0.0,0.0,0.0,9.0713,0.0
3.4499,0.0,0.0,0.0,7.9822,0.0
3.243,1.6833,0.0,0.0,7.952,0.0
3.0204,1.8261,0.0,9.2668,8.219,0.0
80.0,96.0,20.0,36.0,44.0,48.0,10.0,18.0,22.0,24.0
".

(** tests/files-for-tests/ccmknap-6-10-10.csv *)
Definition f61010 : string :=
"6,10,10
100.0,600.0,1200.0,2400.0,500.0,2000.0
7.5502,0.0,0.0,73.1022,22.6826,41.6427
6.8167,0.0,0.0,79.5235,21.2122,43.0369
2.5551,0.0,0.0,17.754,6.3076,4.2003
5.3086,0.0,0.0,33.9483,5.8622,14.3677
5.8763,0.0,0.0,44.8129,6.2646,19.0652
4.8498,0.0,0.0,44.9612,6.5956,20.1651
0.0,0.0,0.0,0.0,7.1414,0.0
2.9337,0.0,0.0,0.0,7.2347,0.0
3.4101,0.0,0.0,0.0,8.8803,4.3637
3.3543,0.0,0.0,7.1652,6.9659,3.7033
6.7768,9.2642,16.18,54.7906,27.7968,42.0423
7.3963,13.2654,12.8526,77.7691,24.5443,39.2818
2.8778,5.4047,4.0538,20.5126,6.4328,4.0917
5.017,10.5399,8.5509,32.8139,6.8475,11.8766
5.3322,13.3405,7.4711,35.1948,6.8003,20.1015
5.0751,12.1646,7.281,46.3173,5.7018,19.1307
0.0,0.0,0.0,0.0,7.0958,0.0
3.2905,0.0,3.838,0.0,7.3944,0.0
2.8771,1.7964,3.7639,0.0,8.4856,3.5885
3.2367,2.0086,4.2831,8.8995,9.0604,4.3078
8.0625,12.402,0.0,82.3933,22.1539,0.0
7.2013,12.0048,0.0,66.9058,22.8265,0.0
3.0846,7.2575,0.0,19.4032,5.8853,0.0
4.4681,10.7574,0.0,29.8919,6.059,0.0
4.9471,11.3009,0.0,46.9305,5.148,0.0
5.2698,13.2782,0.0,53.1194,6.5233,0.0
0.0,0.0,0.0,0.0,8.5445,0.0
2.9991,0.0,0.0,0.0,7.7593,0.0
3.362,2.2514,0.0,0.0,7.8902,0.0
3.1835,2.0241,0.0,8.6743,8.5256,0.0
8.8504,0.0,14.1724,72.278,18.0441,47.2148
8.3625,0.0,13.2348,65.8868,21.1301,39.8634
2.8823,0.0,4.1424,15.1723,6.3127,4.3018
4.9192,0.0,6.4649,31.9063,5.3266,12.1903
5.0725,0.0,9.138,43.0577,6.6008,21.1591
3.8226,0.0,7.7984,50.5144,6.5223,16.9948
0.0,0.0,0.0,0.0,8.3407,0.0
2.7991,0.0,4.1369,0.0,7.0293,0.0
3.1571,0.0,4.1678,0.0,7.4479,3.685
2.8379,0.0,3.7415,8.0248,8.522,4.199
7.6898,11.3741,11.6918,66.6858,22.8425,42.9513
10.0605,12.8152,15.9614,75.5869,22.4855,36.7194
2.961,5.9161,4.4019,21.1458,6.6769,4.0585
5.9224,9.7738,7.2656,31.7985,6.3697,11.5309
5.2553,15.2569,7.4083,30.3218,6.7853,19.8947
5.073,13.5185,6.9318,53.1307,5.5984,18.7847
0.0,0.0,0.0,0.0,8.3512,0.0
2.3412,0.0,3.8285,0.0,8.7084,0.0
3.1014,1.9274,3.8612,0.0,7.0602,4.4456
2.7972,2.6458,4.8131,8.2883,8.7045,3.8804
7.8127,12.7823,11.5196,68.9045,23.0552,42.0346
7.4474,12.3624,13.0457,76.6039,21.0908,40.6524
2.7094,5.6455,4.1491,17.3804,5.2941,4.2123
4.658,8.6842,8.5676,29.7893,6.7941,11.0339
4.6563,12.2366,7.3355,35.4553,6.0664,21.1728
5.1689,11.2269,7.5253,41.9704,5.084,23.8011
0.0,0.0,0.0,0.0,8.5914,0.0
2.6441,0.0,4.3571,0.0,7.0359,0.0
2.7771,2.0427,4.0219,0.0,8.0939,4.2365
3.1221,2.1199,3.9751,6.9006,7.8788,4.9772
7.5564,0.0,0.0,68.0154,23.269,37.7374
8.2605,0.0,0.0,69.4647,27.4536,46.6946
3.0072,0.0,0.0,16.5924,5.8494,4.153
4.7574,0.0,0.0,31.4737,5.8883,10.8772
4.9561,0.0,0.0,38.4547,6.7271,19.5196
4.3584,0.0,0.0,52.9844,5.9446,21.7014
0.0,0.0,0.0,0.0,9.4595,0.0
2.6744,0.0,0.0,0.0,8.3437,0.0
3.2409,0.0,0.0,0.0,8.8256,4.1428
3.1646,0.0,0.0,6.8182,8.1392,4.5504
6.9387,11.3825,11.1781,65.1413,20.3618,44.2885
8.3439,11.4542,12.3801,78.8694,22.1823,44.4603
2.8599,5.0051,3.4315,17.6749,5.6742,3.7173
4.7241,9.5682,8.0917,31.5897,5.5626,11.1276
4.9498,13.6247,7.9802,43.0397,5.3693,22.4093
4.9923,11.5885,8.4024,56.1345,5.3666,18.4489
0.0,0.0,0.0,0.0,7.0428,0.0
2.7869,0.0,4.1138,0.0,8.6996,0.0
2.849,2.0595,3.7586,0.0,8.8305,4.2229
3.1103,2.121,3.3537,9.6971,8.1852,4.1923
7.9385,0.0,0.0,62.1923,24.4849,38.1291
8.4578,0.0,0.0,71.9316,24.078,39.5998
2.9697,0.0,0.0,19.2301,6.4138,4.5158
5.4259,0.0,0.0,37.7642,6.4117,11.1007
6.026,0.0,0.0,38.976,6.948,22.4667
5.1078,0.0,0.0,57.156,5.8816,21.6612
0.0,0.0,0.0,0.0,6.8278,0.0
3.237,0.0,0.0,0.0,7.4917,0.0
2.5428,0.0,0.0,0.0,8.611,3.7681
3.3393,0.0,0.0,7.8932,10.006,4.5938
6.7738,0.0,14.4556,54.2104,22.9505,43.7021
8.1683,0.0,14.032,77.8864,26.0145,41.8095
3.2096,0.0,3.6039,19.6605,4.9783,4.0778
4.7156,0.0,8.1007,33.0141,6.0705,12.3634
5.0744,0.0,7.2694,38.9758,4.9714,17.1389
4.7352,0.0,8.4385,51.896,4.7221,23.1226
0.0,0.0,0.0,0.0,7.7835,0.0
3.0476,0.0,2.7435,0.0,8.1063,0.0
3.0911,0.0,4.0589,0.0,6.3807,4.5396
3.2292,0.0,4.31,7.7869,7.6737,3.6105
80.0,96.0,20.0,36.0,44.0,48.0,10.0,18.0,22.0,24.0
".

Definition load (f : string) (eps : Q) : inst :=
  match load_text (list_ascii_of_string f) true eps with Ok J => J | Err _ => mkInst 0 0 0 true 0 [] [] [] end.
Definition J5 : inst := Eval vm_compute in load f6105 (3 # 10).
Definition J10 : inst := Eval vm_compute in load f61010 (2 # 10).
Definition J2 : inst := Eval vm_compute in load f225 (2 # 10).
(** A number with four decimals in the file. *)
Definition d4 (z : Z) : Q := z # 10000.
Definition eqb3 (A B : list (list Q)) : bool := forallb (fun p => Qeq_bool (fst p) (snd p)) (combine (List.concat A) (List.concat B)).

(** test_ChanceKnapInstance.py:21-47 *)
Example test_indices : load_text (list_ascii_of_string f6105) true (3 # 10) = Ok J5 /\ i_n J5 = 6 /\ i_k J5 = 5 /\ i_m J5 = 10.
Proof. repeat split; vm_compute; reflexivity. Qed.
Example test_c_vector : map Qred (i_c J5) = [100; 600; 1200; 2400; 500; 2000]%Q.
Proof. vm_compute. reflexivity. Qed.
Example test_b_vectors : map (map Qred) (i_b J5) = repeat [80; 96; 20; 36; 44; 48; 10; 18; 22; 24]%Q 5.
Proof. vm_compute. reflexivity. Qed.

(** test_ChanceKnapInstance.py:49-87: the matrices of two scenarios. *)
Definition A1 : list (list Q) := map (map (fun z => round1 (d4 z))) ([[83724; 109111; 149003; 785605; 193014; 0];
   [80471; 95267; 119253; 691535; 211707; 0];
   [26769; 53828; 38620; 189361; 60313; 0];
   [48479; 89136; 80223; 318631; 65568; 0];
   [54217; 143308; 67009; 354751; 60885; 0];
   [47369; 141636; 75303; 599353; 50918; 0];
   [0; 0; 0; 0; 68219; 0];
   [33851; 0; 39451; 0; 84066; 0];
   [33548; 16779; 40253; 0; 82171; 0];
   [26554; 19441; 45076; 77083; 88505; 0]])%Z.
Definition A3 : list (list Q) := map (map (fun z => round1 (d4 z))) ([[81841; 117846; 155186; 683488; 246347; 0];
   [90568; 117583; 136906; 604606; 241183; 0];
   [31744; 61058; 34227; 174788; 66504; 0];
   [60021; 95668; 80430; 307466; 47060; 0];
   [52378; 141240; 52907; 457069; 52983; 0];
   [57910; 106531; 76283; 379217; 64943; 0];
   [0; 0; 0; 0; 80311; 0];
   [30788; 0; 38025; 0; 77712; 0];
   [26550; 19297; 40967; 0; 74852; 0];
   [34187; 20514; 37924; 84680; 64113; 0]])%Z.
Example test_A_matrices : eqb3 (nth 1 (i_A J5) []) A1 = true /\ eqb3 (nth 3 (i_A J5) []) A3 = true.
Proof. vm_compute. split; reflexivity. Qed.

(** test_ChanceKnapInstance.py:89-194: violated constraints and verdict at three points. *)
Definition violated (x : list Q) (s : nat) : bool :=
  existsb (fun i => Qlt_bool (1 # 10000000) (dot (row J5 s i) x - rhs J5 s i)) (seq 0 10).
Definition verdict (x : list Q) : bool := (4 <=? count (fun s => negb (violated x s)) (seq 0 5)).
Definition x1 : list Q := [0; 1; 1; 0; 1; 1]%Q.
Definition x2 : list Q := [1; 0; 1; 1; 1; 0]%Q.
Definition x3 : list Q := [1; 0; 0; 6 # 10; 1; 0]%Q.
Definition x4 : list Q := [1; 0; 0; 65 # 100; 1; 0]%Q.
Example test_infeasibility :
  map (is_scenario_infeasible norm1 J5 x1) (seq 0 5) = map (violated x1) (seq 0 5) /\
  map (is_scenario_infeasible norm1 J5 x2) (seq 0 5) = map (violated x2) (seq 0 5) /\
  fst (check_feasibility norm1 J5 x3) = verdict x3 /\ fst (check_feasibility norm1 J5 x4) = verdict x4.
Proof. vm_compute. repeat split. Qed.
(** Neither of the last two points is feasible: no test sees the verdict True. *)
Example test_verdicts : (verdict x3, verdict x4) = (false, false).
Proof. vm_compute. reflexivity. Qed.

(** test_Initializer.py:20-42 *)
Example test_check_partition :
  check_partitions 10 [seq 0 10] 1 = Ok tt /\
  check_partitions 10 [[0; 3; 4; 5; 6]; [1; 2]; [7; 8; 9]] 3 = Ok tt /\
  check_partitions 10 [[0; 3; 4; 5; 6]; [1; 2]] 2 = Err AssertionError /\
  check_partitions 10 [[0; 3; 4; 5; 6]; [1; 2]; [7; 7; 7]] 3 = Err AssertionError /\
  check_partitions 10 [[0; 1; 2]; [0; 3; 4; 5; 6]; [1; 2]; [7; 7; 7]] 4 = Err AssertionError /\
  check_partitions 10 [[0; 3; 4; 5; 6]; [1; 2]; [7; 8; 9]] 4 = Err AssertionError /\
  check_partitions 10 [[0; 3; 4; 5; 6]; [1; 2]; [7; 8; 9]] 2 = Err AssertionError.
Proof. vm_compute. repeat split. Qed.

(** test_Initializer.py:44-54, 76-77: too many clusters. *)
Example test_random_partition : forall argsort perm costs,
  create_first_partition argsort perm costs (i_k J10) 300 InitRandom = Err AssertionError /\
  create_first_partition argsort perm costs (i_k J10) 300 InitCost = Err AssertionError.
Proof. intros. split; reflexivity. Qed.

(** test_Merger.py:18-21: the margin of subset 0 at the origin, in the initial partition of three subsets. *)
Definition V10 (p : list (list nat)) : view :=
  match load_partition J10 (uniform 10) (List.length p) p with Ok V => V | Err _ => view_inst J10 [] end.
Example test_single_subset_margin :
  ext_ltb (Fin 0) (subset_margin norm1 (V10 [[0; 3; 6; 9]; [1; 4; 7]; [2; 5; 8]]) 0 (repeat 0%Q 6)) = true.
Proof. vm_compute. reflexivity. Qed.

(** test_Merger.py:23-41 *)
Definition merge2 (p : list (list nat)) (c1 c2 : nat) : res (list (list nat)) :=
  do (p1, ms) <- merge_two p (mkMs [] []) c1 c2 ;; delete_subsets p1 (ms_deleted ms).
Example test_merge_two_subsets_in_partition :
  merge2 [[0; 1]; [2; 3]] 0 1 = Ok [[0; 1; 2; 3]] /\
  merge2 [[0; 1]; [2; 3]; [4]] 0 1 = Ok [[0; 1; 2; 3]; [4]] /\
  merge2 [[0; 1]; [2; 3]; [4]] 0 2 = Ok [[0; 1; 4]; [2; 3]].
Proof. vm_compute. repeat split. Qed.

(** test_Merger.py:43-65 *)
Definition pM : list (list nat) := [[0; 1]; [2; 3]; [4; 5]; [6; 7]; [8; 9]].
Definition merged (mu : nat) : res (list nat * list nat) :=
  do (_, ms) <- merge_feasible norm1 (V10 pM) pM (repeat 0%Q 6) [0; 1; 2] mu ;; Ok (ms_target ms, ms_deleted ms).
Example test_merger :
  (exists t d, merged 1 = Ok ([t], [d]) /\ In t [0; 1; 2] /\ In d [0; 1; 2]) /\
  (exists t d e, merged 2 = Ok ([t], [d; e]) /\ In t [0; 1; 2] /\ In d [1; 2] /\ In e [1; 2] /\ d <> e).
Proof.
  split.
  - eexists _, _. split; [vm_compute; reflexivity|]. cbn. auto 6.
  - eexists _, _, _. split; [vm_compute; reflexivity|]. cbn. split; [auto 6|split; [auto 6|split; [auto 6|discriminate]]].
Qed.

(** test_Refiner.py:17-34 *)
Example test_count_infeasible_scenarios :
  count_infeasible [[1; 4; 5]; [2; 3]] [5; 2; 3] = [1; 2] /\
  count_infeasible [[1; 4; 5]; [2; 3]] [] = [0; 0] /\
  count_infeasible [[1; 4; 5]; [2; 3]] [7; 8] = [0; 0].
Proof. vm_compute. repeat split. Qed.

(** test_Refiner.py:36-57 *)
Example test_find_infeasible_subsets :
  find_infeasible_subsets [[1; 4; 5]; [2; 3]; [6; 7]] [5; 2; 3] = ([2], [0; 1]) /\
  count_infeasible [[1; 4; 5]; [2; 3]; [6; 7]] [5; 2; 3] = [1; 2; 0] /\
  find_infeasible_subsets [[1; 4; 5]; [2; 3]; [6; 7]] [] = ([0; 1; 2], []).
Proof. vm_compute. repeat split. Qed.

(** test_Refiner.py:59-75 *)
Example test_find_number_of_splits :
  number_of_splits J10 2 = Ok 1 /\ number_of_splits J10 1 = Ok 2 /\ number_of_splits J10 0 = Ok 3 /\
  number_of_splits J10 3 = Err AssertionError.
Proof. vm_compute. repeat split. Qed.

(** test_Refiner.py:77-97 *)
Example test_split_sorted_subset :
  split_sorted_subset [0; 1; 2; 3; 4; 5] = Ok ([0; 2; 4], [1; 3; 5]) /\
  split_sorted_subset [5; 3; 2; 1] = Ok ([5; 2], [3; 1]) /\
  split_sorted_subset [5; 3] = Ok ([5], [3]) /\
  split_sorted_subset [1] = Err AssertionError /\ split_sorted_subset [] = Err AssertionError.
Proof. vm_compute. repeat split. Qed.

(** test_Refiner.py:99-110, test_RandomRefiner.py:33-47 *)
Example test_split_scenario_subset :
  split_scenarios_subset [false; true; false; false; true; false; false; false; false; false]
    [[1; 4; 5; 8; 9]; [0; 2; 3]; [6; 7]] [1; 4; 5; 8; 9] 0 = Ok [[1; 5; 9]; [0; 2; 3]; [6; 7]; [4; 8]].
Proof. vm_compute. reflexivity. Qed.

(** test_Solver.py:16-23: the gap, as exact numbers. *)
Example test_compute_gap :
  match compute_gap (Fin 102) false (Fin 100) false with Ok (Some (Fin g)) => (g == 2 # 100)%Q | _ => False end /\
  compute_gap PInf false (Fin 100) false = Ok (Some PInf).
Proof. vm_compute. split; reflexivity. Qed.

(** test_Warmstarter.py:12-31 *)
Example test_get_z_start :
  get_z_start [0; 1; 1; 0; 1; 0; 1; 2]%Q [] = [(1, 1%Q); (2, 1%Q); (4, 1%Q); (6, 1%Q)] /\
  get_z_start [0; 1; 1; 0]%Q [2] = [(1, 1%Q)].
Proof. vm_compute. split; reflexivity. Qed.

(** test_BigMFinder.py:44-55: the sums of the rows minus the right-hand sides, on data with negative entries. *)
Example test_naiveBigM :
  forallb (fun s => forallb (fun i =>
    Qeq_bool (nth i (nth s (naive_all (view_inst J2 (uniform 5)) 5) []) 0%Q)
      (nth 0 (row J2 s i) 0%Q + nth 1 (row J2 s i) 0%Q - rhs J2 s i)%Q) (seq 0 2)) (seq 0 5) = true /\ i_k J2 = 5 /\ i_m J2 = 2.
Proof. vm_compute. repeat split. Qed.

(** test_BigMFinder.py:72-98, 135-146: both programs give the same violations. *)
Definition ext_eqb (a b : ext) : bool := ext_leb a b && ext_leb b a.
Definition same_tables (J : inst) : bool :=
  match python_violations argsort_ref J with
  | Err _ => false
  | Ok T => (List.length T =? i_k J * i_k J * i_m J) &&
            forallb (fun p => ext_eqb (fst p) (snd p)) (combine T (compute_all_violations sort_ref J))
  end.
Definition red (J : inst) : inst :=
  mkInst (i_n J) (i_m J) (i_k J) (i_cont J) (i_eps J) (map Qred (i_c J)) (map (map (map Qred)) (i_A J)) (map (map Qred) (i_b J)).
Definition zeros : inst := mkInst 10 10 10 true 0 (repeat 0%Q 10) (repeat (repeat (repeat 0%Q 10) 10) 10) (repeat (repeat 0%Q 10) 10).
Definition ones : inst := mkInst 10 10 10 true 0 (repeat 0%Q 10)
  (map (fun s => map (fun i => map (fun j => if (s =? 1) && (i =? 2) && (j =? 3) then 10%Q else 1%Q) (seq 0 10)) (seq 0 10)) (seq 0 10))
  (map (fun s => map (fun i => if (s =? 1) && (i =? 3) then 5%Q else 1%Q) (seq 0 10)) (seq 0 10)).
Definition ramp : inst := mkInst 10 10 10 true 0 (repeat 0%Q 10) (repeat (repeat (repeat 1%Q 10) 10) 10)
  (repeat (map (fun i => (Qn i * 10)%Q) (seq 0 10)) 10).
Example test_song_python_and_cpp :
  same_tables zeros = true /\ same_tables ones = true /\ same_tables ramp = true /\ same_tables (red J5) = true.
Proof. vm_compute. repeat split. Qed.
