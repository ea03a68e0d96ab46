(** Data for C88: the nine largest 62-bit primes that are 1 modulo 2n, for
    n = 128, ..., 4096; a proper divisor of every other candidate above the
    smallest of them (0 marks a prime); primality certificates.  All of it is
    checked in PDef2.v. *)
From Verif Require Import PBase.

Definition eprimes128 : list Z :=
  [4611686018427379201; 4611686018427375361; 4611686018427373313; 4611686018427372289; 4611686018427366401;
   4611686018427365377; 4611686018427361793; 4611686018427359489; 4611686018427355649].
Definition edivs128 : list Z :=
  [76099; 3; 7; 269; 3; 439; 155719; 3; 11; 5; 3; 971; 281; 3;
   5; 29; 3; 19; 10247; 3; 41; 331; 3; 7; 5; 3; 419; 13;
   3; 5; 7; 3; 6247; 0; 3; 61; 19; 3; 373; 5; 3; 11;
   23; 3; 5; 1433; 3; 17; 0; 3; 31; 7; 3; 13; 5; 3;
   0; 502393; 3; 5; 0; 3; 257; 11; 3; 7; 13; 3; 443; 5;
   3; 1979; 7; 3; 5; 73; 3; 175709; 131; 3; 10271; 17; 3; 0;
   5; 3; 7; 0; 3; 5; 859; 3; 13; 7; 3; 127; 11; 3;
   17; 5; 3; 0; 29; 3; 5; 13; 3; 7; 1586113; 3; 0; 23;
   3; 3343; 5; 3; 433; 43; 3; 5; 67; 3; 397; 47; 3; 0].
Definition eprimes256 : list Z :=
  [4611686018427379201; 4611686018427366401; 4611686018427365377; 4611686018427361793; 4611686018427355649;
   4611686018427337217; 4611686018427336193; 4611686018427326977; 4611686018427322369].
Definition edivs256 : list Z :=
  [3; 269; 439; 3; 5; 971; 3; 29; 19; 3; 331; 7; 3; 13;
   5; 3; 0; 61; 3; 5; 11; 3; 1433; 17; 3; 7; 13; 3;
   502393; 5; 3; 11; 7; 3; 5; 1979; 3; 73; 175709; 3; 17; 0;
   3; 0; 5; 3; 7; 127; 3; 5; 0; 3; 13; 7; 3; 23;
   3343; 3; 43; 5; 3; 47; 0; 3; 5; 13; 3; 7; 1747; 3;
   89; 31; 3; 421469; 5; 3; 5179; 337; 3; 5; 613; 3; 79; 766227841;
   3; 6113; 11; 3; 7; 5; 3; 13; 1907; 3; 5; 7; 3; 11;
   0; 3; 0; 23; 3; 19; 5; 3; 149; 18593; 3; 5; 73; 3;
   41; 59; 3; 139; 7; 3; 0; 5; 3; 101; 19; 3; 5; 17;
   3; 0].
Definition eprimes512 : list Z :=
  [4611686018427366401; 4611686018427365377; 4611686018427322369; 4611686018427289601; 4611686018427286529;
   4611686018427277313; 4611686018427246593; 4611686018427228161; 4611686018427227137].
Definition edivs512 : list Z :=
  [269; 3; 971; 29; 3; 7; 13; 3; 61; 5; 3; 17; 7; 3;
   5; 11; 3; 1979; 73; 3; 0; 0; 3; 127; 5; 3; 7; 23;
   3; 5; 47; 3; 13; 7; 3; 31; 6008153; 3; 337; 5; 3; 766227841;
   6113; 3; 5; 13; 3; 7; 11; 3; 23; 19; 3; 18593; 5; 3;
   59; 139; 3; 5; 101; 3; 17; 0; 3; 9679; 31; 3; 7; 5;
   3; 13; 110899; 3; 5; 7; 3; 47; 53; 3; 79; 11; 3; 497297;
   5; 3; 15137; 1811; 3; 5; 29; 3; 11; 43; 3; 0; 7; 3;
   0; 5; 3; 10513; 373; 3; 5; 1861; 3; 0; 19; 3; 7; 328582537;
   3; 17; 5; 3; 251; 7; 3; 5; 334289; 3; 37; 13; 3; 11;
   3047599; 3; 31; 5; 3; 7; 333857; 3; 5; 401; 3; 0; 7; 3;
   1009; 48799; 3; 6089; 5; 3; 19; 11; 3; 5; 127; 3; 7; 1487;
   3; 0; 0].
Definition eprimes1024 : list Z :=
  [4611686018427365377; 4611686018427322369; 4611686018427289601; 4611686018427277313; 4611686018427246593;
   4611686018427228161; 4611686018427215873; 4611686018427199489; 4611686018427185153].
Definition edivs1024 : list Z :=
  [3; 29; 7; 3; 5; 17; 3; 11; 1979; 3; 0; 127; 3; 23;
   5; 3; 7; 31; 3; 5; 766227841; 3; 13; 7; 3; 19; 18593; 3;
   139; 5; 3; 0; 9679; 3; 5; 13; 3; 7; 47; 3; 11; 497297;
   3; 1811; 5; 3; 43; 0; 3; 5; 10513; 3; 1861; 0; 3; 328582537;
   17; 3; 7; 5; 3; 13; 11; 3; 5; 7; 3; 401; 0; 3;
   48799; 6089; 3; 11; 5; 3; 1487; 0; 3; 5; 101; 3; 19; 0;
   3; 47; 7; 3; 29; 5; 3; 0; 2748113; 3; 5; 11; 3; 83;
   0].
Definition eprimes2048 : list Z :=
  [4611686018427322369; 4611686018427289601; 4611686018427277313; 4611686018427228161; 4611686018427215873;
   4611686018427199489; 4611686018426953729; 4611686018426933249; 4611686018426884097].
Definition edivs2048 : list Z :=
  [29; 3; 17; 11; 3; 127; 23; 3; 31; 5; 3; 7; 19; 3;
   5; 0; 3; 13; 7; 3; 497297; 1811; 3; 0; 5; 3; 0; 328582537;
   3; 5; 13; 3; 7; 401; 3; 6089; 11; 3; 0; 5; 3; 0;
   47; 3; 5; 0; 3; 11; 83; 3; 19; 15661; 3; 7; 5; 3;
   13; 1579; 3; 5; 7; 3; 1049089; 3361; 3; 71; 769; 3; 449; 5;
   3; 1117; 23330369; 3; 5; 23; 3; 569; 97; 3; 11; 7; 3; 139;
   5; 3; 99809981; 17; 3; 5; 41; 3; 9815297; 337; 3; 7; 3853; 3;
   23; 5; 3; 31; 7; 3; 5; 0; 3; 19; 13; 3; 0; 4567;
   3; 11; 5; 3; 7; 271; 3; 5; 3121; 3; 0].
Definition eprimes4096 : list Z :=
  [4611686018427322369; 4611686018427289601; 4611686018427215873; 4611686018427199489; 4611686018426953729;
   4611686018426658817; 4611686018426454017; 4611686018426265601; 4611686018426257409].
Definition edivs4096 : list Z :=
  [3; 11; 127; 3; 5; 7; 3; 0; 13; 3; 1811; 0; 3; 328582537;
   5; 3; 401; 6089; 3; 5; 0; 3; 0; 11; 3; 15661; 7; 3;
   1579; 5; 3; 3361; 71; 3; 5; 1117; 3; 23; 569; 3; 7; 139;
   3; 17; 5; 3; 337; 7; 3; 5; 31; 3; 0; 19; 3; 4567;
   11; 3; 271; 5; 3; 7; 11969; 3; 5; 41; 3; 11; 7; 3;
   38543; 359; 3; 13; 5; 3; 293; 17; 3; 5; 1879; 3; 7; 23;
   3; 107; 13; 3; 0; 5; 3; 19; 179; 3; 5; 53; 3; 67;
   79; 3; 11; 29; 3; 7; 5; 3; 23; 156621767; 3; 5; 7; 3;
   13; 0; 3; 223; 3919; 3; 5867; 5; 3; 241; 11; 3; 5; 13;
   3; 283; 17; 3; 29; 7; 3; 11; 5; 3; 0; 0].

(** N and the factors (q, e, a): q^e divides N - 1 and a is a witness for q. *)
Definition ecerts : list (Z * list (Z * Z * Z)) :=
  [(7877, [(179, 1, 2)]);
   (2239, [(373, 1, 2)]);
   (246912443, [(7877, 1, 2); (2239, 1, 2)]);
   (486391, [(523, 1, 2); (31, 1, 2)]);
   (4611686018427379201, [(246912443, 1, 2); (486391, 1, 2)]);
   (12201611, [(431, 1, 2); (149, 1, 2)]);
   (3947, [(1973, 1, 2)]);
   (4611686018427375361, [(12201611, 1, 2); (3947, 1, 2)]);
   (92369, [(251, 1, 2); (23, 1, 2)]);
   (47431, [(31, 1, 2); (17, 1, 2)]);
   (4611686018427373313, [(92369, 1, 2); (47431, 1, 2)]);
   (10141, [(13, 2, 2)]);
   (1947073, [(10141, 1, 2)]);
   (1528327692329, [(1947073, 1, 2)]);
   (4611686018427372289, [(1528327692329, 1, 2)]);
   (10253, [(233, 1, 2)]);
   (811459392319, [(10253, 1, 2); (389, 1, 2)]);
   (180143985094819, [(811459392319, 1, 2)]);
   (4611686018427366401, [(180143985094819, 1, 2)]);
   (19073, [(149, 1, 2)]);
   (381461, [(19073, 1, 2)]);
   (80106811, [(381461, 1, 2)]);
   (32089, [(191, 1, 2)]);
   (9369989, [(32089, 1, 2)]);
   (4611686018427365377, [(80106811, 1, 2); (9369989, 1, 2)]);
   (27067, [(347, 1, 2)]);
   (633729631657, [(27067, 1, 2); (677, 1, 2)]);
   (4611686018427361793, [(633729631657, 1, 2)]);
   (53063867, [(859, 1, 2); (461, 1, 2)]);
   (2557, [(71, 1, 2)]);
   (4611686018427359489, [(53063867, 1, 2); (2557, 1, 2)]);
   (57059, [(607, 1, 2)]);
   (5494439347, [(57059, 1, 2); (1459, 1, 2)]);
   (384610754291, [(5494439347, 1, 2)]);
   (4611686018427355649, [(384610754291, 1, 2)]);
   (6991, [(233, 1, 2)]);
   (461407, [(6991, 1, 2)]);
   (361743089, [(461407, 1, 2)]);
   (4611686018427337217, [(361743089, 1, 2); (1231, 1, 2)]);
   (9973, [(277, 1, 2)]);
   (518597, [(9973, 1, 2)]);
   (71363, [(1151, 1, 2)]);
   (4611686018427336193, [(518597, 1, 2); (71363, 1, 2)]);
   (47791, [(59, 1, 2); (5, 1, 2)]);
   (827548957, [(47791, 1, 2)]);
   (3803, [(1901, 1, 2)]);
   (3628063, [(3803, 1, 2)]);
   (4611686018427326977, [(827548957, 1, 2); (3628063, 1, 2)]);
   (2796203, [(683, 1, 3); (89, 1, 3)]);
   (178481, [(97, 1, 3); (23, 1, 2)]);
   (4611686018427322369, [(2796203, 1, 2); (178481, 1, 2)]);
   (11497, [(479, 1, 2)]);
   (1034731, [(11497, 1, 2)]);
   (10272809369, [(1034731, 1, 2)]);
   (5629499534213, [(10272809369, 1, 2)]);
   (4611686018427289601, [(5629499534213, 1, 2)]);
   (6079, [(1013, 1, 2)]);
   (96400783, [(6079, 1, 2); (881, 1, 2)]);
   (46717459, [(1657, 1, 2); (127, 1, 2)]);
   (4611686018427286529, [(96400783, 1, 2); (46717459, 1, 2)]);
   (9787, [(233, 1, 2)]);
   (352333, [(9787, 1, 2)]);
   (40123, [(743, 1, 2)]);
   (1125899906842597, [(352333, 1, 2); (40123, 1, 2)]);
   (4611686018427277313, [(1125899906842597, 1, 2)]);
   (3417163, [(197, 1, 2); (59, 1, 2)]);
   (7457, [(233, 1, 2)]);
   (4611686018427246593, [(3417163, 1, 2); (7457, 1, 2)]);
   (13859, [(41, 1, 2); (13, 2, 2)]);
   (86591033, [(13859, 1, 2)]);
   (4329551651, [(86591033, 1, 2)]);
   (32168568766931, [(4329551651, 1, 2)]);
   (4611686018427228161, [(32168568766931, 1, 2)]);
   (330289, [(983, 1, 2)]);
   (57714039283, [(330289, 1, 2)]);
   (4611686018427227137, [(57714039283, 1, 2)]);
   (1877459, [(1399, 1, 2)]);
   (1892478673, [(1877459, 1, 2)]);
   (297467, [(673, 1, 2)]);
   (4611686018427215873, [(1892478673, 1, 2); (297467, 1, 2)]);
   (53927, [(457, 1, 2)]);
   (5608409, [(53927, 1, 2)]);
   (26807140639109, [(5608409, 1, 2)]);
   (4611686018427199489, [(26807140639109, 1, 2)]);
   (69427, [(29, 1, 2); (19, 1, 2)]);
   (245000523739, [(69427, 1, 2); (1193, 1, 2)]);
   (4611686018427185153, [(245000523739, 1, 2)]);
   (666031, [(149, 2, 2)]);
   (7992373, [(666031, 1, 2)]);
   (11038234380809, [(7992373, 1, 2)]);
   (4611686018426953729, [(11038234380809, 1, 2)]);
   (254071, [(941, 1, 2)]);
   (3123040733, [(254071, 1, 2)]);
   (43722570263, [(3123040733, 1, 2)]);
   (4611686018426933249, [(43722570263, 1, 2)]);
   (4098973, [(283, 1, 2); (71, 1, 2)]);
   (2087, [(149, 1, 2)]);
   (2308223, [(2087, 1, 2)]);
   (4611686018426884097, [(4098973, 1, 2); (2308223, 1, 2)]);
   (69474263041, [(109, 1, 2); (19, 1, 2); (13, 1, 2); (7, 1, 2); (5, 1, 2)]);
   (4611686018426658817, [(69474263041, 1, 2)]);
   (5419, [(43, 1, 3); (7, 1, 2)]);
   (40210710958657, [(5419, 1, 2); (337, 1, 2); (127, 1, 2)]);
   (4611686018426454017, [(40210710958657, 1, 2)]);
   (1175199527, [(643, 1, 2); (211, 1, 2)]);
   (2129, [(19, 1, 2); (7, 1, 2)]);
   (4611686018426265601, [(1175199527, 1, 2); (2129, 1, 2)]);
   (2534593, [(307, 1, 2); (43, 1, 2)]);
   (15207559, [(2534593, 1, 2)]);
   (334566299, [(15207559, 1, 2)]);
   (4611686018426257409, [(334566299, 1, 2); (409, 1, 2)])].
