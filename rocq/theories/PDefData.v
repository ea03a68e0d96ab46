(** Data for C68: the thirteen largest 62-bit primes that are 1 modulo 2n, for
    n = 8, 16, 32, 64; a proper divisor of every other candidate above the
    smallest of them (0 marks a prime); primality certificates.  All of it is
    checked in PDef.v. *)
From Verif Require Import PBase.

Definition dprimes8 : list Z :=
  [4611686018427387761; 4611686018427387617; 4611686018427387409; 4611686018427387329; 4611686018427387073;
   4611686018427386897; 4611686018427386081; 4611686018427385553; 4611686018427385537; 4611686018427385393;
   4611686018427384977; 4611686018427384881; 4611686018427384641].
Definition ddivs8 : list Z :=
  [11; 3; 17; 64129007; 3; 7; 7019; 3; 0; 5; 3; 11; 7; 3;
   5; 76099; 3; 0; 13; 3; 23; 19; 3; 29; 5; 3; 7; 37;
   3; 5; 0; 3; 603553; 7; 3; 0; 17; 3; 43; 5; 3; 2232059;
   521; 3; 5; 181; 3; 7; 41; 3; 263; 0; 3; 17; 5; 3;
   47; 13; 3; 5; 142334677; 3; 0; 269; 3; 101; 11; 3; 7; 5;
   3; 31; 13556057; 3; 5; 7; 3; 11; 19; 3; 7639; 29; 3; 13;
   5; 3; 7681; 17; 3; 5; 617; 3; 1637; 83; 3; 439; 7; 3;
   153313; 5; 3; 37; 31; 3; 5; 1723; 3; 59; 2753363; 3; 7; 155719;
   3; 0; 5; 3; 19; 7; 3; 5; 73; 3; 13; 503; 3; 1303;
   53; 3; 253703381; 5; 3; 7; 11; 3; 5; 13; 3; 137; 7; 3;
   1871; 21323; 3; 11; 5; 3; 0; 0; 3; 5; 47; 3; 7; 204124549;
   3; 17; 0; 3; 23; 5; 3; 13; 283; 3; 5; 11; 3; 43;
   29; 3; 367; 41; 3; 7; 5; 3; 11; 3343559; 3; 5; 7; 3;
   0; 98873; 3; 103; 9473; 3; 0; 5; 3; 971; 19; 3; 5; 31;
   3; 29; 11; 3; 13; 7; 3; 0].
Definition dprimes16 : list Z :=
  [4611686018427387617; 4611686018427387329; 4611686018427387073; 4611686018427386081; 4611686018427385537;
   4611686018427384641; 4611686018427384353; 4611686018427382913; 4611686018427382849; 4611686018427380897;
   4611686018427380833; 4611686018427379553; 4611686018427379201].
Definition ddivs16 : list Z :=
  [3; 64129007; 7; 3; 5; 11; 3; 76099; 0; 3; 19; 29; 3; 37;
   5; 3; 7; 0; 3; 5; 2232059; 3; 181; 7; 3; 0; 17; 3;
   13; 5; 3; 269; 101; 3; 5; 31; 3; 7; 11; 3; 29; 13;
   3; 17; 5; 3; 83; 439; 3; 5; 37; 3; 1723; 59; 3; 155719;
   0; 3; 7; 5; 3; 503; 1303; 3; 5; 7; 3; 13; 137; 3;
   21323; 11; 3; 0; 5; 3; 204124549; 17; 3; 5; 13; 3; 11; 43;
   3; 41; 7; 3; 3343559; 5; 3; 98873; 103; 3; 5; 971; 3; 31;
   29; 3; 7; 0; 3; 281; 5; 3; 13; 7; 3; 5; 0; 3;
   59; 23; 3; 11; 769; 3; 120079; 5; 3; 7; 359; 3; 5; 1806643;
   3; 29; 7; 3; 2143; 1597; 3; 101; 5; 3; 23; 11; 3; 5;
   71; 3; 7; 19; 3; 13; 141650371; 3; 11; 5; 3; 10247; 563; 3;
   5; 0; 3; 0; 13; 3; 9689; 37; 3; 7; 5; 3; 672620401; 41;
   3; 5; 7; 3; 58958923; 10061; 3; 331; 2887; 3; 3280561; 5; 3; 11;
   23; 3; 5; 29; 3; 107; 187598443; 3; 31; 7; 3; 277; 5; 3;
   17; 13; 3; 5; 19; 3; 24793; 11; 3; 7; 23473; 3; 41; 5;
   3; 71; 7; 3; 5; 419; 3; 97; 0; 3; 0; 31; 3; 13;
   5; 3; 7; 199; 3; 5; 17; 3; 211; 7; 3; 37; 11; 3;
   19; 5; 3; 14519; 73; 3; 5; 89; 3; 7; 53; 3; 147299; 23;
   3; 193; 5; 3; 532093; 19; 3; 5; 0; 3; 13; 6247; 3; 2797;
   871649; 3; 7; 5; 3; 0].
Definition dprimes32 : list Z :=
  [4611686018427387329; 4611686018427387073; 4611686018427385537; 4611686018427384641; 4611686018427382913;
   4611686018427382849; 4611686018427379201; 4611686018427379009; 4611686018427378113; 4611686018427378049;
   4611686018427377473; 4611686018427375361; 4611686018427374273].
Definition ddivs32 : list Z :=
  [64129007; 3; 11; 315643; 3; 29; 37; 3; 0; 5; 3; 7; 0; 3;
   5; 269; 3; 31; 7; 3; 13; 17; 3; 439; 5; 3; 59; 155719;
   3; 5; 503; 3; 7; 13; 3; 11; 0; 3; 17; 5; 3; 43;
   41; 3; 5; 98873; 3; 971; 31; 3; 0; 281; 3; 7; 5; 3;
   23; 11; 3; 5; 7; 3; 1806643; 29; 3; 1597; 101; 3; 11; 5;
   3; 19; 13; 3; 5; 10247; 3; 0; 0; 3; 37; 7; 3; 41;
   5; 3; 10061; 331; 3; 5; 11; 3; 29; 107; 3; 7; 277; 3;
   13; 5; 3; 11; 7; 3; 5; 71; 3; 419; 97; 3; 31; 13;
   3; 199; 5; 3; 7; 37; 3; 5; 14519; 3; 89; 7; 3; 23;
   193; 3; 19; 5; 3; 6247; 2797; 3; 5; 0; 3; 7; 0; 3;
   17; 31; 3; 61; 5; 3; 501740033; 19; 3; 5; 13; 3; 0; 0;
   3; 373; 11; 3; 7; 5; 3; 463; 0; 3; 5; 7; 3; 11;
   30181; 3; 43; 23; 3; 839; 5; 3; 13; 38803; 3; 5; 23827; 3;
   3623; 1433; 3; 19; 7; 3; 139267; 5; 3; 17; 467; 3; 5; 0;
   3; 379; 26141; 3; 7; 307187; 3; 31; 5; 3; 41; 7; 3; 5;
   22076927; 3; 0].
Definition dprimes64 : list Z :=
  [4611686018427382913; 4611686018427379201; 4611686018427378049; 4611686018427375361; 4611686018427373313;
   4611686018427372289; 4611686018427372161; 4611686018427370369; 4611686018427366401; 4611686018427365377;
   4611686018427363457; 4611686018427362689; 4611686018427361793].
Definition ddivs64 : list Z :=
  [3; 76099; 29; 3; 5; 7; 3; 269; 31; 3; 17; 439; 3; 155719;
   5; 3; 13; 11; 3; 5; 43; 3; 98873; 971; 3; 281; 7; 3;
   11; 5; 3; 29; 1597; 3; 5; 19; 3; 10247; 0; 3; 7; 41;
   3; 331; 5; 3; 107; 7; 3; 5; 11; 3; 71; 419; 3; 13;
   199; 3; 37; 5; 3; 7; 23; 3; 5; 6247; 3; 0; 7; 3;
   31; 61; 3; 19; 5; 3; 0; 373; 3; 5; 463; 3; 7; 11;
   3; 23; 839; 3; 38803; 5; 3; 1433; 19; 3; 5; 17; 3; 0;
   379; 3; 307187; 31; 3; 7; 5; 3; 43; 13; 3; 5; 7; 3;
   17; 0; 3; 502393; 11; 3; 29; 5; 3; 0; 0; 3; 5; 257;
   3; 11; 15907; 3; 19; 7; 3; 13; 5; 3; 0; 443; 3; 5;
   173; 3; 3881; 1979; 3; 7; 13; 3; 1741; 5; 3; 73; 7; 3;
   5; 175709; 3; 131; 367; 3; 11; 10271; 3; 17; 5; 3; 7; 0;
   3; 5; 2687; 3; 13; 7; 3; 0; 29; 3; 229; 5; 3; 859;
   11; 3; 5; 13; 3; 7; 8004223; 3; 0; 127; 3; 11; 5; 3;
   0; 17; 3; 5; 23; 3; 434717; 0].

(** N and the factors (q, e, a): q^e divides N - 1 and a is a witness for q. *)
Definition dcerts : list (Z * list (Z * Z * Z)) :=
  [(262657, [(19, 1, 3); (3, 3, 2)]);
   (536870909, [(262657, 1, 2)]);
   (2017, [(7, 1, 2); (3, 2, 3)]);
   (8069, [(2017, 1, 2)]);
   (4611686018427387761, [(536870909, 1, 2); (8069, 1, 2)]);
   (5011, [(167, 1, 2)]);
   (60133, [(5011, 1, 2)]);
   (1326173183, [(60133, 1, 2)]);
   (108669961, [(1487, 1, 2); (29, 1, 2)]);
   (4611686018427387617, [(1326173183, 1, 2); (108669961, 1, 2)]);
   (3719, [(13, 2, 2)]);
   (1413221, [(3719, 1, 2)]);
   (70661051, [(1413221, 1, 2)]);
   (16110719629, [(70661051, 1, 2)]);
   (101884190933797, [(16110719629, 1, 2)]);
   (4611686018427387409, [(101884190933797, 1, 2)]);
   (87211, [(19, 1, 3); (17, 1, 3)]);
   (268435459, [(87211, 1, 2)]);
   (6473, [(809, 1, 2)]);
   (1877171, [(6473, 1, 2)]);
   (4611686018427387329, [(268435459, 1, 2); (1877171, 1, 2)]);
   (119849, [(211, 1, 2); (71, 1, 2)]);
   (239699, [(119849, 1, 2)]);
   (7190971, [(239699, 1, 2)]);
   (115055537, [(7190971, 1, 2)]);
   (8006399337547547, [(115055537, 1, 2)]);
   (4611686018427387073, [(8006399337547547, 1, 2)]);
   (8191, [(13, 1, 2); (7, 1, 3)]);
   (2731, [(13, 1, 2); (7, 1, 3)]);
   (288230376151711681, [(8191, 1, 2); (2731, 1, 2); (1613, 1, 2)]);
   (4611686018427386897, [(288230376151711681, 1, 2)]);
   (316736677089793, [(673, 1, 2); (257, 1, 2); (241, 1, 2)]);
   (4611686018427386081, [(316736677089793, 1, 2)]);
   (46091, [(419, 1, 2)]);
   (51253193, [(46091, 1, 2)]);
   (288230376151711597, [(51253193, 1, 2); (367, 1, 2)]);
   (4611686018427385553, [(288230376151711597, 1, 2)]);
   (4611686018427385537, [(51253193, 1, 2); (367, 1, 2)]);
   (22037, [(787, 1, 2)]);
   (32129947, [(22037, 1, 2)]);
   (513779636634067, [(32129947, 1, 2)]);
   (4611686018427385393, [(513779636634067, 1, 2)]);
   (2607671351, [(613, 1, 2); (571, 1, 2)]);
   (4611686018427384977, [(2607671351, 1, 2)]);
   (27551, [(29, 1, 2); (19, 1, 2)]);
   (11617, [(11, 2, 2)]);
   (5653, [(157, 1, 2)]);
   (4611686018427384881, [(27551, 1, 2); (11617, 1, 2); (5653, 1, 2)]);
   (2741, [(137, 1, 2)]);
   (16447, [(2741, 1, 2)]);
   (350978981, [(16447, 1, 2); (97, 1, 2)]);
   (171803, [(163, 1, 2); (31, 1, 2)]);
   (4611686018427384641, [(350978981, 1, 2); (171803, 1, 2)]);
   (69379, [(373, 1, 2)]);
   (2358887, [(69379, 1, 2)]);
   (910229, [(151, 1, 2); (137, 1, 2)]);
   (144115188075855761, [(2358887, 1, 2); (910229, 1, 2)]);
   (4611686018427384353, [(144115188075855761, 1, 2)]);
   (507928009, [(1993, 1, 2); (41, 1, 2)]);
   (119617, [(89, 1, 2); (7, 1, 2)]);
   (4611686018427382913, [(507928009, 1, 2); (119617, 1, 2)]);
   (159657941, [(929, 1, 2); (661, 1, 2)]);
   (13916105453443, [(159657941, 1, 2)]);
   (24019198012642619, [(13916105453443, 1, 2)]);
   (4611686018427382849, [(24019198012642619, 1, 2)]);
   (11443, [(1907, 1, 2)]);
   (68659, [(11443, 1, 2)]);
   (159426199, [(68659, 1, 2)]);
   (233574048745309, [(159426199, 1, 2)]);
   (4611686018427380897, [(233574048745309, 1, 2)]);
   (4969, [(23, 1, 2); (3, 3, 2)]);
   (89443, [(4969, 1, 2)]);
   (15975522456031, [(89443, 1, 2); (941, 1, 2)]);
   (4611686018427380833, [(15975522456031, 1, 2)]);
   (3819943, [(71, 1, 2); (61, 1, 2)]);
   (2493903266753, [(3819943, 1, 2)]);
   (4611686018427379553, [(2493903266753, 1, 2)]);
   (7877, [(179, 1, 2)]);
   (2239, [(373, 1, 2)]);
   (246912443, [(7877, 1, 2); (2239, 1, 2)]);
   (486391, [(523, 1, 2); (31, 1, 2)]);
   (4611686018427379201, [(246912443, 1, 2); (486391, 1, 2)]);
   (10211, [(1021, 1, 2)]);
   (81689, [(10211, 1, 2)]);
   (12906863, [(81689, 1, 2)]);
   (4611686018427379009, [(12906863, 1, 2); (1151, 1, 2)]);
   (6791, [(97, 1, 2)]);
   (2485507, [(6791, 1, 2)]);
   (147102246289, [(2485507, 1, 2)]);
   (4611686018427378113, [(147102246289, 1, 2)]);
   (52183, [(223, 1, 2); (13, 1, 2)]);
   (5119, [(853, 1, 2)]);
   (2903, [(1451, 1, 2)]);
   (4611686018427378049, [(52183, 1, 2); (5119, 1, 2); (2903, 1, 2)]);
   (4789, [(19, 1, 2); (7, 1, 2)]);
   (350323031557, [(10211, 1, 2); (4789, 1, 2)]);
   (4611686018427377473, [(350323031557, 1, 2)]);
   (12201611, [(431, 1, 2); (149, 1, 2)]);
   (3947, [(1973, 1, 2)]);
   (4611686018427375361, [(12201611, 1, 2); (3947, 1, 2)]);
   (53717, [(1033, 1, 2)]);
   (7499, [(163, 1, 2)]);
   (5059, [(281, 1, 2)]);
   (4611686018427374273, [(53717, 1, 2); (7499, 1, 2); (5059, 1, 2)]);
   (92369, [(251, 1, 2); (23, 1, 2)]);
   (47431, [(31, 1, 2); (17, 1, 2)]);
   (4611686018427373313, [(92369, 1, 2); (47431, 1, 2)]);
   (10141, [(13, 2, 2)]);
   (1947073, [(10141, 1, 2)]);
   (1528327692329, [(1947073, 1, 2)]);
   (4611686018427372289, [(1528327692329, 1, 2)]);
   (101293, [(367, 1, 2)]);
   (105547307, [(101293, 1, 2)]);
   (2533135369, [(105547307, 1, 2)]);
   (4611686018427372161, [(2533135369, 1, 2)]);
   (41953, [(23, 1, 2); (19, 1, 2)]);
   (5453891, [(41953, 1, 2)]);
   (273610803689, [(5453891, 1, 2)]);
   (4611686018427370369, [(273610803689, 1, 2)]);
   (10253, [(233, 1, 2)]);
   (811459392319, [(10253, 1, 2); (389, 1, 2)]);
   (180143985094819, [(811459392319, 1, 2)]);
   (4611686018427366401, [(180143985094819, 1, 2)]);
   (19073, [(149, 1, 2)]);
   (381461, [(19073, 1, 2)]);
   (80106811, [(381461, 1, 2)]);
   (32089, [(191, 1, 2)]);
   (9369989, [(32089, 1, 2)]);
   (4611686018427365377, [(80106811, 1, 2); (9369989, 1, 2)]);
   (19323767, [(701, 1, 2); (179, 1, 2)]);
   (4611686018427363457, [(19323767, 1, 2); (449, 1, 2)]);
   (13463, [(127, 1, 2)]);
   (3805801619, [(13463, 1, 2); (503, 1, 2)]);
   (4611686018427362689, [(3805801619, 1, 2)]);
   (27067, [(347, 1, 2)]);
   (633729631657, [(27067, 1, 2); (677, 1, 2)]);
   (4611686018427361793, [(633729631657, 1, 2)])].
