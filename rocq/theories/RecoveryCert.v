(* Generated by tools/gen_recovery_cert.py: the selected points (at least as many points as nodes) or nodes, and
   an approximate inverse of the selected square matrix, multiplied by 4096. *)
From Coq Require Import ZArith List.
From Verif Require Import Kind.
Import ListNotations.
Local Open Scope Z_scope.

Definition cert_lin2_2 : list nat * list (list Z) :=
  ([0; 1]%nat,
   [[5595; (-1499)];
    [(-1499); 5595]]).
Definition cert_lin2_3 : list nat * list (list Z) :=
  ([0; 2]%nat,
   [[4692; (-596)];
    [(-596); 4692]]).
Definition cert_lin2_4 : list nat * list (list Z) :=
  ([0; 3]%nat,
   [[4426; (-330)];
    [(-330); 4426]]).
Definition cert_lin2_5 : list nat * list (list Z) :=
  ([0; 4]%nat,
   [[4308; (-212)];
    [(-212); 4308]]).
Definition cert_lin3_2 : list nat * list (list Z) :=
  ([1; 2]%nat,
   [[(-7094); 4846];
    [7094; 1298]]).
Definition cert_lin3_3 : list nat * list (list Z) :=
  ([0; 1; 2]%nat,
   [[6057; (-2731); 769];
    [769; (-2731); 6057];
    [0; 4096; 0]]).
Definition cert_lin3_4 : list nat * list (list Z) :=
  ([0; 2; 3]%nat,
   [[4938; (-1691); 849];
    [181; (-1691); 5606];
    [580; 4852; (-1336)]]).
Definition cert_lin3_5 : list nat * list (list Z) :=
  ([0; 2; 4]%nat,
   [[4754; (-892); 234];
    [234; (-892); 4754];
    [0; 4096; 0]]).
Definition cert_lin4_2 : list nat * list (list Z) :=
  ([2; 3]%nat,
   [[4307; 1154];
    [1154; 4307]]).
Definition cert_lin4_3 : list nat * list (list Z) :=
  ([1; 2; 3]%nat,
   [[6827; 3728; (-2970)];
    [(-5461); 2225; 4450];
    [6827; (-189); 947]]).
Definition cert_lin4_4 : list nat * list (list Z) :=
  ([0; 1; 2; 3]%nat,
   [[6254; (-3333); 1642; (-467)];
    [(-467); 1642; (-3333); 6254];
    [(-20); 4085; 40; (-9)];
    [(-9); 40; 4085; (-20)]]).
Definition cert_lin4_5 : list nat * list (list Z) :=
  ([0; 1; 3; 4]%nat,
   [[5758; (-1970); 591; (-283)];
    [(-283); 591; (-1970); 5758];
    [(-943); 4432; 1043; (-436)];
    [(-436); 1043; 4432; (-943)]]).
Definition cert_lin5_2 : list nat * list (list Z) :=
  ([3; 4]%nat,
   [[3723; (-267)];
    [(-267); 3723]]).
Definition cert_lin5_3 : list nat * list (list Z) :=
  ([2; 3; 4]%nat,
   [[0; 4079; (-879)];
    [4096; 1792; 1792];
    [0; (-879); 4079]]).
Definition cert_lin5_4 : list nat * list (list Z) :=
  ([1; 2; 3; 4]%nat,
   [[(-6720); (-2723); 2503; 1992];
    [4974; 3676; 3010; (-1720)];
    [(-4974); 1811; (-282); 4448];
    [6720; (-203); 50; 560]]).
Definition cert_lin5_5 : list nat * list (list Z) :=
  ([0; 1; 2; 3; 4]%nat,
   [[6355; (-3658); 2185; (-1097); 313];
    [313; (-1097); 2185; (-3658); 6355];
    [0; 0; 4096; 0; 0];
    [(-132); 3943; 393; (-146); 38];
    [38; (-146); 393; 3943; (-132)]]).
Definition cert_tri3_3 : list nat * list (list Z) :=
  ([0; 1; 2]%nat,
   [[6827; (-1365); (-1365)];
    [(-1365); 6827; (-1365)];
    [(-1365); (-1365); 6827]]).
Definition cert_tri3_4 : list nat * list (list Z) :=
  ([1; 2; 3]%nat,
   [[8192; (-2048); (-2048)];
    [(-2048); 8192; (-2048)];
    [(-2048); (-2048); 8192]]).
Definition cert_tri3_6 : list nat * list (list Z) :=
  ([3; 4; 5]%nat,
   [[5130; (-517); (-517)];
    [(-517); 5130; (-517)];
    [(-517); (-517); 5130]]).
Definition cert_tri3_7 : list nat * list (list Z) :=
  ([0; 1; 2]%nat,
   [[5288; (-596); (-596)];
    [(-596); 5288; (-596)];
    [(-596); (-596); 5288]]).
Definition cert_tri3_12 : list nat * list (list Z) :=
  ([0; 1; 2]%nat,
   [[(-319); (-319); 4733];
    [4733; (-319); (-319)];
    [(-319); 4733; (-319)]]).
Definition cert_tri3_16 : list nat * list (list Z) :=
  ([7; 8; 9]%nat,
   [[(-244); (-244); 4584];
    [4584; (-244); (-244)];
    [(-244); 4584; (-244)]]).
Definition cert_tri6_3 : list nat * list (list Z) :=
  ([3; 4; 5]%nat,
   [[5461; (-6827); 5461];
    [5461; 5461; (-6827)];
    [(-6827); 5461; 5461]]).
Definition cert_tri6_4 : list nat * list (list Z) :=
  ([0; 3; 4; 5]%nat,
   [[(-64512); 13824; (-34560); 13824];
    [25600; 0; 6400; 0];
    [25600; 0; 19200; (-12800)];
    [25600; (-12800); 19200; 0]]).
Definition cert_tri6_6 : list nat * list (list Z) :=
  ([0; 1; 2; 3; 4; 5]%nat,
   [[517; (-2616); (-2616); 7675; 568; 568];
    [(-2616); 517; (-2616); 568; 7675; 568];
    [(-2616); (-2616); 517; 568; 568; 7675];
    [(-1414); (-1414); 5573; 307; 307; 737];
    [5573; (-1414); (-1414); 737; 307; 307];
    [(-1414); 5573; (-1414); 307; 737; 307]]).
Definition cert_tri6_7 : list nat * list (list Z) :=
  ([0; 1; 2; 3; 4; 5]%nat,
   [[8591; 1091; 1091; (-399); (-3139); (-3139)];
    [1091; 8591; 1091; (-3139); (-399); (-3139)];
    [1091; 1091; 8591; (-3139); (-3139); (-399)];
    [273; 273; 511; (-785); (-785); 4609];
    [511; 273; 273; 4609; (-785); (-785)];
    [273; 511; 273; (-785); 4609; (-785)]]).
Definition cert_tri6_12 : list nat * list (list Z) :=
  ([0; 1; 2; 8; 10; 11]%nat,
   [[907; 897; 5794; (-1738); (-1739); (-25)];
    [7249; 164; 186; 53; (-1778); (-1777)];
    [907; 6505; 186; (-1738); 13; (-1777)];
    [(-1248); 436; 746; (-712); 5478; (-605)];
    [(-1248); 1038; 145; (-712); (-589); 5462];
    [689; (-1501); 746; 5492; (-725); (-605)]]).
Definition cert_tri6_16 : list nat * list (list Z) :=
  ([1; 2; 3; 7; 8; 9]%nat,
   [[(-1110); (-1110); 230; 220; 220; 5645];
    [230; (-1110); (-1110); 5645; 220; 220];
    [(-1110); 230; (-1110); 220; 5645; 220];
    [(-875); 5085; (-875); 174; 414; 174];
    [(-875); (-875); 5085; 174; 174; 414];
    [5085; (-875); (-875); 414; 174; 174]]).
Definition cert_tri10_3 : list nat * list (list Z) :=
  ([5; 6; 9]%nat,
   [[(-4369); (-4369); 3823];
    [(-1456); 5825; 2185];
    [5825; (-1456); 2185]]).
Definition cert_tri10_4 : list nat * list (list Z) :=
  ([5; 6; 8; 9]%nat,
   [[(-19602); (-13166); (-22528); 4096];
    [8578; 4063; 15802; 0];
    [6772; 12190; 9481; 0];
    [14899; 4063; 9481; 0]]).
Definition cert_tri10_6 : list nat * list (list Z) :=
  ([4; 5; 6; 7; 8; 9]%nat,
   [[6016; (-1894); (-7668); 242; (-5773); 3546];
    [1894; 7910; (-7668); (-9562); (-1652); 3546];
    [(-7910); (-6016); 6258; 242; (-1652); 3546];
    [(-58); (-4297); 8102; 12341; 12399; (-3747)];
    [4297; 4239; 8102; 3805; 8044; (-3747)];
    [(-4239); 58; 12283; 12341; 8044; (-3747)]]).
Definition cert_tri10_7 : list nat * list (list Z) :=
  ([2; 3; 4; 5; 7; 8; 9]%nat,
   [[10773; (-2394); (-500); (-5485); 3787; 6682; 0];
    [10773; (-2394); 4288; 1393; (-3091); 1894; 0];
    [10773; (-304); (-500); 1393; 1697; (-196); 0];
    [(-6677); 1484; 4141; (-432); 5315; (-310); 0];
    [(-6677); 1484; 1174; 6799; (-1916); 2657; 0];
    [(-6677); 11682; 4141; 6799; (-4883); (-7541); 0];
    [0; (-4096); (-4096); (-4096); 0; 0; 4096]]).
Definition cert_tri10_12 : list nat * list (list Z) :=
  ([0; 1; 2; 4; 6; 7; 8; 9; 10; 11]%nat,
   [[(-525); (-436); 8846; 598; (-3689); (-3729); 1507; (-255); 1750; 28];
    [8846; (-436); (-525); 598; 28; 1750; (-255); 1507; (-3729); (-3689)];
    [(-525); 8936; (-525); 598; 1790; (-13); (-3972); (-3972); (-13); 1790];
    [22; (-625); 346; (-2169); (-1269); 4991; 1664; 1191; 238; (-294)];
    [346; (-302); (-301); (-2169); 165; 785; 732; 1118; (-1122); 4844];
    [(-301); 21; 22; (-2169); 91; (-147); 5870; (-242); 312; 638];
    [346; (-625); 22; (-2169); (-294); 238; 1191; 1664; 4991; (-1269)];
    [22; 21; (-301); (-2169); 638; 312; (-242); 5870; (-147); 91];
    [(-301); (-302); 346; (-2169); 4844; (-1122); 1118; 732; 785; 165];
    [(-296); 486; (-296); 5225; 772; 418; (-1701); (-1701); 418; 772]]).
Definition cert_tri10_16 : list nat * list (list Z) :=
  ([0; 7; 8; 9; 10; 11; 12; 13; 14; 15]%nat,
   [[(-327); (-594); (-594); 8466; (-2691); 1089; 176; 1089; 176; (-2691)];
    [(-327); 8466; (-594); (-594); 176; (-2691); 1089; 176; (-2691); 1089];
    [(-327); (-594); 8466; (-594); 1089; 176; (-2691); (-2691); 1089; 176];
    [(-165); (-354); (-18); (-689); 97; 769; 18; 23; 99; 4316];
    [(-165); (-689); (-354); (-18); 18; 97; 769; 99; 4316; 23];
    [(-165); (-18); (-689); (-354); 769; 18; 97; 4316; 23; 99];
    [(-165); (-689); (-18); (-354); 99; 4316; 23; 18; 97; 769];
    [(-165); (-354); (-689); (-18); 23; 99; 4316; 97; 769; 18];
    [(-165); (-18); (-354); (-689); 4316; 23; 99; 769; 18; 97];
    [4096; 0; 0; 0; 0; 0; 0; 0; 0; 0]]).
Definition cert_tri15_3 : list nat * list (list Z) :=
  ([12; 13; 14]%nat,
   [[4608; 1152; 1152];
    [1152; 4608; 1152];
    [1152; 1152; 4608]]).
Definition cert_tri15_4 : list nat * list (list Z) :=
  ([6; 12; 13; 14]%nat,
   [[(-19440); 3726; 2106; 1296];
    [10000; 2083; (-417); 0];
    [10000; (-1250); 2917; 0];
    [10000; (-1250); (-417); 3333]]).
Definition cert_tri15_6 : list nat * list (list Z) :=
  ([3; 4; 11; 12; 13; 14]%nat,
   [[(-279); 2514; 1013; (-81); 2549; 2451];
    [(-2209); 73; (-4150); 3765; 226; 2963];
    [3071; (-836); 1013; 2255; 2549; 115];
    [(-1303); 990; 4738; 1296; (-356); (-814)];
    [(-4125); (-2579); (-2811); 478; 2689; (-66)];
    [3595; (-3908); 4738; (-1730); (-356); 2212]]).
Definition cert_tri15_7 : list nat * list (list Z) :=
  ([3; 4; 5; 6; 12; 13; 14]%nat,
   [[(-362); 648; (-1131); 4036; 1804; (-777); (-249)];
    [(-362); (-2668); 2186; 4036; (-1834); 2861; (-249)];
    [2954; (-2668); (-1131); 4036; (-1834); (-777); 3390];
    [2995; 2369; 1624; 7196; (-2850); 1117; 2059];
    [2995; (-1117); 5110; 7196; (-768); (-965); 2059];
    [6481; (-1117); 1624; 7196; (-768); 1117; (-23)];
    [(-4937); 987; (-2962); (-10368); 5431; 2715; 1358]]).
Definition cert_tri15_12 : list nat * list (list Z) :=
  ([3; 4; 5; 6; 7; 8; 9; 10; 11; 12; 13; 14]%nat,
   [[(-2458); (-2458); 1228; 3298; 814; 814; 3298; (-3386); (-3386); (-1); (-13); (-1)];
    [1228; (-2458); (-2458); (-3386); (-3386); 3298; 814; 814; 3298; (-1); (-1); (-13)];
    [(-2458); 1228; (-2458); 814; 3298; (-3386); (-3386); 3298; 814; (-13); (-1); (-1)];
    [(-2797); (-2797); 2896; 758; (-3443); (-3443); 758; 926; 926; 12; 4087; 12];
    [2896; (-2797); (-2797); 926; 926; 758; (-3443); (-3443); 758; 12; 12; 4087];
    [(-2797); 2896; (-2797); (-3443); 758; 926; 926; 758; (-3443); 4087; 12; 12];
    [1773; (-1566); 4407; (-707); (-2075); 1730; 1618; (-2457); 6870; 0; (-2); (-1)];
    [4407; (-1566); 1773; 6870; (-2457); 1618; 1730; (-2075); (-707); 0; (-1); (-2)];
    [(-1566); 1773; 4407; 1618; 1730; (-2075); (-707); 6870; (-2457); (-1); (-2); 0];
    [(-1566); 4407; 1773; 1730; 1618; (-2457); 6870; (-707); (-2075); (-2); (-1); 0];
    [4407; 1773; (-1566); (-2457); 6870; (-707); (-2075); 1730; 1618; (-1); 0; (-2)];
    [1773; 4407; (-1566); (-2075); (-707); 6870; (-2457); 1618; 1730; (-2); 0; (-1)]]).
Definition cert_tri15_16 : list nat * list (list Z) :=
  ([1; 2; 3; 4; 5; 6; 7; 8; 9; 10; 11; 12; 13; 14; 15]%nat,
   [[4527; 4527; 390; (-1641); (-1641); (-5882); 448; 448; 9758; (-2767); (-850); 199; (-850); 199; (-2767)];
    [390; 4527; 4527; (-5882); (-1641); (-1641); 9758; 448; 448; 199; (-2767); (-850); 199; (-2767); (-850)];
    [4527; 390; 4527; (-1641); (-5882); (-1641); 448; 9758; 448; (-850); 199; (-2767); (-2767); (-850); 199];
    [(-93); 4160; (-93); (-2378); 886; (-2378); (-413); 145; (-413); 999; 1798; (-460); (-460); 999; 1798];
    [(-93); (-93); 4160; (-2378); (-2378); 886; (-413); (-413); 145; (-460); 999; 1798; 999; 1798; (-460)];
    [4160; (-93); (-93); 886; (-2378); (-2378); 145; (-413); (-413); 1798; (-460); 999; 1798; (-460); 999];
    [272; (-483); 41; 217; (-111); (-340); (-4); 30; 200; (-127); 1; 13; (-53); (-86); 4525];
    [41; (-483); 272; (-340); (-111); 217; 200; 30; (-4); (-86); 4525; (-53); 13; (-127); 1];
    [41; 272; (-483); (-340); 217; (-111); 200; (-4); 30; 13; (-127); 1; (-86); 4525; (-53)];
    [272; 41; (-483); 217; (-340); (-111); (-4); 200; 30; (-53); (-86); 4525; (-127); 1; 13];
    [(-483); 41; 272; (-111); (-340); 217; 30; 200; (-4); 1; 13; (-127); 4525; (-53); (-86)];
    [(-483); 272; 41; (-111); 217; (-340); 30; (-4); 200; 4525; (-53); (-86); 1; 13; (-127)];
    [1921; 1921; 857; (-33); (-33); 2782; 301; 301; 227; (-1032); (-631); (-411); (-631); (-411); (-1032)];
    [857; 1921; 1921; 2782; (-33); (-33); 227; 301; 301; (-411); (-1032); (-631); (-411); (-1032); (-631)];
    [1921; 857; 1921; (-33); 2782; (-33); 301; 227; 301; (-631); (-411); (-1032); (-1032); (-631); (-411)]]).
Definition cert_qua4_4 : list nat * list (list Z) :=
  ([0; 1; 2; 3]%nat,
   [[7643; (-2048); (-2048); 549];
    [(-2048); 7643; 549; (-2048)];
    [549; (-2048); (-2048); 7643];
    [(-2048); 549; 7643; (-2048)]]).
Definition cert_qua4_9 : list nat * list (list Z) :=
  ([0; 2; 6; 8]%nat,
   [[5375; (-683); (-683); 87];
    [(-683); 5375; 87; (-683)];
    [87; (-683); (-683); 5375];
    [(-683); 87; 5375; (-683)]]).
Definition cert_qua4_16 : list nat * list (list Z) :=
  ([0; 3; 12; 15]%nat,
   [[4783; (-357); (-357); 27];
    [(-357); 4783; 27; (-357)];
    [27; (-357); (-357); 4783];
    [(-357); 27; 4783; (-357)]]).
Definition cert_qua8_4 : list nat * list (list Z) :=
  ([2; 5; 6; 7]%nat,
   [[12288; 3072; (-8393); 11465];
    [(-12288); 5321; (-2249); (-3072)];
    [(-12288); (-5321); 8393; (-3072)];
    [12288; 3072; 2249; 823]]).
Definition cert_qua8_9 : list nat * list (list Z) :=
  ([0; 1; 2; 3; 5; 6; 7; 8]%nat,
   [[8503; (-3128); 683; (-3128); 397; 683; 397; (-311)];
    [683; (-3128); 8503; 397; (-3128); (-311); 397; 683];
    [(-311); 397; 683; 397; (-3128); 683; (-3128); 8503];
    [683; 397; (-311); (-3128); 397; 8503; (-3128); 683];
    [683; 4692; 683; (-1365); (-1365); 683; (-596); 683];
    [683; (-1365); 683; (-596); 4692; 683; (-1365); 683];
    [683; (-596); 683; (-1365); (-1365); 683; 4692; 683];
    [683; (-1365); 683; 4692; (-596); 683; (-1365); 683]]).
Definition cert_qua8_16 : list nat * list (list Z) :=
  ([0; 2; 3; 8; 11; 12; 14; 15]%nat,
   [[5889; (-1827); 876; (-1827); 136; 876; 136; (-164)];
    [155; (-1827); 6611; 136; (-1827); (-110); 136; 823];
    [(-56); 136; 101; 136; (-1827); 101; (-1827); 7332];
    [155; 136; (-110); (-1827); 136; 6611; (-1827); 823];
    [882; 5244; (-1188); (-846); (-846); 543; (-391); 697];
    [209; (-846); 1216; (-391); 5244; 364; (-846); (-854)];
    [209; (-391); 364; (-846); (-846); 1216; 5244; (-854)];
    [882; (-846); 543; 5244; (-391); (-1188); (-846); 697]]).
Definition cert_qua9_4 : list nat * list (list Z) :=
  ([2; 6; 7; 8]%nat,
   [[12288; (-8393); 8393; 1536];
    [(-12288); (-2249); (-8393); 5732];
    [(-12288); 8393; 2249; 412];
    [12288; 2249; (-2249); 1536]]).
Definition cert_qua9_9 : list nat * list (list Z) :=
  ([0; 1; 2; 3; 4; 5; 6; 7; 8]%nat,
   [[8958; (-4038); 1138; (-4038); 1820; (-513); 1138; (-513); 145];
    [1138; (-4038); 8958; (-513); 1820; (-4038); 145; (-513); 1138];
    [145; (-513); 1138; (-513); 1820; (-4038); 1138; (-4038); 8958];
    [1138; (-513); 145; (-4038); 1820; (-513); 8958; (-4038); 1138];
    [0; 6057; 0; 0; (-2731); 0; 0; 769; 0];
    [0; 0; 0; 769; (-2731); 6057; 0; 0; 0];
    [0; 769; 0; 0; (-2731); 0; 0; 6057; 0];
    [0; 0; 0; 6057; (-2731); 769; 0; 0; 0];
    [0; 0; 0; 0; 4096; 0; 0; 0; 0]]).
Definition cert_qua9_16 : list nat * list (list Z) :=
  ([0; 2; 3; 8; 10; 11; 12; 14; 15]%nat,
   [[5953; (-2039); 1024; (-2039); 698; (-351); 1024; (-351); 176];
    [219; (-2039); 6758; (-75); 698; (-2314); 38; (-351); 1162];
    [8; (-75); 248; (-75); 698; (-2314); 248; (-2314); 7672];
    [219; (-75); 38; (-2039); 698; (-351); 6758; (-2314); 1162];
    [699; 5850; (-1611); (-239); (-2003); 552; 120; 1006; (-277)];
    [26; (-239); 793; 215; (-2003); 6641; (-59); 552; (-1828)];
    [26; 215; (-59); (-239); (-2003); 552; 793; 6641; (-1828)];
    [699; (-239); 120; 5850; (-2003); 1006; (-1611); 552; (-277)];
    [82; 687; (-189); 687; 5748; (-1583); (-189); (-1583); 436]]).
Definition cert_qua12_4 : list nat * list (list Z) :=
  ([8; 9; 10; 11]%nat,
   [[(-946); 839; 946; 4623];
    [4623; (-946); 839; 946];
    [839; 946; 4623; (-946)];
    [946; 4623; (-946); 839]]).
Definition cert_qua12_16 : list nat * list (list Z) :=
  ([0; 1; 2; 3; 4; 7; 8; 11; 12; 13; 14; 15]%nat,
   [[8733; (-3601); 1774; (-652); (-3601); 269; 1774; (-132); (-652); 269; (-132); 49];
    [(-652); 1774; (-3601); 8733; 269; (-3601); (-132); 1774; 49; (-132); 269; (-652)];
    [49; (-132); 269; (-652); (-132); 1774; 269; (-3601); (-652); 1774; (-3601); 8733];
    [(-652); 269; (-132); 49; 1774; (-132); (-3601); 269; 8733; (-3601); 1774; (-652)];
    [1245; 4414; 44; 550; (-2311); (-1021); 1138; 503; (-93); (-329); (-3); (-41)];
    [(-93); 1138; (-2311); 1245; (-329); 4414; (-3); 44; (-41); 503; (-1021); 550];
    [(-41); (-3); (-329); (-93); 503; 1138; (-1021); (-2311); 550; 44; 4414; 1245];
    [550; (-1021); 503; (-41); 44; (-3); 4414; (-329); 1245; (-2311); 1138; (-93)];
    [550; 44; 4414; 1245; (-1021); (-2311); 503; 1138; (-41); (-3); (-329); (-93)];
    [(-41); 503; (-1021); 550; (-3); 44; (-329); 4414; (-93); 1138; (-2311); 1245];
    [(-93); (-329); (-3); (-41); 1138; 503; (-2311); (-1021); 1245; 4414; 44; 550];
    [1245; (-2311); 1138; (-93); 4414; (-329); 44; (-3); 550; (-1021); 503; (-41)]]).
Definition cert_qua16_4 : list nat * list (list Z) :=
  ([12; 13; 14; 15]%nat,
   [[4529; 1214; 325; 1214];
    [1214; 4529; 1214; 325];
    [1214; 325; 1214; 4529];
    [325; 1214; 4529; 1214]]).
Definition cert_qua16_9 : list nat * list (list Z) :=
  ([1; 8; 9; 10; 11; 12; 13; 14; 15]%nat,
   [[11378; (-4950); (-314); 6214; 1579; 2751; (-44); 137; (-2703)];
    [(-9102); 7417; 251; 3708; (-1263); 2540; 514; (-205); (-1613)];
    [11378; 1579; (-314); (-314); 1579; (-815); 862; (-44); 137];
    [(-9102); 3960; 3708; (-4971); 7417; (-996); (-205); (-1613); 4051];
    [7282; (-5933); (-2967); (-2967); (-5933); 3626; 2417; 2417; 2417];
    [(-9102); (-1263); 3708; 251; 7417; (-3124); 4051; 514; (-205)];
    [11378; (-4950); 6214; 6214; (-4950); 1845; 137; (-2703); 862];
    [(-9102); 7417; (-4971); 3708; 3960; (-1716); (-1613); 4051; 514];
    [11378; 1579; 6214; (-314); (-4950); 2025; (-2703); 862; (-44)]]).
Definition cert_qua16_16 : list nat * list (list Z) :=
  ([0; 1; 2; 3; 4; 5; 6; 7; 8; 9; 10; 11; 12; 13; 14; 15]%nat,
   [[9548; (-5088); 2506; (-712); (-5088); 2712; (-1336); 380; 2506; (-1336); 658; (-187); (-712); 380; (-187); 53];
    [(-712); 2506; (-5088); 9548; 380; (-1336); 2712; (-5088); (-187); 658; (-1336); 2506; 53; (-187); 380; (-712)];
    [53; (-187); 380; (-712); (-187); 658; (-1336); 2506; 380; (-1336); 2712; (-5088); (-712); 2506; (-5088); 9548];
    [(-712); 380; (-187); 53; 2506; (-1336); 658; (-187); (-5088); 2712; (-1336); 380; 9548; (-5088); 2506; (-712)];
    [(-31); 6237; 62; (-14); 17; (-3324); (-33); 7; (-8); 1637; 16; (-4); 2; (-465); (-5); 1];
    [2; (-8); 17; (-31); (-465); 1637; (-3324); 6237; (-5); 16; (-33); 62; 1; (-4); 7; (-14)];
    [1; (-5); (-465); 2; (-4); 16; 1637; (-8); 7; (-33); (-3324); 17; (-14); 62; 6237; (-31)];
    [(-14); 7; (-4); 1; 62; (-33); 16; (-5); 6237; (-3324); 1637; (-465); (-31); 17; (-8); 2];
    [(-14); 62; 6237; (-31); 7; (-33); (-3324); 17; (-4); 16; 1637; (-8); 1; (-5); (-465); 2];
    [1; (-4); 7; (-14); (-5); 16; (-33); 62; (-465); 1637; (-3324); 6237; 2; (-8); 17; (-31)];
    [2; (-465); (-5); 1; (-8); 1637; 16; (-4); 17; (-3324); (-33); 7; (-31); 6237; 62; (-14)];
    [(-31); 17; (-8); 2; 6237; (-3324); 1637; (-465); 62; (-33); 16; (-5); (-14); 7; (-4); 1];
    [0; (-20); 0; 0; (-20); 4074; 40; (-9); 0; 40; 0; 0; 0; (-9); 0; 0];
    [0; 0; (-20); 0; (-9); 40; 4074; (-20); 0; 0; 40; 0; 0; 0; (-9); 0];
    [0; 0; (-9); 0; 0; 0; 40; 0; (-9); 40; 4074; (-20); 0; 0; (-20); 0];
    [0; (-9); 0; 0; 0; 40; 0; 0; (-20); 4074; 40; (-9); 0; (-20); 0; 0]]).
Definition cert_qua17_4 : list nat * list (list Z) :=
  ([9; 11; 13; 15]%nat,
   [[4894; (-404); 290; (-1324)];
    [(-1324); 4894; (-404); 290];
    [(-404); 290; (-1324); 4894];
    [290; (-1324); 4894; (-404)]]).
Definition cert_qua17_9 : list nat * list (list Z) :=
  ([4; 5; 6; 7; 8; 11; 13; 15; 16]%nat,
   [[(-1941); (-1274); (-661); (-1813); 0; (-2504); (-1010); (-2296); 2610];
    [3883; 2429; 1425; 3641; 0; 3788; 2271; 2612; 4129];
    [(-1941); (-748); (-1118); (-1881); 0; 2909; (-2125); (-1309); (-2675)];
    [875; 1222; 1699; 7581; 0; 1777; 2009; 4623; 4391];
    [(-1750); (-3394); (-3609); (-5810); 4096; (-4007); (-4530); (-5209); (-4686)];
    [875; 5437; 2632; 2433; 0; 3788; 4283; 2612; 2117];
    [(-247); (-527); (-3005); (-1910); 0; (-683); (-2593); 2283; (-2207)];
    [493; 1604; 5532; 3748; 0; 1777; 4020; 4623; 2380];
    [(-247); (-2969); (-882); (-1592); 0; (-2504); 2583; (-2296); (-983)]]).
Definition cert_tet4_4 : list nat * list (list Z) :=
  ([0; 1; 2; 3]%nat,
   [[7893; (-1266); (-1266); (-1266)];
    [(-1266); 7893; (-1266); (-1266)];
    [(-1266); (-1266); 7893; (-1266)];
    [(-1266); (-1266); (-1266); 7893]]).
Definition cert_tet4_5 : list nat * list (list Z) :=
  ([1; 2; 3; 4]%nat,
   [[10240; (-2048); (-2048); (-2048)];
    [(-2048); (-2048); (-2048); 10240];
    [(-2048); (-2048); 10240; (-2048)];
    [(-2048); 10240; (-2048); (-2048)]]).
Definition cert_tet4_8 : list nat * list (list Z) :=
  ([4; 5; 6; 7]%nat,
   [[6393; (-766); (-766); (-766)];
    [(-766); 6393; (-766); (-766)];
    [(-766); (-766); 6393; (-766)];
    [(-766); (-766); (-766); 6393]]).
Definition cert_tet4_14 : list nat * list (list Z) :=
  ([0; 1; 2; 3]%nat,
   [[5907; (-604); (-604); (-604)];
    [(-604); 5907; (-604); (-604)];
    [(-604); (-604); 5907; (-604)];
    [(-604); (-604); (-604); 5907]]).
Definition cert_tet4_15 : list nat * list (list Z) :=
  ([0; 1; 2; 3]%nat,
   [[5884; (-596); (-596); (-596)];
    [(-596); 5884; (-596); (-596)];
    [(-596); (-596); 5884; (-596)];
    [(-596); (-596); (-596); 5884]]).
Definition cert_tet4_24 : list nat * list (list Z) :=
  ([4; 5; 6; 7]%nat,
   [[4693; (-199); (-199); (-199)];
    [(-199); 4693; (-199); (-199)];
    [(-199); (-199); 4693; (-199)];
    [(-199); (-199); (-199); 4693]]).
Definition cert_tet10_4 : list nat * list (list Z) :=
  ([4; 6; 7; 8]%nat,
   [[8284; (-1582); 8284; (-9867)];
    [8284; (-1582); (-8284); 6702];
    [(-8284); 14987; (-8284); 6702];
    [(-8284); (-1582); 8284; 6702]]).
Definition cert_tet10_5 : list nat * list (list Z) :=
  ([3; 6; 7; 8; 9]%nat,
   [[(-131072); (-73728); 32768; (-40960); 32768];
    [36864; 27648; 0; 9216; (-18432)];
    [36864; 9216; 0; 9216; 0];
    [36864; 27648; (-18432); 9216; 0];
    [36864; 27648; (-18432); 27648; (-18432)]]).
Definition cert_tet10_8 : list nat * list (list Z) :=
  ([0; 1; 2; 3; 6; 7; 8; 9]%nat,
   [[1764; (-4582); (-4582); (-4582); (-2201); (-4244); 2043; 4244];
    [(-4582); 1764; (-4582); (-4582); (-2201); 4244; (-6445); 4244];
    [(-4582); (-4582); 1764; (-4582); (-2201); 4244; 2043; (-4244)];
    [(-4582); (-4582); (-4582); 1764; 6287; (-4244); 2043; (-4244)];
    [11985; 1364; 1364; 1364; 3783; 1264; 2519; (-1264)];
    [1364; 11985; 1364; 1364; 3783; (-1264); 5047; (-1264)];
    [1364; 1364; 11985; 1364; 3783; (-1264); 2519; 1264];
    [1364; 1364; 1364; 11985; 1256; 1264; 2519; 1264]]).
Definition cert_tet10_14 : list nat * list (list Z) :=
  ([0; 1; 2; 3; 8; 9; 10; 11; 12; 13]%nat,
   [[12371; 2020; 2020; 2020; (-913); (-913); (-913); (-3865); (-3865); (-3865)];
    [2020; 12371; 2020; 2020; (-913); (-3865); (-3865); (-913); (-913); (-3865)];
    [2020; 2020; 12371; 2020; (-3865); (-913); (-3865); (-913); (-3865); (-913)];
    [2020; 2020; 2020; 12371; (-3865); (-3865); (-913); (-3865); (-913); (-913)];
    [654; 654; 654; 654; (-217); (-774); (-774); (-774); (-774); 4791];
    [654; 654; 654; 654; (-774); (-774); 4791; (-217); (-774); (-774)];
    [654; 654; 654; 654; (-774); (-217); (-774); (-774); 4791; (-774)];
    [654; 654; 654; 654; (-774); (-774); (-217); 4791; (-774); (-774)];
    [654; 654; 654; 654; (-774); 4791; (-774); (-774); (-217); (-774)];
    [654; 654; 654; 654; 4791; (-774); (-774); (-774); (-774); (-217)]]).
Definition cert_tet10_15 : list nat * list (list Z) :=
  ([0; 1; 2; 3; 8; 9; 10; 11; 12; 13]%nat,
   [[11793; 1542; 1542; 1542; (-3593); (-3593); (-3593); (-515); (-515); (-515)];
    [1542; 11793; 1542; 1542; (-3593); (-515); (-515); (-3593); (-3593); (-515)];
    [1542; 1542; 11793; 1542; (-515); (-3593); (-515); (-3593); (-515); (-3593)];
    [1542; 1542; 1542; 11793; (-515); (-515); (-3593); (-515); (-3593); (-3593)];
    [684; 684; 684; 684; 5146; (-911); (-911); (-911); (-911); (-142)];
    [684; 684; 684; 684; (-911); (-911); (-142); 5146; (-911); (-911)];
    [684; 684; 684; 684; (-911); 5146; (-911); (-911); (-142); (-911)];
    [684; 684; 684; 684; (-911); (-911); 5146; (-142); (-911); (-911)];
    [684; 684; 684; 684; (-911); (-142); (-911); (-911); 5146; (-911)];
    [684; 684; 684; 684; (-142); (-911); (-911); (-911); (-911); 5146]]).
Definition cert_tet10_24 : list nat * list (list Z) :=
  ([4; 5; 6; 7; 13; 16; 17; 18; 20; 21]%nat,
   [[6077; 380; (-62); 472; (-1188); 264; 188; (-1111); (-1096); 172];
    [2; 6455; 384; 25; 184; (-1107); 188; (-1111); 122; (-1045)];
    [449; (-39); 6459; (-2); (-1033); 110; (-1111); 188; 194; (-1118)];
    [2; 407; 384; 6073; 184; (-1107); (-1111); 188; (-1178); 254];
    [1110; (-1296); 457; 416; (-756); (-1180); 297; 6983; (-763); (-1173)];
    [559; 1373; (-1290); 44; (-1154); (-782); (-1243); (-692); 251; 7030];
    [(-1717); 471; 1348; 585; 6951; 329; (-692); (-1243); (-1223); (-712)];
    [1110; 823; 457; (-1703); (-756); (-1180); (-1243); (-692); 6913; 368];
    [30; (-1276); 797; 1135; 289; 6991; (-692); (-1243); (-825); (-1110)];
    [559; 314; (-1290); 1104; (-1154); (-782); 6983; 297; (-739); (-1196)]]).
Definition cert_tet20_4 : list nat * list (list Z) :=
  ([4; 13; 15; 18]%nat,
   [[9434; 0; (-3145); 4440];
    [(-5547); (-2969); (-5547); 3640];
    [(-3145); 0; 9434; 4440];
    [(-3145); 12579; (-3145); 4440]]).
Definition cert_tet20_5 : list nat * list (list Z) :=
  ([9; 16; 17; 18; 19]%nat,
   [[(-145636); 14564; 14564; (-131072); 87381];
    [49152; 0; 0; 49152; (-40960)];
    [49152; 0; 0; 32768; (-24576)];
    [49152; 0; (-16384); 49152; (-24576)];
    [49152; (-16384); 0; 49152; (-24576)]]).
Definition cert_tet20_8 : list nat * list (list Z) :=
  ([3; 5; 7; 9; 16; 17; 18; 19]%nat,
   [[(-12402); (-556); (-556); (-2074); (-198); (-198); (-57); 4352];
    [(-13701); 2055; (-94); (-1772); 4384; (-165); (-10); (-165)];
    [(-13701); (-94); 2055; (-1772); (-165); 4384; (-10); (-165)];
    [(-13701); (-94); (-94); 378; (-165); (-165); 4540; (-165)];
    [27046; (-5076); (-5076); (-1765); (-212); (-212); (-519); (-34)];
    [20373; 8329; (-2706); (-212); 132; (-45); (-276); (-45)];
    [20373; (-2706); 8329; (-212); (-45); 132; (-276); (-45)];
    [20373; (-2706); (-2706); 10823; (-45); (-45); (-99); (-45)]]).
Definition cert_tet20_14 : list nat * list (list Z) :=
  ([0; 4; 6; 7; 8; 11; 12; 13; 14; 15; 16; 17; 18; 19]%nat,
   [[16326; 1853; 3668; (-1815); 1853; (-191); 414; (-605); (-1210); 1019; (-65); (-65); (-65); (-282)];
    [16326; 1853; (-4462); 8469; 4007; (-191); (-1739); (-605); 6920; (-9264); 738; (-65); (-65); (-1084)];
    [16326; 4007; (-6616); 8469; 4007; (-2344); (-1739); 1549; 944; (-3288); (-65); 738; (-65); (-1084)];
    [16326; 4007; (-4462); 8469; 1853; (-2344); (-9869); 7525; 9074; (-9264); (-65); (-65); 738; (-1084)];
    [(-2219); 428; 196; 232; 428; (-3287); (-3365); 77; 154; (-3442); (-1118); (-1118); (-1118); 5650];
    [(-2219); 428; (-78); (-3779); (-3858); (-3287); 921; 77; 429; 569; 5512; (-1118); (-1118); (-979)];
    [(-2219); (-3858); 4208; (-3779); (-3858); 999; 921; (-4209); (-4132); 5130; (-1118); 5512; (-1118); (-979)];
    [(-2219); (-3858); (-78); (-3779); 428; 999; 647; 352; (-3857); 569; (-1118); (-1118); 5512; (-979)];
    [(-6674); (-2118); 2782; (-3690); (-907); 12902; 8623; (-7814); (-7969); 8778; 275; 275; 275; 692];
    [(-6674); (-907); 1571; (-3690); (-907); 808; 8623; 4280; (-3534); 4343; 275; 275; 275; 692];
    [(-6674); (-907); 2782; (-3690); (-2118); 808; 964; (-155); 4124; 8778; 275; 275; 275; 692];
    [(-6674); (-907); (-6088); 5180; 11186; 808; (-3471); 4280; 4124; (-4527); 275; 275; 275; 692];
    [(-6674); (-907); 6006; 5180; (-907); 808; (-247); (-155); 900; (-92); 275; 275; 275; 692];
    [(-6674); 11186; (-6088); 5180; (-907); (-402); (-247); 1056; 5335; (-4527); 275; 275; 275; 692]]).
Definition cert_tet20_24 : list nat * list (list Z) :=
  ([4; 5; 6; 7; 8; 9; 10; 11; 12; 13; 14; 15; 16; 17; 18; 19; 20; 21; 22; 23]%nat,
   [[8250; (-43); (-43); (-43); 288; 956; 956; 956; (-2459); (-2459); (-2459); (-258); (-258); (-258); 582; 582; 582; (-258); (-258); (-258)];
    [(-43); 8250; (-43); (-43); 956; 288; 956; 956; 582; (-258); (-258); (-2459); (-2459); (-258); (-2459); (-258); (-258); 582; 582; (-258)];
    [(-43); (-43); 8250; (-43); 956; 956; 288; 956; (-258); 582; (-258); 582; (-258); (-2459); (-258); (-2459); (-258); (-2459); (-258); 582];
    [(-43); (-43); (-43); 8250; 956; 956; 956; 288; (-258); (-258); 582; (-258); 582; 582; (-258); (-258); (-2459); (-258); (-2459); (-2459)];
    [255; (-329); (-504); (-504); (-394); (-122); (-2833); (-2833); 7810; (-1282); (-1282); 117; 117; (-57); 1552; 1378; 1378; 844; 844; (-57)];
    [(-329); 255; (-504); (-504); (-122); (-394); (-2833); (-2833); 1552; 117; 117; (-1282); (-1282); (-57); 7810; 844; 844; 1378; 1378; (-57)];
    [255; (-504); (-329); (-504); (-394); (-2833); (-122); (-2833); (-1282); 7810; (-1282); 844; (-57); 117; 1378; 1552; 1378; 117; (-57); 844];
    [(-329); (-504); 255; (-504); (-122); (-2833); (-394); (-2833); 117; 1552; 117; 1378; (-57); (-1282); 844; 7810; 844; (-1282); (-57); 1378];
    [255; (-504); (-504); (-329); (-394); (-2833); (-2833); (-122); (-1282); (-1282); 7810; (-57); 844; 844; 1378; 1378; 1552; (-57); 117; 117];
    [(-329); (-504); (-504); 255; (-122); (-2833); (-2833); (-394); 117; 117; 1552; (-57); 1378; 1378; 844; 844; 7810; (-57); (-1282); (-1282)];
    [(-504); (-504); 255; (-329); (-2833); (-2833); (-394); (-122); (-57); 1378; 844; 1378; 844; 7810; (-57); (-1282); 117; (-1282); 117; 1552];
    [(-504); (-504); (-329); 255; (-2833); (-2833); (-122); (-394); (-57); 844; 1378; 844; 1378; 1552; (-57); 117; (-1282); 117; (-1282); 7810];
    [(-504); 255; (-504); (-329); (-2833); (-394); (-2833); (-122); 1378; (-57); 844; (-1282); 7810; 844; (-1282); (-57); 117; 1378; 1552; 117];
    [(-504); (-329); (-504); 255; (-2833); (-122); (-2833); (-394); 844; (-57); 1378; 117; 1552; 1378; 117; (-57); (-1282); 844; 7810; (-1282)];
    [(-504); 255; (-329); (-504); (-2833); (-394); (-122); (-2833); 1378; 844; (-57); 7810; (-1282); 117; (-1282); 117; (-57); 1552; 1378; 844];
    [(-504); (-329); 255; (-504); (-2833); (-122); (-394); (-2833); 844; 1378; (-57); 1552; 117; (-1282); 117; (-1282); (-57); 7810; 844; 1378];
    [(-90); (-246); (-90); (-90); (-741); 4384; (-741); (-741); 108; 176; 176; 356; 356; 176; 356; 176; 176; 108; 108; 176];
    [(-90); (-90); (-246); (-90); (-741); (-741); 4384; (-741); 176; 108; 176; 108; 176; 356; 176; 356; 176; 356; 176; 108];
    [(-90); (-90); (-90); (-246); (-741); (-741); (-741); 4384; 176; 176; 108; 176; 108; 108; 176; 176; 356; 176; 356; 356];
    [(-246); (-90); (-90); (-90); 4384; (-741); (-741); (-741); 356; 356; 356; 176; 176; 176; 108; 108; 108; 176; 176; 176]]).
Definition cert_hex8_8 : list nat * list (list Z) :=
  ([0; 1; 2; 3; 4; 5; 6; 7]%nat,
   [[10441; (-2798); (-2798); 750; (-2798); 750; 750; (-201)];
    [(-2798); 10441; 750; (-2798); 750; (-2798); (-201); 750];
    [750; (-2798); (-2798); 10441; (-201); 750; 750; (-2798)];
    [(-2798); 750; 10441; (-2798); 750; (-201); (-2798); 750];
    [(-2798); 750; 750; (-201); 10441; (-2798); (-2798); 750];
    [750; (-2798); (-201); 750; (-2798); 10441; 750; (-2798)];
    [(-201); 750; 750; (-2798); 750; (-2798); (-2798); 10441];
    [750; (-201); (-2798); 750; (-2798); 750; 10441; (-2798)]]).
Definition cert_hex8_14 : list nat * list (list Z) :=
  ([6; 7; 8; 9; 10; 11; 12; 13]%nat,
   [[(-16); 120; 120; (-874); 120; (-874); (-874); 6376];
    [120; (-16); (-874); 120; (-874); 120; 6376; (-874)];
    [(-874); 120; 120; (-16); 6376; (-874); (-874); 120];
    [120; (-874); (-16); 120; (-874); 6376; 120; (-874)];
    [120; (-874); (-874); 6376; (-16); 120; 120; (-874)];
    [(-874); 120; 6376; (-874); 120; (-16); (-874); 120];
    [6376; (-874); (-874); 120; (-874); 120; 120; (-16)];
    [(-874); 6376; 120; (-874); 120; (-874); (-16); 120]]).
Definition cert_hex8_27 : list nat * list (list Z) :=
  ([0; 2; 6; 8; 18; 20; 24; 26]%nat,
   [[6157; (-782); (-782); 99; (-782); 99; 99; (-13)];
    [(-782); 6157; 99; (-782); 99; (-782); (-13); 99];
    [99; (-782); (-782); 6157; (-13); 99; 99; (-782)];
    [(-782); 99; 6157; (-782); 99; (-13); (-782); 99];
    [(-782); 99; 99; (-13); 6157; (-782); (-782); 99];
    [99; (-782); (-13); 99; (-782); 6157; 99; (-782)];
    [(-13); 99; 99; (-782); 99; (-782); (-782); 6157];
    [99; (-13); (-782); 99; (-782); 99; 6157; (-782)]]).
Definition cert_hex8_64 : list nat * list (list Z) :=
  ([0; 3; 12; 15; 48; 51; 60; 63]%nat,
   [[5169; (-386); (-386); 29; (-386); 29; 29; (-2)];
    [(-386); 5169; 29; (-386); 29; (-386); (-2); 29];
    [29; (-386); (-386); 5169; (-2); 29; 29; (-386)];
    [(-386); 29; 5169; (-386); 29; (-2); (-386); 29];
    [(-386); 29; 29; (-2); 5169; (-386); (-386); 29];
    [29; (-386); (-2); 29; (-386); 5169; 29; (-386)];
    [(-2); 29; 29; (-386); 29; (-386); (-386); 5169];
    [29; (-2); (-386); 29; (-386); 29; 5169; (-386)]]).
Definition cert_hex20_6 : list nat * list (list Z) :=
  ([11; 14; 15; 17; 18; 19]%nat,
   [[0; (-4096); 4096; 0; 0; 4096];
    [0; (-4096); 4096; 0; 8192; (-4096)];
    [0; 4096; (-4096); 8192; (-8192); 4096];
    [0; 4096; (-4096); 0; 0; 4096];
    [8192; 4096; (-4096); 0; 0; (-4096)];
    [0; 4096; 4096; 0; 0; (-4096)]]).
Definition cert_hex20_8 : list nat * list (list Z) :=
  ([5; 11; 12; 13; 16; 17; 18; 19]%nat,
   [[21283; (-5321); (-14537); 9216; 20982; 6445; 1124; 1124];
    [(-21283); 1426; (-3895); (-5321); (-5622); 5020; (-4196); (-301)];
    [(-21283); 19858; 14537; (-5321); (-24054); (-9517); (-4196); (-4196)];
    [21283; (-5321); 3895; (-9216); 6445; 6445; 15661; 1124];
    [(-21283); 5321; 14537; (-9216); (-9517); (-9517); (-301); (-4196)];
    [21283; (-1426); 3895; 5321; 2550; 6445; 1124; 1124];
    [21283; (-19858); (-14537); 5321; 20982; 10340; 1124; 15661];
    [(-21283); 5321; (-3895); 9216; (-5622); (-9517); (-4196); (-4196)]]).
Definition cert_hex20_14 : list nat * list (list Z) :=
  ([0; 1; 2; 3; 4; 5; 6; 7; 8; 9; 14; 15; 17; 19]%nat,
   [[4154; (-2314); (-4404); (-612); (-612); (-4404); 361; 1478; (-5329); 2493; (-3975); 1138; 2493; 1138];
    [361; 1478; (-612); (-4404); (-4404); (-612); 4154; (-2314); (-3975); 1138; (-5329); 2493; 1138; 2493];
    [(-612); 1478; 361; (-4404); 4154; (-612); (-4404); (-2314); 1138; (-3975); 2493; (-5329); 1138; 2493];
    [(-4404); (-2314); 4154; (-612); 361; (-4404); (-612); 1478; 2493; (-5329); 1138; (-3975); 2493; 1138];
    [(-612); 1478; (-612); 4154; (-4404); 361; (-4404); (-2314); 1138; 1138; 2493; 2493; (-3975); (-5329)];
    [(-4404); (-2314); (-4404); 361; (-612); 4154; (-612); 1478; 2493; 2493; 1138; 1138; (-5329); (-3975)];
    [1525; (-1851); 34; 34; 34; 34; 10900; (-1851); (-2237); 2451; 4795; 107; 2451; 107];
    [34; (-361); 34; 34; 34; 34; 34; 9015; 107; 107; 2451; 2451; 107; 2451];
    [34; (-1851); 34; 1525; 34; 10900; 34; (-1851); 107; 107; 2451; 2451; 4795; (-2237)];
    [34; (-1851); 1525; 34; 10900; 34; 34; (-1851); 2451; (-2237); 107; 4795; 2451; 107];
    [34; (-1851); 10900; 34; 1525; 34; 34; (-1851); 107; 4795; 2451; (-2237); 107; 2451];
    [34; (-1851); 34; 10900; 34; 1525; 34; (-1851); 2451; 2451; 107; 107; (-2237); 4795];
    [34; 9015; 34; 34; 34; 34; 34; (-361); 2451; 2451; 107; 107; 2451; 107];
    [10900; (-1851); 34; 34; 34; 34; 1525; (-1851); 4795; 107; (-2237); 2451; 107; 2451]]).
Definition cert_hex20_27 : list nat * list (list Z) :=
  ([0; 1; 2; 3; 5; 6; 7; 8; 9; 11; 15; 17; 18; 19; 20; 21; 23; 24; 25; 26]%nat,
   [[11531; (-3583); 554; (-3583); 455; 554; 455; (-327); (-3583); 455; 455; (-58); 554; 455; (-327); 455; (-58); (-327); (-58); 74];
    [554; (-3583); 11531; 455; (-3583); (-327); 455; 554; 455; (-3583); (-58); 455; (-327); 455; 554; (-58); 455; 74; (-58); (-327)];
    [(-327); 455; 554; 455; (-3583); 554; (-3583); 11531; (-58); 455; 455; (-3583); 74; (-58); (-327); (-58); 455; (-327); 455; 554];
    [554; 455; (-327); (-3583); 455; 11531; (-3583); 554; 455; (-58); (-3583); 455; (-327); (-58); 74; 455; (-58); 554; 455; (-327)];
    [554; 455; (-327); 455; (-58); (-327); (-58); 74; (-3583); 455; 455; (-58); 11531; (-3583); 554; (-3583); 455; 554; 455; (-327)];
    [(-327); 455; 554; (-58); 455; 74; (-58); (-327); 455; (-3583); (-58); 455; 554; (-3583); 11531; 455; (-3583); (-327); 455; 554];
    [74; (-58); (-327); (-58); 455; (-327); 455; 554; (-58); 455; 455; (-3583); (-327); 455; 554; 455; (-3583); 554; (-3583); 11531];
    [(-327); (-58); 74; 455; (-58); 554; 455; (-327); 455; (-58); (-3583); 455; 554; 455; (-327); (-3583); 455; 11531; (-3583); 554];
    [1564; 5375; 1564; (-1564); (-1564); 683; (-683); 683; (-1564); (-1564); 199; 199; 683; (-683); 683; 199; 199; (-199); 87; (-199)];
    [683; (-1564); 1564; (-683); 5375; 683; (-1564); 1564; 199; (-1564); 199; (-1564); (-199); 199; 683; 87; (-683); (-199); 199; 683];
    [683; (-683); 683; (-1564); (-1564); 1564; 5375; 1564; 199; 199; (-1564); (-1564); (-199); 87; (-199); 199; 199; 683; (-683); 683];
    [1564; (-1564); 683; 5375; (-683); 1564; (-1564); 683; (-1564); 199; (-1564); 199; 683; 199; (-199); (-683); 87; 683; 199; (-199)];
    [683; (-683); 683; 199; 199; (-199); 87; (-199); (-1564); (-1564); 199; 199; 1564; 5375; 1564; (-1564); (-1564); 683; (-683); 683];
    [(-199); 199; 683; 87; (-683); (-199); 199; 683; 199; (-1564); 199; (-1564); 683; (-1564); 1564; (-683); 5375; 683; (-1564); 1564];
    [(-199); 87; (-199); 199; 199; 683; (-683); 683; 199; 199; (-1564); (-1564); 683; (-683); 683; (-1564); (-1564); 1564; 5375; 1564];
    [683; 199; (-199); (-683); 87; 683; 199; (-199); (-1564); 199; (-1564); 199; 1564; (-1564); 683; 5375; (-683); 1564; (-1564); 683];
    [1564; (-1564); 683; (-1564); 199; 683; 199; (-199); 5375; (-683); (-683); 87; 1564; (-1564); 683; (-1564); 199; 683; 199; (-199)];
    [683; (-1564); 1564; 199; (-1564); (-199); 199; 683; (-683); 5375; 87; (-683); 683; (-1564); 1564; 199; (-1564); (-199); 199; 683];
    [(-199); 199; 683; 199; (-1564); 683; (-1564); 1564; 87; (-683); (-683); 5375; (-199); 199; 683; 199; (-1564); 683; (-1564); 1564];
    [683; 199; (-199); (-1564); 199; 1564; (-1564); 683; (-683); 87; 5375; (-683); 683; 199; (-199); (-1564); 199; 1564; (-1564); 683]]).
Definition cert_hex20_64 : list nat * list (list Z) :=
  ([0; 2; 3; 4; 11; 12; 13; 15; 28; 32; 35; 47; 48; 49; 51; 55; 56; 60; 62; 63]%nat,
   [[7741; (-1975); 902; (-1975); 147; 6; 147; (-115); 147; (-1975); 147; (-11); 844; 147; (-111); (-11); 147; (-115); (-11); 17];
    [65; (-1975); 7741; 147; (-1975); (-111); 147; 902; (-11); 147; (-1975); 147; (-173); 147; 844; 147; (-11); 12; (-11); (-111)];
    [(-115); 147; 65; 147; (-1975); 844; (-1975); 7741; 147; (-11); 147; (-1975); 17; (-11); (-173); 147; (-11); (-53); 147; 844];
    [902; 147; (-115); (-1975); 147; 8521; (-1975); 65; (-1975); 147; (-11); 147; (-111); (-11); 17; (-11); 147; 65; 147; (-173)];
    [65; 147; (-115); 147; (-11); (-111); (-11); 12; 147; (-1975); 147; (-11); 8521; (-1975); 6; 147; (-1975); 902; 147; (-111)];
    [(-53); 147; 65; (-11); 147; 17; (-11); (-115); (-11); 147; (-1975); 147; 844; (-1975); 8521; (-1975); 147; (-115); 147; 6];
    [12; (-11); (-53); (-11); 147; (-173); 147; 65; 147; (-11); 147; (-1975); (-111); 147; 844; (-1975); 147; 65; (-1975); 8521];
    [(-115); (-11); 12; 147; (-11); 844; 147; (-53); (-1975); 147; (-11); 147; 6; 147; (-111); 147; (-1975); 7741; (-1975); 844];
    [1591; 5666; (-1007); (-914); (-914); 345; (-423); 566; 68; (-914); (-914); 68; 733; (-423); 539; 68; 68; (-64); 32; (-77)];
    [372; (-914); 1591; (-423); 5666; 539; (-914); (-1007); 68; 68; (-914); (-914); (-91); 68; 733; (-423); 32; (-50); 68; 539];
    [566; (-423); 372; (-914); (-914); (-646); 5666; 1591; (-914); 68; 68; (-914); (-77); 32; (-91); 68; 68; 178; (-423); 733];
    [(-1007); (-914); 566; 5666; (-423); 1951; (-914); 372; (-914); (-914); 68; 68; 539; 68; (-77); 32; (-423); 372; 68; (-91)];
    [178; (-423); 372; 68; 68; (-77); 32; (-64); 68; (-914); (-914); 68; (-646); 5666; 1951; (-914); (-914); 566; (-423); 345];
    [(-50); 68; 178; 32; (-423); (-91); 68; 372; 68; 68; (-914); (-914); 539; (-914); (-646); 5666; (-423); 372; (-914); 1951];
    [(-64); 32; (-50); 68; 68; 733; (-423); 178; (-914); 68; 68; (-914); 345; (-423); 539; (-914); (-914); 1591; 5666; (-646)];
    [372; 68; (-64); (-423); 32; 539; 68; (-50); (-914); (-914); 68; 68; 1951; (-914); 345; (-423); 5666; (-1007); (-914); 539];
    [1591; (-914); 566; (-914); 68; 345; 68; (-64); (-423); 5666; (-423); 32; (-646); (-914); 345; 68; (-914); 566; 68; (-77)];
    [178; (-914); 1591; 68; (-914); (-77); 68; 566; 32; (-423); 5666; (-423); 733; (-914); (-646); (-914); 68; (-64); 68; 345];
    [(-64); 68; 178; 68; (-914); 733; (-914); 1591; (-423); 32; (-423); 5666; (-77); 68; 733; (-914); 68; 178; (-914); (-646)];
    [566; 68; (-64); (-914); 68; (-646); (-914); 178; 5666; (-423); 32; (-423); 345; 68; (-77); 68; (-914); 1591; (-914); 733]]).
Definition cert_hex32_6 : list nat * list (list Z) :=
  ([3; 5; 6; 7; 23; 31]%nat,
   [[0; 0; 0; 13107; 14564; 14564];
    [0; 0; (-13107); 26214; 14564; 14564];
    [0; (-13107); 13107; (-13107); (-14564); 0];
    [0; 0; 0; (-13107); (-14564); 0];
    [(-13107); 0; 0; 0; 0; (-14564)];
    [0; 0; 0; (-13107); 0; (-14564)]]).
Definition cert_hex32_8 : list nat * list (list Z) :=
  ([10; 13; 20; 23; 24; 27; 28; 31]%nat,
   [[(-1615); (-1369); (-630); 1615; 6961; 500; (-992); 992];
    [6028; 633; 1232; (-433); (-1865); (-1865); 1465; 266];
    [433; 6228; 1232; (-433); (-1865); (-134); 1465; (-1465)];
    [(-1615); (-1369); 869; 116; 500; 500; 5469; 992];
    [(-433); 1232; 633; 6028; (-1865); (-1865); 266; 1465];
    [1615; (-630); (-1369); (-1615); 500; 6961; 992; (-992)];
    [116; 869; (-1369); (-1615); 500; 500; 992; 5469];
    [(-433); 1232; 6228; 433; (-134); (-1865); (-1465); 1465]]).
Definition cert_hex32_14 : list nat * list (list Z) :=
  ([0; 3; 6; 7; 8; 14; 15; 16; 18; 20; 26; 28; 30; 31]%nat,
   [[(-6796); 6575; (-17736); 11603; (-8198); 1783; 6015; 0; (-2050); (-9048); (-4099); 0; 6082; 3766];
    [(-11358); 8856; (-4049); 197; (-13702); 407; 8767; 0; (-3425); (-3544); (-6851); 0; 9522; 3078];
    [5261; (-12976); 1815; (-454); 4380; (-10894); (-7447); 0; 1095; 1369; 2190; 0; 2053; 1506];
    [(-10707); 2992; 1815; (-454); 4380; (-6078); (-12263); 0; 1095; 1369; 2190; 0; 2053; 1506];
    [3631; 2992; 1815; (-14792); 4380; 4928; (-274); 0; 1095; 1369; 2190; 0; (-8953); (-10484)];
    [3631; (-12976); 1815; 1176; 4380; 4928; (-274); 0; 1095; 1369; 2190; 0; (-13769); (-5668)];
    [(-1222); 3818; 1847; 4419; (-1115); 4038; 2564; 126; (-1069); 6522; (-432); (-916); 1691; 5190];
    [3929; 1321; 1876; 1735; 5889; 5592; (-1190); (-916); 1131; 561; 2927; 126; (-3510); 5990];
    [3267; (-3282); 6479; 2397; 1324; (-561); (-1); (-916); 6095; 5125; (-254); 126; 1259; 4402];
    [5075; (-4762); 63; 8485; (-2254); (-16); 3626; 6680; 1923; 1107; (-1001); (-17); 2050; 4501];
    [(-635); 7222; 6337; (-4063); 382; 4215; 1563; (-17); (-245); 5168; (-725); 6680; (-862); 441];
    [3526; 4566; 1098; (-329); 4612; 5470; (-1198); 126; 1261; 795; 2432; (-916); 3123; 894];
    [7571; (-2391); 8056; (-4374); 758; 737; 2120; 126; 2676; 4650; 7059; (-916); (-625); 16];
    [6838; 2173; 1024; (-1174); 5632; 516; 4399; (-916); 617; 818; 1900; 126; 2336; 1172]]).
Definition cert_hex32_64 : list nat * list (list Z) :=
  ([0; 1; 2; 3; 4; 7; 8; 11; 12; 13; 14; 15; 16; 19; 28; 31; 32; 35; 44; 47; 48; 49; 50; 51; 52; 55; 56; 59; 60; 61; 62; 63]%nat,
   [[11571; (-3892); 1917; (-863); (-3892); 290; 1917; (-143); (-863); 290; (-143); 64; (-3892); 290; 290; (-22); 1917; (-143); (-143); 11; (-863); 290; (-143); 64; 290; (-22); (-143); 11; 64; (-22); 11; (-5)];
    [(-863); 1917; (-3892); 11571; 290; (-3892); (-143); 1917; 64; (-143); 290; (-863); 290; (-3892); (-22); 290; (-143); 1917; 11; (-143); 64; (-143); 290; (-863); (-22); 290; 11; (-143); (-5); 11; (-22); 64];
    [64; (-143); 290; (-863); (-143); 1917; 290; (-3892); (-863); 1917; (-3892); 11571; (-22); 290; 290; (-3892); 11; (-143); (-143); 1917; (-5); 11; (-22); 64; 11; (-143); (-22); 290; 64; (-143); 290; (-863)];
    [(-863); 290; (-143); 64; 1917; (-143); (-3892); 290; 11571; (-3892); 1917; (-863); 290; (-22); (-3892); 290; (-143); 11; 1917; (-143); 64; (-22); 11; (-5); (-143); 11; 290; (-22); (-863); 290; (-143); 64];
    [(-863); 290; (-143); 64; 290; (-22); (-143); 11; 64; (-22); 11; (-5); 1917; (-143); (-143); 11; (-3892); 290; 290; (-22); 11571; (-3892); 1917; (-863); (-3892); 290; 1917; (-143); (-863); 290; (-143); 64];
    [64; (-143); 290; (-863); (-22); 290; 11; (-143); (-5); 11; (-22); 64; (-143); 1917; 11; (-143); 290; (-3892); (-22); 290; (-863); 1917; (-3892); 11571; 290; (-3892); (-143); 1917; 64; (-143); 290; (-863)];
    [(-5); 11; (-22); 64; 11; (-143); (-22); 290; 64; (-143); 290; (-863); 11; (-143); (-143); 1917; (-22); 290; 290; (-3892); 64; (-143); 290; (-863); (-143); 1917; 290; (-3892); (-863); 1917; (-3892); 11571];
    [64; (-22); 11; (-5); (-143); 11; 290; (-22); (-863); 290; (-143); 64; (-143); 11; 1917; (-143); 290; (-22); (-3892); 290; (-863); 290; (-143); 64; 1917; (-143); (-3892); 290; 11571; (-3892); 1917; (-863)];
    [2716; 4770; 47; 1200; (-2498); (-1104); 1230; 544; (-203); (-356); (-4); (-90); (-2498); (-1104); 186; 82; 1230; 544; (-92); (-41); (-203); (-356); (-4); (-90); 186; 82; (-92); (-41); 15; 27; 0; 7];
    [1200; 47; 4770; 2716; (-1104); (-2498); 544; 1230; (-90); (-4); (-356); (-203); (-1104); (-2498); 82; 186; 544; 1230; (-41); (-92); (-90); (-4); (-356); (-203); 82; 186; (-41); (-92); 7; 0; 27; 15];
    [(-203); 1230; (-2498); 2716; (-356); 4770; (-4); 47; (-90); 544; (-1104); 1200; 186; (-2498); 82; (-1104); (-92); 1230; (-41); 544; 15; (-92); 186; (-203); 27; (-356); 0; (-4); 7; (-41); 82; (-90)];
    [(-90); 544; (-1104); 1200; (-4); 47; (-356); 4770; (-203); 1230; (-2498); 2716; 82; (-1104); 186; (-2498); (-41); 544; (-92); 1230; 7; (-41); 82; (-90); 0; (-4); 27; (-356); 15; (-92); 186; (-203)];
    [(-90); (-4); (-356); (-203); 544; 1230; (-1104); (-2498); 1200; 47; 4770; 2716; 82; 186; (-1104); (-2498); (-41); (-92); 544; 1230; 7; 0; 27; 15; (-41); (-92); 82; 186; (-90); (-4); (-356); (-203)];
    [(-203); (-356); (-4); (-90); 1230; 544; (-2498); (-1104); 2716; 4770; 47; 1200; 186; 82; (-2498); (-1104); (-92); (-41); 1230; 544; 15; 27; 0; 7; (-92); (-41); 186; 82; (-203); (-356); (-4); (-90)];
    [1200; (-1104); 544; (-90); 47; (-4); 4770; (-356); 2716; (-2498); 1230; (-203); (-1104); 82; (-2498); 186; 544; (-41); 1230; (-92); (-90); 82; (-41); 7; (-4); 0; (-356); 27; (-203); 186; (-92); 15];
    [2716; (-2498); 1230; (-203); 4770; (-356); 47; (-4); 1200; (-1104); 544; (-90); (-2498); 186; (-1104); 82; 1230; (-92); 544; (-41); (-203); 186; (-92); 15; (-356); 27; (-4); 0; (-90); 82; (-41); 7];
    [(-203); (-356); (-4); (-90); 186; 82; (-92); (-41); 15; 27; 0; 7; 1230; 544; (-92); (-41); (-2498); (-1104); 186; 82; 2716; 4770; 47; 1200; (-2498); (-1104); 1230; 544; (-203); (-356); (-4); (-90)];
    [(-90); (-4); (-356); (-203); 82; 186; (-41); (-92); 7; 0; 27; 15; 544; 1230; (-41); (-92); (-1104); (-2498); 82; 186; 1200; 47; 4770; 2716; (-1104); (-2498); 544; 1230; (-90); (-4); (-356); (-203)];
    [15; (-92); 186; (-203); 27; (-356); 0; (-4); 7; (-41); 82; (-90); (-92); 1230; (-41); 544; 186; (-2498); 82; (-1104); (-203); 1230; (-2498); 2716; (-356); 4770; (-4); 47; (-90); 544; (-1104); 1200];
    [7; (-41); 82; (-90); 0; (-4); 27; (-356); 15; (-92); 186; (-203); (-41); 544; (-92); 1230; 82; (-1104); 186; (-2498); (-90); 544; (-1104); 1200; (-4); 47; (-356); 4770; (-203); 1230; (-2498); 2716];
    [7; 0; 27; 15; (-41); (-92); 82; 186; (-90); (-4); (-356); (-203); (-41); (-92); 544; 1230; 82; 186; (-1104); (-2498); (-90); (-4); (-356); (-203); 544; 1230; (-1104); (-2498); 1200; 47; 4770; 2716];
    [15; 27; 0; 7; (-92); (-41); 186; 82; (-203); (-356); (-4); (-90); (-92); (-41); 1230; 544; 186; 82; (-2498); (-1104); (-203); (-356); (-4); (-90); 1230; 544; (-2498); (-1104); 2716; 4770; 47; 1200];
    [(-90); 82; (-41); 7; (-4); 0; (-356); 27; (-203); 186; (-92); 15; 544; (-41); 1230; (-92); (-1104); 82; (-2498); 186; 1200; (-1104); 544; (-90); 47; (-4); 4770; (-356); 2716; (-2498); 1230; (-203)];
    [(-203); 186; (-92); 15; (-356); 27; (-4); 0; (-90); 82; (-41); 7; 1230; (-92); 544; (-41); (-2498); 186; (-1104); 82; 2716; (-2498); 1230; (-203); 4770; (-356); 47; (-4); 1200; (-1104); 544; (-90)];
    [2716; (-2498); 1230; (-203); (-2498); 186; 1230; (-92); (-203); 186; (-92); 15; 4770; (-356); (-356); 27; 47; (-4); (-4); 0; 1200; (-1104); 544; (-90); (-1104); 82; 544; (-41); (-90); 82; (-41); 7];
    [1200; (-1104); 544; (-90); (-1104); 82; 544; (-41); (-90); 82; (-41); 7; 47; (-4); (-4); 0; 4770; (-356); (-356); 27; 2716; (-2498); 1230; (-203); (-2498); 186; 1230; (-92); (-203); 186; (-92); 15];
    [(-203); 1230; (-2498); 2716; 186; (-2498); (-92); 1230; 15; (-92); 186; (-203); (-356); 4770; 27; (-356); (-4); 47; 0; (-4); (-90); 544; (-1104); 1200; 82; (-1104); (-41); 544; 7; (-41); 82; (-90)];
    [(-90); 544; (-1104); 1200; 82; (-1104); (-41); 544; 7; (-41); 82; (-90); (-4); 47; 0; (-4); (-356); 4770; 27; (-356); (-203); 1230; (-2498); 2716; 186; (-2498); (-92); 1230; 15; (-92); 186; (-203)];
    [15; (-92); 186; (-203); (-92); 1230; 186; (-2498); (-203); 1230; (-2498); 2716; 27; (-356); (-356); 4770; 0; (-4); (-4); 47; 7; (-41); 82; (-90); (-41); 544; 82; (-1104); (-90); 544; (-1104); 1200];
    [7; (-41); 82; (-90); (-41); 544; 82; (-1104); (-90); 544; (-1104); 1200; 0; (-4); (-4); 47; 27; (-356); (-356); 4770; 15; (-92); 186; (-203); (-92); 1230; 186; (-2498); (-203); 1230; (-2498); 2716];
    [(-203); 186; (-92); 15; 1230; (-92); (-2498); 186; 2716; (-2498); 1230; (-203); (-356); 27; 4770; (-356); (-4); 0; 47; (-4); (-90); 82; (-41); 7; 544; (-41); (-1104); 82; 1200; (-1104); 544; (-90)];
    [(-90); 82; (-41); 7; 544; (-41); (-1104); 82; 1200; (-1104); 544; (-90); (-4); 0; 47; (-4); (-356); 27; 4770; (-356); (-203); 186; (-92); 15; 1230; (-92); (-2498); 186; 2716; (-2498); 1230; (-203)]]).

Definition cert (k : geokind) (n : nat) : list nat * list (list Z) :=
  match k, n with
  | Lin2, 2 => cert_lin2_2
  | Lin2, 3 => cert_lin2_3
  | Lin2, 4 => cert_lin2_4
  | Lin2, 5 => cert_lin2_5
  | Lin3, 2 => cert_lin3_2
  | Lin3, 3 => cert_lin3_3
  | Lin3, 4 => cert_lin3_4
  | Lin3, 5 => cert_lin3_5
  | Lin4, 2 => cert_lin4_2
  | Lin4, 3 => cert_lin4_3
  | Lin4, 4 => cert_lin4_4
  | Lin4, 5 => cert_lin4_5
  | Lin5, 2 => cert_lin5_2
  | Lin5, 3 => cert_lin5_3
  | Lin5, 4 => cert_lin5_4
  | Lin5, 5 => cert_lin5_5
  | Tri3, 3 => cert_tri3_3
  | Tri3, 4 => cert_tri3_4
  | Tri3, 6 => cert_tri3_6
  | Tri3, 7 => cert_tri3_7
  | Tri3, 12 => cert_tri3_12
  | Tri3, 16 => cert_tri3_16
  | Tri6, 3 => cert_tri6_3
  | Tri6, 4 => cert_tri6_4
  | Tri6, 6 => cert_tri6_6
  | Tri6, 7 => cert_tri6_7
  | Tri6, 12 => cert_tri6_12
  | Tri6, 16 => cert_tri6_16
  | Tri10, 3 => cert_tri10_3
  | Tri10, 4 => cert_tri10_4
  | Tri10, 6 => cert_tri10_6
  | Tri10, 7 => cert_tri10_7
  | Tri10, 12 => cert_tri10_12
  | Tri10, 16 => cert_tri10_16
  | Tri15, 3 => cert_tri15_3
  | Tri15, 4 => cert_tri15_4
  | Tri15, 6 => cert_tri15_6
  | Tri15, 7 => cert_tri15_7
  | Tri15, 12 => cert_tri15_12
  | Tri15, 16 => cert_tri15_16
  | Qua4, 4 => cert_qua4_4
  | Qua4, 9 => cert_qua4_9
  | Qua4, 16 => cert_qua4_16
  | Qua8, 4 => cert_qua8_4
  | Qua8, 9 => cert_qua8_9
  | Qua8, 16 => cert_qua8_16
  | Qua9, 4 => cert_qua9_4
  | Qua9, 9 => cert_qua9_9
  | Qua9, 16 => cert_qua9_16
  | Qua12, 4 => cert_qua12_4
  | Qua12, 16 => cert_qua12_16
  | Qua16, 4 => cert_qua16_4
  | Qua16, 9 => cert_qua16_9
  | Qua16, 16 => cert_qua16_16
  | Qua17, 4 => cert_qua17_4
  | Qua17, 9 => cert_qua17_9
  | Tet4, 4 => cert_tet4_4
  | Tet4, 5 => cert_tet4_5
  | Tet4, 8 => cert_tet4_8
  | Tet4, 14 => cert_tet4_14
  | Tet4, 15 => cert_tet4_15
  | Tet4, 24 => cert_tet4_24
  | Tet10, 4 => cert_tet10_4
  | Tet10, 5 => cert_tet10_5
  | Tet10, 8 => cert_tet10_8
  | Tet10, 14 => cert_tet10_14
  | Tet10, 15 => cert_tet10_15
  | Tet10, 24 => cert_tet10_24
  | Tet20, 4 => cert_tet20_4
  | Tet20, 5 => cert_tet20_5
  | Tet20, 8 => cert_tet20_8
  | Tet20, 14 => cert_tet20_14
  | Tet20, 24 => cert_tet20_24
  | Hex8, 8 => cert_hex8_8
  | Hex8, 14 => cert_hex8_14
  | Hex8, 27 => cert_hex8_27
  | Hex8, 64 => cert_hex8_64
  | Hex20, 6 => cert_hex20_6
  | Hex20, 8 => cert_hex20_8
  | Hex20, 14 => cert_hex20_14
  | Hex20, 27 => cert_hex20_27
  | Hex20, 64 => cert_hex20_64
  | Hex32, 6 => cert_hex32_6
  | Hex32, 8 => cert_hex32_8
  | Hex32, 14 => cert_hex32_14
  | Hex32, 64 => cert_hex32_64
  | _, _ => ([], [])
  end%nat.
