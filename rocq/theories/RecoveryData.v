(* GENERATED by tools/gen_recovery.py from src/recovery/get_extrap_matrix.rs: do not edit.
   The tables of get_tr_pinv_hxi.  A number z stands for z / 2^114: these are the exact binary64
   values of the literals in the source, which are repeated as comments. *)
From Coq Require Import ZArith List.
Import ListNotations.
Local Open Scope Z_scope.

(* src/recovery/get_extrap_matrix.rs:280-282 *)
Definition tr_pinv_hxi_lin_legendre_1 : list (Z * Z * Z * Z) := [
  (0, 20769187434139310514121985316880384, 0, 0) (* 0.000000000000000E+00, 1.000000000000000E+00, 0.000000000000000E+00, 0.000000000000000E+00 *)].

(* src/recovery/get_extrap_matrix.rs:286-289 *)
Definition tr_pinv_hxi_lin_legendre_2 : list (Z * Z * Z * Z) := [
  (-17986643933925186895093277734731776, 10384593717069655257060992658440192, 0, 0); (* -8.660254037844387E-01, 5.000000000000000E-01, 0.000000000000000E+00, 0.000000000000000E+00 *)
  (17986643933925186895093277734731776, 10384593717069655257060992658440192, 0, 0) (* 8.660254037844387E-01, 5.000000000000000E-01, 0.000000000000000E+00, 0.000000000000000E+00 *)].

(* src/recovery/get_extrap_matrix.rs:293-297 *)
Definition tr_pinv_hxi_lin_legendre_3 : list (Z * Z * Z * Z) := [
  (-13406452841113647668774003282018304, 6923062478046438759576502783705088, 0, 0); (* -6.454972243679027E-01, 3.333333333333334E-01, 0.000000000000000E+00, 0.000000000000000E+00 *)
  (0, 6923062478046438759576502783705088, 0, 0); (* 0.000000000000000E+00, 3.333333333333334E-01, 0.000000000000000E+00, 0.000000000000000E+00 *)
  (13406452841113647668774003282018304, 6923062478046438759576502783705088, 0, 0) (* 6.454972243679027E-01, 3.333333333333334E-01, 0.000000000000000E+00, 0.000000000000000E+00 *)].

(* src/recovery/get_extrap_matrix.rs:301-306 *)
Definition tr_pinv_hxi_lin_legendre_4 : list (Z * Z * Z * Z) := [
  (-10432975852740158007728070983680000, 5192296858534827628530496329220096, 0, 0); (* -5.023295150965307E-01, 2.500000000000000E-01, 0.000000000000000E+00, 0.000000000000000E+00 *)
  (-4118992510656426029953401422348288, 5192296858534825322687487115526144, 0, 0); (* -1.983222754244993E-01, 2.499999999999999E-01, 0.000000000000000E+00, 0.000000000000000E+00 *)
  (4118992510656430641639419849736192, 5192296858534827628530496329220096, 0, 0); (* 1.983222754244995E-01, 2.500000000000000E-01, 0.000000000000000E+00, 0.000000000000000E+00 *)
  (10432975852740158007728070983680000, 5192296858534827628530496329220096, 0, 0) (* 5.023295150965307E-01, 2.500000000000000E-01, 0.000000000000000E+00, 0.000000000000000E+00 *)].

(* src/recovery/get_extrap_matrix.rs:310-316 *)
Definition tr_pinv_hxi_lin_legendre_5 : list (Z * Z * Z * Z) := [
  (-8469278581202815968885260586844160, 4153837486827860027565688771051520, 0, 0); (* -4.077809306723987E-01, 1.999999999999999E-01, 0.000000000000000E+00, 0.000000000000000E+00 *)
  (-5032606513102477762121621110259712, 4153837486827862333408697984745472, 0, 0); (* -2.423111895475574E-01, 2.000000000000000E-01, 0.000000000000000E+00, 0.000000000000000E+00 *)
  (0, 4153837486827862333408697984745472, 0, 0); (* 0.000000000000000E+00, 2.000000000000000E-01, 0.000000000000000E+00, 0.000000000000000E+00 *)
  (5032606513102477762121621110259712, 4153837486827862333408697984745472, 0, 0); (* 2.423111895475574E-01, 2.000000000000000E-01, 0.000000000000000E+00, 0.000000000000000E+00 *)
  (8469278581202815968885260586844160, 4153837486827862333408697984745472, 0, 0) (* 4.077809306723987E-01, 2.000000000000000E-01, 0.000000000000000E+00, 0.000000000000000E+00 *)].

(* src/recovery/get_extrap_matrix.rs:324-326 *)
Definition tr_pinv_hxi_tri_internal_1 : list (Z * Z * Z * Z) := [
  (5664323845674356993698176138477568, 5664323845674359299541185352171520, 16992971537023073286937537629126656, 0) (* 2.727272727272727E-01, 2.727272727272728E-01, 8.181818181818182E-01, 0.000000000000000E+00 *)].

(* src/recovery/get_extrap_matrix.rs:330-334 *)
Definition tr_pinv_hxi_tri_internal_3 : list (Z * Z * Z * Z) := [
  (-41538374868278621028243970633760768, -41538374868278597969813878496821248, 34615312390232171892373926388432896, 0); (* -2.000000000000000E+00, -1.999999999999999E+00, 1.666666666666666E+00, 0.000000000000000E+00 *)
  (41538374868278621028243970633760768, -20752587082923245568, -6923062478046428383282961322082304, 0); (* 2.000000000000000E+00, -9.992007221626409E-16, -3.333333333333329E-01, 0.000000000000000E+00 *)
  (-11529215046068469760, 41538374868278621028243970633760768, -6923062478046431842047475142623232, 0) (* -5.551115123125783E-16, 2.000000000000000E+00, -3.333333333333331E-01, 0.000000000000000E+00 *)].

(* src/recovery/get_extrap_matrix.rs:338-343 *)
Definition tr_pinv_hxi_tri_internal_4 : list (Z * Z * Z * Z) := [
  (6341068275337657344, -9223372036854775808, 5192296858534827628530496329220096, 0); (* 3.053113317719180E-16, -4.440892098500626E-16, 2.500000000000000E-01, 0.000000000000000E+00 *)
  (-51922968585348276285304963292200960, -51922968585348257838560889582649344, 39807609248767017967648496427204608, 0); (* -2.500000000000000E+00, -2.499999999999999E+00, 1.916666666666667E+00, 0.000000000000000E+00 *)
  (51922968585348276285304963292200960, 0, -12115359336581267541028503719772160, 0); (* 2.500000000000000E+00, 0.000000000000000E+00, -5.833333333333335E-01, 0.000000000000000E+00 *)
  (-4611686018427387904, 51922968585348276285304963292200960, -12115359336581262929342485292384256, 0) (* -2.220446049250313E-16, 2.500000000000000E+00, -5.833333333333333E-01, 0.000000000000000E+00 *)].

(* src/recovery/get_extrap_matrix.rs:347-354 *)
Definition tr_pinv_hxi_tri_felippa_6 : list (Z * Z * Z * Z) := [
  (10961004564386925691211600801824768, 10961004564386927997054610015518720, -3845805137234729159483641464619008, 0); (* 5.277531727779488E-01, 5.277531727779489E-01, -1.851687818519657E-01, 0.000000000000000E+00 *)
  (-10961004564386946443798683725070336, -11529215046068469760, 7115199427152205178639243888558080, 0); (* -5.277531727779498E-01, -5.551115123125783E-16, 3.425843909259835E-01, 0.000000000000000E+00 *)
  (2305843009213694976, -10961004564386934914583637656600576, 7115199427152194802345702426935296, 0); (* 1.110223024625157E-16, -5.277531727779492E-01, 3.425843909259830E-01, 0.000000000000000E+00 *)
  (-23530588161853258224811013094506496, -23530588161853258224811013094506496, 19148590013592051855260651450531840, 0); (* -1.132956608748925E+00, -1.132956608748925E+00, 9.219710724992830E-01, 0.000000000000000E+00 *)
  (23530588161853258224811013094506496, 2305843009213694976, -4381998148261198299099829396045824, 0); (* 1.132956608748925E+00, 1.110223024625157E-16, -2.109855362496415E-01, 0.000000000000000E+00 *)
  (6917529027641082880, 23530588161853258224811013094506496, -4381998148261200028482086306316288, 0) (* 3.330669073875470E-16, 1.132956608748925E+00, -2.109855362496416E-01, 0.000000000000000E+00 *)].

(* src/recovery/get_extrap_matrix.rs:358-366 *)
Definition tr_pinv_hxi_tri_felippa_7 : list (Z * Z * Z * Z) := [
  (-22139229105179629822701035954634752, -22139229105179629822701035954634752, 17726512846425359230483459014131712, 0); (* -1.065965106982872E+00, -1.065965106982872E+00, 8.535005475123904E-01, 0.000000000000000E+00 *)
  (22139229105179629822701035954634752, 3458764513820541440, -4412716258754260215924035478880256, 0); (* 1.065965106982872E+00, 1.665334536937735E-16, -2.124645594704811E-01, 0.000000000000000E+00 *)
  (-21905508587530096640, 22139229105179629822701035954634752, -4412716258754252145473503230951424, 0); (* -1.054711873393899E-15, 1.065965106982872E+00, -2.124645594704807E-01, 0.000000000000000E+00 *)
  (13052709602743665331871602882641920, 13052709602743679166929658164805632, -5734779625523494213911926951378944, 0); (* 6.284651069828712E-01, 6.284651069828718E-01, -2.761195951314379E-01, 0.000000000000000E+00 *)
  (-13052709602743679166929658164805632, 10376293541461622784, 7317929977220165353352152897028096, 0); (* -6.284651069828718E-01, 4.996003610813204E-16, 3.523455118514330E-01, 0.000000000000000E+00 *)
  (18446744073709551616, -13052709602743681472772667378499584, 7317929977220167659195162110722048, 0); (* 8.881784197001252E-16, -6.284651069828719E-01, 3.523455118514331E-01, 0.000000000000000E+00 *)
  (-144115188075855872, -144115188075855872, 2967026776305616775950144708280320, 0) (* -6.938893903907228E-18, -6.938893903907228E-18, 1.428571428571429E-01, 0.000000000000000E+00 *)].

(* src/recovery/get_extrap_matrix.rs:370-383 *)
Definition tr_pinv_hxi_tri_internal_12 : list (Z * Z * Z * Z) := [
  (13648613705075212234615497299066880, 11529215046068469760, -2818772282180128009874749555474432, 0); (* 6.571568458494592E-01, 5.551115123125783E-16, -1.357189486164864E-01, 0.000000000000000E+00 *)
  (1152921504606846976, 13648613705075193787871423589515264, -2818772282180119939424217307545600, 0); (* 5.551115123125783E-17, 6.571568458494583E-01, -1.357189486164860E-01, 0.000000000000000E+00 *)
  (-13648613705075170729441331452575744, -13648613705075175341127349879963648, 10829841422895052519399371055300608, 0); (* -6.571568458494572E-01, -6.571568458494574E-01, 5.214378972329713E-01, 0.000000000000000E+00 *)
  (4244749417766087274933084141649920, -4899916394579100672, 315849146922916453598888976187392, 0); (* 2.043772502523998E-01, -2.359223927328458E-16, 1.520758324920021E-02, 0.000000000000000E+00 *)
  (-4323455642275677184, 4244749417766087274933084141649920, 315849146922916453598888976187392, 0); (* -2.081668171172169E-16, 2.043772502523998E-01, 1.520758324920021E-02, 0.000000000000000E+00 *)
  (-4244749417766091310158350265614336, -4244749417766093616001359479308288, 4560598564689003224128814852341760, 0); (* -2.043772502524000E-01, -2.043772502524001E-01, 2.195848335016000E-01, 0.000000000000000E+00 *)
  (-9820768248124964068210449525506048, -5490705639150321510666364702949376, 6834590248603367610371256365350912, 0); (* -4.728527911487811E-01, -2.643678601563865E-01, 3.290735504350557E-01, 0.000000000000000E+00 *)
  (-5490705639150321510666364702949376, -9820768248124968679896467952893952, 6834590248603369916214265579044864, 0); (* -2.643678601563865E-01, -4.728527911487813E-01, 3.290735504350558E-01, 0.000000000000000E+00 *)
  (-4330062608974649475073112463638528, 5490705639150314593137337061867520, 1343884609453054170155423910330368, 0); (* -2.084849309923949E-01, 2.643678601563862E-01, 6.470569027866957E-02, 0.000000000000000E+00 *)
  (4330062608974635063554304878051328, 9820768248124960609445935704965120, -2986177999521586081545651698532352, 0); (* 2.084849309923942E-01, 4.728527911487809E-01, -1.437792407137249E-01, 0.000000000000000E+00 *)
  (5490705639150319204823355489255424, -4330062608974649475073112463638528, 1343884609453053881925047758618624, 0); (* 2.643678601563864E-01, -2.084849309923949E-01, 6.470569027866956E-02, 0.000000000000000E+00 *)
  (9820768248124958303602926491271168, 4330062608974639098779571002015744, -2986177999521586081545651698532352, 0) (* 4.728527911487808E-01, 2.084849309923944E-01, -1.437792407137249E-01, 0.000000000000000E+00 *)].

(* src/recovery/get_extrap_matrix.rs:387-404 *)
Definition tr_pinv_hxi_tri_internal_16 : list (Z * Z * Z * Z) := [
  (-15996785876419999744, -15852670688344145920, 1298074214633719301038798605910016, 0); (* -7.702172233337023E-16, -7.632783294297951E-16, 6.250000000000060E-02, 0.000000000000000E+00 *)
  (-4128612542613338980898518482288640, 17293822569102704640, 2674278395504813751850772339884032, 0); (* -1.987854631147938E-01, 8.326672684688674E-16, 1.287618210382643E-01, 0.000000000000000E+00 *)
  (1729382256910270464, -4128612542613344745506041516523520, 2674278395504821822301304587812864, 0); (* 8.326672684688674E-17, -1.987854631147941E-01, 1.287618210382647E-01, 0.000000000000000E+00 *)
  (4128612542613355698260335281569792, 4128612542613349357192059943911424, -1454334147108526958430003052675072, 0); (* 1.987854631147946E-01, 1.987854631147943E-01, -7.002364207652959E-02, 0.000000000000000E+00 *)
  (5334975962814160701322174945820672, -2017612633061982208, -480251106304345603130055010025472, 0); (* 2.568697489842479E-01, -9.714451465470120E-17, -2.312324966141592E-02, 0.000000000000000E+00 *)
  (2594073385365405696, 5334975962814160701322174945820672, -480251106304345819302837123809280, 0); (* 1.249000902703301E-16, 2.568697489842479E-01, -2.312324966141593E-02, 0.000000000000000E+00 *)
  (-5334975962814163007165184159514624, -5334975962814153783793147304738816, 4854724856509813080579486873812992, 0); (* -2.568697489842480E-01, -2.568697489842476E-01, 2.337464993228319E-01, 0.000000000000000E+00 *)
  (9268983532996436291946632427077632, -1729382256910270464, -1791586963031770319620913917591552, 0); (* 4.462853235057508E-01, -8.326672684688674E-17, -8.626177450191685E-02, 0.000000000000000E+00 *)
  (2305843009213694976, 9268983532996430527339109392842752, -1791586963031769454929785462456320, 0); (* 1.110223024625157E-16, 4.462853235057505E-01, -8.626177450191681E-02, 0.000000000000000E+00 *)
  (-9268983532996436291946632427077632, -9268983532996422456888577144913920, 7477396569964661360639700082098176, 0); (* -4.462853235057508E-01, -4.462853235057501E-01, 3.600235490038337E-01, 0.000000000000000E+00 *)
  (-7867634255763681899059879830618112, -5084638686855530595824897110310912, 5615498528840111072094216395948032, 0); (* -3.788128101165515E-01, -2.448164475851215E-01, 2.703764192338910E-01, 0.000000000000000E+00 *)
  (5084638686855538666275429358239744, -2782995568908139197559184348413952, 530859841984574279316232023834624, 0); (* 2.448164475851219E-01, -1.339963625314294E-01, 2.555997164876920E-02, 0.000000000000000E+00 *)
  (2782995568908143232784450472378368, 7867634255763676134452356796383232, -2252135726923564774127764248723456, 0); (* 1.339963625314296E-01, 3.788128101165512E-01, -1.084363908826602E-01, 0.000000000000000E+00 *)
  (-2782995568908139197559184348413952, 5084638686855538666275429358239744, 530859841984574495489014137618432, 0); (* -1.339963625314294E-01, 2.448164475851219E-01, 2.555997164876921E-02, 0.000000000000000E+00 *)
  (7867634255763681899059879830618112, 2782995568908139197559184348413952, -2252135726923566791740397310705664, 0); (* 3.788128101165515E-01, 1.339963625314294E-01, -1.084363908826603E-01, 0.000000000000000E+00 *)
  (-5084638686855540972118438571933696, -7867634255763671522766338368995328, 5615498528840111072094216395948032, 0) (* -2.448164475851220E-01, -3.788128101165510E-01, 2.703764192338910E-01, 0.000000000000000E+00 *)].

(* src/recovery/get_extrap_matrix.rs:412-414 *)
Definition tr_pinv_hxi_qua_legendre_1 : list (Z * Z * Z * Z) := [
  (0, 0, 20769187434139310514121985316880384, 0) (* 0.000000000000000E+00, 0.000000000000000E+00, 1.000000000000000E+00, 0.000000000000000E+00 *)].

(* src/recovery/get_extrap_matrix.rs:418-423 *)
Definition tr_pinv_hxi_qua_legendre_4 : list (Z * Z * Z * Z) := [
  (-8993321966962594600468143474212864, -8993321966962594600468143474212864, 5192296858534829934373505542914048, 0); (* -4.330127018922194E-01, -4.330127018922194E-01, 2.500000000000001E-01, 0.000000000000000E+00 *)
  (8993321966962594600468143474212864, -8993321966962594600468143474212864, 5192296858534829934373505542914048, 0); (* 4.330127018922194E-01, -4.330127018922194E-01, 2.500000000000001E-01, 0.000000000000000E+00 *)
  (-8993321966962594600468143474212864, 8993321966962589988782125046824960, 5192296858534829934373505542914048, 0); (* -4.330127018922194E-01, 4.330127018922192E-01, 2.500000000000001E-01, 0.000000000000000E+00 *)
  (8993321966962594600468143474212864, 8993321966962589988782125046824960, 5192296858534829934373505542914048, 0) (* 4.330127018922194E-01, 4.330127018922192E-01, 2.500000000000001E-01, 0.000000000000000E+00 *)].

(* src/recovery/get_extrap_matrix.rs:427-437 *)
Definition tr_pinv_hxi_qua_legendre_9 : list (Z * Z * Z * Z) := [
  (-4468817613704552105228429277790208, -4468817613704552105228429277790208, 2307687492682147502190464251985920, 0); (* -2.151657414559677E-01, -2.151657414559677E-01, 1.111111111111112E-01, 0.000000000000000E+00 *)
  (0, -4468817613704552105228429277790208, 2307687492682145484577831190003712, 0); (* 0.000000000000000E+00, -2.151657414559677E-01, 1.111111111111111E-01, 0.000000000000000E+00 *)
  (4468817613704549799385420064096256, -4468817613704549799385420064096256, 2307687492682147502190464251985920, 0); (* 2.151657414559676E-01, -2.151657414559676E-01, 1.111111111111112E-01, 0.000000000000000E+00 *)
  (-4468817613704549799385420064096256, -448524381986110528, 2307687492682145484577831190003712, 0); (* -2.151657414559676E-01, -2.159566345137073E-17, 1.111111111111111E-01, 0.000000000000000E+00 *)
  (0, 0, 2307687492682145484577831190003712, 0); (* 0.000000000000000E+00, 0.000000000000000E+00, 1.111111111111111E-01, 0.000000000000000E+00 *)
  (4468817613704549799385420064096256, 448524381986110528, 2307687492682145484577831190003712, 0); (* 2.151657414559676E-01, 2.159566345137073E-17, 1.111111111111111E-01, 0.000000000000000E+00 *)
  (-4468817613704549799385420064096256, 4468817613704549799385420064096256, 2307687492682145484577831190003712, 0); (* -2.151657414559676E-01, 2.151657414559676E-01, 1.111111111111111E-01, 0.000000000000000E+00 *)
  (0, 4468817613704549799385420064096256, 2307687492682145484577831190003712, 0); (* 0.000000000000000E+00, 2.151657414559676E-01, 1.111111111111111E-01, 0.000000000000000E+00 *)
  (4468817613704549799385420064096256, 4468817613704552105228429277790208, 2307687492682145484577831190003712, 0) (* 2.151657414559676E-01, 2.151657414559677E-01, 1.111111111111111E-01, 0.000000000000000E+00 *)].

(* src/recovery/get_extrap_matrix.rs:441-458 *)
Definition tr_pinv_hxi_qua_legendre_16 : list (Z * Z * Z * Z) := [
  (-2608243963185038349010513139073024, -2608243963185038349010513139073024, 1298074214633706330671871778881536, 0); (* -1.255823787741326E-01, -1.255823787741326E-01, 6.249999999999997E-02, 0.000000000000000E+00 *)
  (-1029748127664107228064290734866432, -2608243963185040078392770049343488, 1298074214633706330671871778881536, 0); (* -4.958056885612486E-02, -1.255823787741327E-01, 6.249999999999997E-02, 0.000000000000000E+00 *)
  (1029748127664107228064290734866432, -2608243963185038349010513139073024, 1298074214633706042441495627169792, 0); (* 4.958056885612486E-02, -1.255823787741326E-01, 6.249999999999996E-02, 0.000000000000000E+00 *)
  (2608243963185038349010513139073024, -2608243963185040078392770049343488, 1298074214633706474787059854737408, 0); (* 1.255823787741326E-01, -1.255823787741327E-01, 6.249999999999998E-02, 0.000000000000000E+00 *)
  (-2608243963185038349010513139073024, -1029748127664107660409854962434048, 1298074214633706763017436006449152, 0); (* -1.255823787741326E-01, -4.958056885612488E-02, 6.249999999999999E-02, 0.000000000000000E+00 *)
  (-1029748127664107228064290734866432, -1029748127664107660409854962434048, 1298074214633706474787059854737408, 0); (* -4.958056885612486E-02, -4.958056885612488E-02, 6.249999999999998E-02, 0.000000000000000E+00 *)
  (1029748127664107228064290734866432, -1029748127664107660409854962434048, 1298074214633706474787059854737408, 0); (* 4.958056885612486E-02, -4.958056885612488E-02, 6.249999999999998E-02, 0.000000000000000E+00 *)
  (2608243963185038349010513139073024, -1029748127664107660409854962434048, 1298074214633706763017436006449152, 0); (* 1.255823787741326E-01, -4.958056885612488E-02, 6.249999999999999E-02, 0.000000000000000E+00 *)
  (-2608243963185038349010513139073024, 1029748127664106939833914583154688, 1298074214633706330671871778881536, 0); (* -1.255823787741326E-01, 4.958056885612484E-02, 6.249999999999997E-02, 0.000000000000000E+00 *)
  (-1029748127664107228064290734866432, 1029748127664107083949102659010560, 1298074214633706330671871778881536, 0); (* -4.958056885612486E-02, 4.958056885612485E-02, 6.249999999999997E-02, 0.000000000000000E+00 *)
  (1029748127664107228064290734866432, 1029748127664107083949102659010560, 1298074214633705898326307551313920, 0); (* 4.958056885612486E-02, 4.958056885612485E-02, 6.249999999999995E-02, 0.000000000000000E+00 *)
  (2608243963185038349010513139073024, 1029748127664106939833914583154688, 1298074214633706330671871778881536, 0); (* 1.255823787741326E-01, 4.958056885612484E-02, 6.249999999999997E-02, 0.000000000000000E+00 *)
  (-2608243963185038349010513139073024, 2608243963185038349010513139073024, 1298074214633706330671871778881536, 0); (* -1.255823787741326E-01, 1.255823787741326E-01, 6.249999999999997E-02, 0.000000000000000E+00 *)
  (-1029748127664107228064290734866432, 2608243963185038349010513139073024, 1298074214633706474787059854737408, 0); (* -4.958056885612486E-02, 1.255823787741326E-01, 6.249999999999998E-02, 0.000000000000000E+00 *)
  (1029748127664107228064290734866432, 2608243963185038349010513139073024, 1298074214633706042441495627169792, 0); (* 4.958056885612486E-02, 1.255823787741326E-01, 6.249999999999996E-02, 0.000000000000000E+00 *)
  (2608243963185038349010513139073024, 2608243963185038349010513139073024, 1298074214633706330671871778881536, 0) (* 1.255823787741326E-01, 1.255823787741326E-01, 6.249999999999997E-02, 0.000000000000000E+00 *)].

(* src/recovery/get_extrap_matrix.rs:466-468 *)
Definition tr_pinv_hxi_tet_internal_1 : list (Z * Z * Z * Z) := [
  (4372460512450381494608221926588416, 4372460512450381494608221926588416, 4372460512450381494608221926588416, 17489842049801528284275896920047616) (* 2.105263157894737E-01, 2.105263157894737E-01, 2.105263157894737E-01, 8.421052631578949E-01 *)].

(* src/recovery/get_extrap_matrix.rs:472-477 *)
Definition tr_pinv_hxi_tet_internal_4 : list (Z * Z * Z * Z) := [
  (-46441314940169983053133849137512448, -46441314940169983053133849137512448, -46441314940169964606389775427960832, 40023283063662294165793800259108864); (* -2.236067977499792E+00, -2.236067977499792E+00, -2.236067977499791E+00, 1.927050983124843E+00 *)
  (46441314940169936936273664863633408, -2305843009213694976, 9223372036854775808, -6418031876507660064302433707229184); (* 2.236067977499790E+00, -1.110223024625157E-16, 4.440892098500626E-16, -3.090169943749476E-01 *)
  (27670116110564331520, 46441314940169964606389775427960832, 20752587082923245568, -6418031876507668134752965955158016); (* 1.332267629550188E-15, 2.236067977499791E+00, 9.992007221626409E-16, -3.090169943749480E-01 *)
  (13835058055282163712, 13835058055282163712, 46441314940169936936273664863633408, -6418031876507657758459424493535232) (* 6.661338147750939E-16, 6.661338147750939E-16, 2.236067977499790E+00, -3.090169943749475E-01 *)].

(* src/recovery/get_extrap_matrix.rs:481-487 *)
Definition tr_pinv_hxi_tet_internal_5 : list (Z * Z * Z * Z) := [
  (10664523917613334528, 10376293541461622784, 11240984669916758016, 4153837486827853686497413433393152); (* 5.134781488891349E-16, 4.996003610813204E-16, 5.412337245047638E-16, 1.999999999999996E-01 *)
  (-62307562302417931542365955950641152, -62307562302417931542365955950641152, -62307562302417931542365955950641152, 50884509213641314448947678768267264); (* -3.000000000000000E+00, -3.000000000000000E+00, -3.000000000000000E+00, 2.450000000000000E+00 *)
  (2305843009213694976, -4611686018427387904, 62307562302417931542365955950641152, -11423053088776617093418277182373888); (* 1.110223024625157E-16, -2.220446049250313E-16, 3.000000000000000E+00, -5.499999999999998E-01 *)
  (-4611686018427387904, 62307562302417931542365955950641152, -13835058055282163712, -11423053088776612481732258754985984); (* -2.220446049250313E-16, 3.000000000000000E+00, -6.661338147750939E-16, -5.499999999999996E-01 *)
  (62307562302417931542365955950641152, -6917529027641082880, -9223372036854775808, -11423053088776614787575267968679936) (* 3.000000000000000E+00, -3.330669073875470E-16, -4.440892098500626E-16, -5.499999999999997E-01 *)].

(* src/recovery/get_extrap_matrix.rs:491-500 *)
Definition tr_pinv_hxi_tet_felippa_8 : list (Z * Z * Z * Z) := [
  (15261920286734887235885298347933696, 15261920286734894153414325989015552, 15261920286734891847571316775321600, -8850291785783756800795496327151616); (* 7.348347322268437E-01, 7.348347322268440E-01, 7.348347322268439E-01, -4.261260491701330E-01 *)
  (-15261920286734875706670252279463936, 5764607523034233856, 8070450532247928832, 6411628500951129282168297413935104); (* -7.348347322268431E-01, 2.775557561562891E-16, 3.885780586188048E-16, 3.087086830567106E-01 *)
  (-5764607523034233856, -15261920286734898765100344416403456, -6917529027641082880, 6411628500951143117226352696098816); (* -2.775557561562891E-16, -7.348347322268443E-01, -3.330669073875470E-16, 3.087086830567113E-01 *)
  (0, -3458764513820541440, -15261920286734884930042289134239744, 6411628500951135046775820448169984); (* 0.000000000000000E+00, -1.665334536937735E-16, -7.348347322268436E-01, 3.087086830567109E-01 *)
  (-27969911926064743892707892938145792, -27969911926064766951137985075085312, -27969911926064743892707892938145792, 23573582373815970580874663261372416); (* -1.346702273007044E+00, -1.346702273007045E+00, -1.346702273007044E+00, 1.135026704755283E+00 *)
  (27969911926064766951137985075085312, 6917529027641082880, -2305843009213694976, -4396329552248776770597743497314304); (* 1.346702273007045E+00, 3.330669073875470E-16, -1.110223024625157E-16, -2.116755682517612E-01 *)
  (-10376293541461622784, 27969911926064743892707892938145792, -6917529027641082880, -4396329552248770429529468159655936); (* -4.996003610813204E-16, 1.346702273007044E+00, -3.330669073875470E-16, -2.116755682517609E-01 *)
  (-8070450532247928832, -18446744073709551616, 27969911926064743892707892938145792, -4396329552248764088461192821997568) (* -3.885780586188048E-16, -8.881784197001252E-16, 1.346702273007044E+00, -2.116755682517606E-01 *)].

(* src/recovery/get_extrap_matrix.rs:504-519 *)
Definition tr_pinv_hxi_tet_felippa_14 : list (Z * Z * Z * Z) := [
  (-16546856525133522595601774823866368, -16546856525133508760543719541702656, -16546856525133511066386728755396608, 13893655782002949181754898865192960); (* -7.967021616808494E-01, -7.967021616808487E-01, -7.967021616808488E-01, 6.689551926892084E-01 *)
  (16546856525133506454700710328008704, -9799832789158199296, -10952754293765046272, -2653200743130564190474839103897600); (* 7.967021616808486E-01, -4.718447854656915E-16, -5.273559366969494E-16, -1.277469689916405E-01 *)
  (16140901064495857664, 16546856525133527207287793251254272, 12105675798371893248, -2653200743130580907836655903178752); (* 7.771561172376096E-16, 7.967021616808496E-01, 5.828670879282072E-16, -1.277469689916413E-01 *)
  (-5764607523034233856, -16140901064495857664, 16546856525133499537171682686926848, -2653200743130564190474839103897600); (* -2.775557561562891E-16, -7.771561172376096E-16, 7.967021616808483E-01, -1.277469689916405E-01 *)
  (6406207191645511897467100841639936, 6406207191645508438702587021099008, 6406207191645508438702587021099008, -3321142005581325823355629428801536); (* 3.084476565084738E-01, 3.084476565084736E-01, 3.084476565084736E-01, -1.599071709527839E-01 *)
  (-6406207191645503827016568593711104, -4611686018427387904, -3170534137668828672, 3085065186064188379954480626532352); (* -3.084476565084734E-01, -2.220446049250313E-16, -1.526556658859590E-16, 1.485404855556900E-01 *)
  (-11817445422220181504, -6406207191645510744545596234792960, -9223372036854775808, 3085065186064192415179746750496768); (* -5.689893001203927E-16, -3.084476565084737E-01, -4.440892098500626E-16, 1.485404855556902E-01 *)
  (3170534137668828672, 6629298651489370112, -6406207191645493450723027132088320, 3085065186064180309503948378603520); (* 1.526556658859590E-16, 3.191891195797325E-16, -3.084476565084729E-01, 1.485404855556896E-01 *)
  (16140901064495857664, 10758198752242281805586464023511040, 10758198752242284111429473237204992, -3895585987968340008807939602120704); (* 7.771561172376096E-16, 5.179884281153202E-01, 5.179884281153203E-01, -1.875656426290890E-01 *)
  (10758198752242281805586464023511040, -1152921504606846976, 10758198752242274888057436382429184, -3895585987968333667739664264462336); (* 5.179884281153202E-01, -5.551115123125783E-17, 5.179884281153199E-01, -1.875656426290887E-01 *)
  (10758198752242309475702574587838464, 10758198752242307169859565374144512, 29975959119778033664, -3895585987968356726169756401401856); (* 5.179884281153215E-01, 5.179884281153214E-01, 1.443289932012704E-15, -1.875656426290898E-01 *)
  (-10758198752242307169859565374144512, -10758198752242304864016556160450560, -27670116110564331520, 6862612764273971196276891895988224); (* -5.179884281153214E-01, -5.179884281153213E-01, -1.332267629550188E-15, 3.304227854862326E-01 *)
  (-10758198752242277193900445596123136, 5764607523034233856, -10758198752242270276371417955041280, 6862612764273948137846799759048704); (* -5.179884281153200E-01, 2.775557561562891E-16, -5.179884281153196E-01, 3.304227854862315E-01 *)
  (-11529215046068469760, -10758198752242277193900445596123136, -10758198752242277193900445596123136, 6862612764273952749532818186436608) (* -5.551115123125783E-16, -5.179884281153200E-01, -5.179884281153200E-01, 3.304227854862317E-01 *)].

(* src/recovery/get_extrap_matrix.rs:523-539 *)
Definition tr_pinv_hxi_tet_felippa_15 : list (Z * Z * Z * Z) := [
  (-16885380234660845178762799788064768, -16885380234660842872919790574370816, -16885380234660838261233772146982912, 14048647671604917485469983813140480); (* -8.130014854074423E-01, -8.130014854074422E-01, -8.130014854074420E-01, 6.764177807222482E-01 *)
  (16885380234660854402134836642840576, 10376293541461622784, 5764607523034233856, -2836732563055931728518082098888704); (* 8.130014854074428E-01, 4.996003610813204E-16, 2.775557561562891E-16, -1.365837046851943E-01 *)
  (-13835058055282163712, 16885380234660835955390762933288960, -8070450532247928832, -2836732563055915587617017603031040); (* -6.661338147750939E-16, 8.130014854074419E-01, -3.885780586188048E-16, -1.365837046851935E-01 *)
  (-6917529027641082880, -5764607523034233856, 16885380234660838261233772146982912, -2836732563055919622842283726995456); (* -3.330669073875470E-16, -2.775557561562891E-16, 8.130014854074420E-01, -1.365837046851937E-01 *)
  (7457444683783165571501886246223872, 7457444683783170183187904673611776, 7457444683783172489030913887305728, -4208471017228089136076649954017280); (* 3.590629006277350E-01, 3.590629006277352E-01, 3.590629006277353E-01, -2.026305088041347E-01 *)
  (-7457444683783173641952418494152704, 8646911284551352320, 7493989779944505344, 3248973666555076435425236292206592); (* -3.590629006277354E-01, 4.163336342344337E-16, 3.608224830031759E-16, 1.564323918236003E-01 *)
  (4035225266123964416, -7457444683783180559481446135234560, 4035225266123964416, 3248973666555078164807493202477056); (* 1.942890293094024E-16, -3.590629006277357E-01, 1.942890293094024E-16, 1.564323918236004E-01 *)
  (576460752303423424, 2305843009213694976, -7457444683783178253638436921540608, 3248973666555080470650502416171008); (* 2.775557561562891E-17, 1.110223024625157E-16, -3.590629006277356E-01, 1.564323918236005E-01 *)
  (4611686018427387904, -10345700590338709901124450371239936, -10345700590338707595281441157545984, 6557462790778638551960109157711872); (* 2.220446049250313E-16, -4.981273640649506E-01, -4.981273640649505E-01, 3.157303486991418E-01 *)
  (-10345700590338700677752413516464128, 12682136550675316736, -10345700590338699524830908909617152, 6557462790778635093195595337170944); (* -4.981273640649502E-01, 6.106226635438361E-16, -4.981273640649501E-01, 3.157303486991416E-01 *)
  (-10345700590338692607301881268535296, -10345700590338694913144890482229248, 14987979559889010688, 6557462790778628175666567696089088); (* -4.981273640649498E-01, -4.981273640649499E-01, 7.216449660063518E-16, 3.157303486991413E-01 *)
  (10345700590338690301458872054841344, 10345700590338697218987899695923200, -14987979559889010688, -3788237799560052325959515200552960); (* 4.981273640649497E-01, 4.981273640649500E-01, -7.216449660063518E-16, -1.823970153658079E-01 *)
  (10345700590338699524830908909617152, -14987979559889010688, 10345700590338700677752413516464128, -3788237799560058667027790538211328); (* 4.981273640649501E-01, -7.216449660063518E-16, 4.981273640649502E-01, -1.823970153658082E-01 *)
  (-9223372036854775808, 10345700590338709901124450371239936, 10345700590338709901124450371239936, -3788237799560064431635313572446208); (* -4.440892098500626E-16, 4.981273640649506E-01, 4.981273640649506E-01, -1.823970153658085E-01 *)
  (648518346341351424, 2269814212194728960, 2882303761517117952, 1384612495609285619010517034074112) (* 3.122502256758253E-17, 1.092875789865388E-16, 1.387778780781446E-16, 6.666666666666658E-02 *)].

(* src/recovery/get_extrap_matrix.rs:543-568 *)
Definition tr_pinv_hxi_tet_felippa_24 : list (Z * Z * Z * Z) := [
  (-1858098685059686543018754060582912, -1858098685059690290013644032835584, -1858098685059689137092139425988608, 2258956823550569896326316469256192); (* -8.946419742957495E-02, -8.946419742957513E-02, -8.946419742957508E-02, 1.087648147388479E-01 *)
  (1858098685059690578244020184547328, 1873497444986126336, 1369094286720630784, 400858138490880110715830701916160); (* 8.946419742957515E-02, 9.020562075079397E-17, 6.591949208711867E-17, 1.930061730927279E-02 *)
  (-1441151880758558720, 1858098685059688848861763274276864, -3026418949592973312, 400858138490881984213275688042496); (* -6.938893903907228E-17, 8.946419742957507E-02, -1.457167719820518E-16, 1.930061730927288E-02 *)
  (1080863910568919040, 2305843009213694976, 1858098685059691442935148639682560, 400858138490879678370266474348544); (* 5.204170427930421E-17, 1.110223024625157E-16, 8.946419742957519E-02, 1.930061730927277E-02 *)
  (-10988135372311861643520538857963520, -10988135372311870866892575712739328, -10988135372311866255206557285351424, 9106484338989704104006416584409088); (* -5.290594736629001E-01, -5.290594736629005E-01, -5.290594736629003E-01, 4.384612719138419E-01 *)
  (10988135372311870866892575712739328, 576460752303423424, 576460752303423424, -1881651033322165033503902218059776); (* 5.290594736629005E-01, 2.775557561562891E-17, 2.775557561562891E-17, -9.059820174905855E-02 *)
  (-19023204826012975104, 10988135372311854725991511216881664, -21329047835226673152, -1881651033322151774906599239319552); (* -9.159339953157541E-16, 5.290594736628997E-01, -1.026956297778270E-15, -9.059820174905792E-02 *)
  (13258597302978740224, 16717361816799281152, 10988135372311887007793640208596992, -1881651033322176562718948286529536); (* 6.383782391594650E-16, 8.049116928532385E-16, 5.290594736629013E-01, -9.059820174905911E-02 *)
  (3797227157530584275646871574151168, 3797227157530586581489880787845120, 3797227157530584275646871574151168, -1982537558392135235285535818776576); (* 1.828298372082145E-01, 1.828298372082146E-01, 1.828298372082145E-01, -9.545571123949428E-02 *)
  (-3797227157530588310872137698115584, -1441151880758558720, -576460752303423424, 1814689599138451346204344969068544); (* -1.828298372082147E-01, -6.938893903907228E-17, -2.775557561562891E-17, 8.737412596872032E-02 *)
  (4611686018427387904, -3797227157530584275646871574151168, 4323455642275677184, 1814689599138447887439831148527616); (* 2.220446049250313E-16, -1.828298372082145E-01, 2.081668171172169E-16, 8.737412596872016E-02 *)
  (-7205759403792793600, -8070450532247928832, -3797227157530596957783422249467904, 1814689599138456534351115699879936); (* -3.469446951953614E-16, -3.885780586188048E-16, -1.828298372082151E-01, 8.737412596872057E-02 *)
  (-4374410089076562586508443456110592, -7077944204856339934435117623148544, -7077944204856337628592108409454592, 5497957434453116035252484826988544); (* -2.106201844895547E-01, -3.407906172208732E-01, -3.407906172208731E-01, 2.647170213994920E-01 *)
  (-7077944204856339934435117623148544, -4374410089076571233419728007462912, -7077944204856341087356622229995520, 5497957434453118341095494040682496); (* -3.407906172208732E-01, -2.106201844895551E-01, -3.407906172208733E-01, 2.647170213994921E-01 *)
  (-7077944204856333016906089982066688, -7077944204856337628592108409454592, -4374410089076560857126186545840128, 5497957434453113729409475613294592); (* -3.407906172208729E-01, -3.407906172208731E-01, -2.106201844895546E-01, 2.647170213994919E-01 *)
  (7077944204856337628592108409454592, 2703534115779768124554637312262144, -4611686018427387904, -1579986770403221881569999734177792); (* 3.407906172208731E-01, 1.301704327313181E-01, -2.220446049250313E-16, -7.607359582138114E-02 *)
  (7077944204856343393199631443689472, 2882303761517117952, 2703534115779776771465921863614464, -1579986770403227646177522768412672); (* 3.407906172208734E-01, 1.387778780781446E-16, 1.301704327313185E-01, -7.607359582138142E-02 *)
  (-8646911284551352320, 7077944204856335322749099195760640, 2703534115779764089329371188297728, -1579986770403219863957366672195584); (* -4.163336342344337E-16, 3.407906172208730E-01, 1.301704327313179E-01, -7.607359582138104E-02 *)
  (4374410089076567198194461883498496, -2703534115779772159779903436226560, -2703534115779772159779903436226560, 1123547345376548692942834867634176); (* 2.106201844895549E-01, -1.301704327313183E-01, -1.301704327313183E-01, 5.409683690993707E-02 *)
  (-2703534115779783112534197201272832, 4374410089076560857126186545840128, -2703534115779784841916454111543296, 1123547345376555754587050584571904); (* -1.301704327313188E-01, 2.106201844895546E-01, -1.301704327313189E-01, 5.409683690993741E-02 *)
  (-2703534115779764089329371188297728, -2703534115779764089329371188297728, 4374410089076579303870260255391744, 1123547345376540766607490695561216); (* -1.301704327313179E-01, -1.301704327313179E-01, 2.106201844895555E-01, 5.409683690993669E-02 *)
  (2703534115779761783486361974603776, 7077944204856330711063080768372736, -12682136550675316736, -1579986770403216981653605155078144); (* 1.301704327313178E-01, 3.407906172208728E-01, -6.106226635438361E-16, -7.607359582138090E-02 *)
  (2703534115779783112534197201272832, 10376293541461622784, 7077944204856351463650163691618304, -1579986770403232834324293499224064); (* 1.301704327313188E-01, 4.996003610813204E-16, 3.407906172208738E-01, -7.607359582138166E-02 *)
  (4035225266123964416, 2703534115779778500848178773884928, 7077944204856348004885649871077376, -1579986770403229952020531982106624) (* 1.942890293094024E-16, 1.301704327313186E-01, 3.407906172208736E-01, -7.607359582138153E-02 *)].

(* src/recovery/get_extrap_matrix.rs:576-583 *)
Definition tr_pinv_hxi_hex_irons_6 : list (Z * Z * Z * Z) := [
  (-10384593717069650645374974231052288, 0, 0, 3461531239023217073945242178158592); (* -4.999999999999998E-01, 0.000000000000000E+00, 0.000000000000000E+00, 1.666666666666666E-01 *)
  (10384593717069652951217983444746240, 0, 0, 3461531239023217073945242178158592); (* 4.999999999999999E-01, 0.000000000000000E+00, 0.000000000000000E+00, 1.666666666666666E-01 *)
  (0, -10384593717069652951217983444746240, 0, 3461531239023219379788251391852544); (* 0.000000000000000E+00, -4.999999999999999E-01, 0.000000000000000E+00, 1.666666666666667E-01 *)
  (0, 10384593717069652951217983444746240, 0, 3461531239023217073945242178158592); (* 0.000000000000000E+00, 4.999999999999999E-01, 0.000000000000000E+00, 1.666666666666666E-01 *)
  (0, 0, -10384593717069652951217983444746240, 3461531239023221109170508302123008); (* 0.000000000000000E+00, 0.000000000000000E+00, -4.999999999999999E-01, 1.666666666666668E-01 *)
  (0, 0, 10384593717069652951217983444746240, 3461531239023219379788251391852544) (* 0.000000000000000E+00, 0.000000000000000E+00, 4.999999999999999E-01, 1.666666666666667E-01 *)].

(* src/recovery/get_extrap_matrix.rs:587-596 *)
Definition tr_pinv_hxi_hex_legendre_8 : list (Z * Z * Z * Z) := [
  (-4496660983481293265008805613142016, -4496660983481293265008805613142016, -4496660983481294994391062523412480, 2596148429267413814265248164610048); (* -2.165063509461095E-01, -2.165063509461095E-01, -2.165063509461096E-01, 1.250000000000000E-01 *)
  (4496660983481294994391062523412480, -4496660983481297300234071737106432, -4496660983481297300234071737106432, 2596148429267413814265248164610048); (* 2.165063509461096E-01, -2.165063509461097E-01, -2.165063509461097E-01, 1.250000000000000E-01 *)
  (-4496660983481294994391062523412480, 4496660983481293265008805613142016, -4496660983481294994391062523412480, 2596148429267413814265248164610048); (* -2.165063509461096E-01, 2.165063509461095E-01, -2.165063509461096E-01, 1.250000000000000E-01 *)
  (4496660983481294994391062523412480, 4496660983481294994391062523412480, -4496660983481294994391062523412480, 2596148429267416120108257378304000); (* 2.165063509461096E-01, 2.165063509461096E-01, -2.165063509461096E-01, 1.250000000000001E-01 *)
  (-4496660983481294994391062523412480, -4496660983481293265008805613142016, 4496660983481294994391062523412480, 2596148429267413814265248164610048); (* -2.165063509461096E-01, -2.165063509461095E-01, 2.165063509461096E-01, 1.250000000000000E-01 *)
  (4496660983481294994391062523412480, -4496660983481290959165796399448064, 4496660983481293265008805613142016, 2596148429267413814265248164610048); (* 2.165063509461096E-01, -2.165063509461094E-01, 2.165063509461095E-01, 1.250000000000000E-01 *)
  (-4496660983481294994391062523412480, 4496660983481297300234071737106432, 4496660983481297300234071737106432, 2596148429267413814265248164610048); (* -2.165063509461096E-01, 2.165063509461097E-01, 2.165063509461097E-01, 1.250000000000000E-01 *)
  (4496660983481294994391062523412480, 4496660983481297300234071737106432, 4496660983481294994391062523412480, 2596148429267413814265248164610048) (* 2.165063509461096E-01, 2.165063509461097E-01, 2.165063509461096E-01, 1.250000000000000E-01 *)].

(* src/recovery/get_extrap_matrix.rs:600-615 *)
Definition tr_pinv_hxi_hex_irons_14 : list (Z * Z * Z * Z) := [
  (2814464959328006822963316642545664, 475751124443438464, 0, 1483513388152807811514320050716672); (* 1.355115585649603E-01, 2.290658341603791E-17, 0.000000000000000E+00, 7.142857142857142E-02 *)
  (-2814464959328006822963316642545664, 475751124443438464, 0, 1483513388152807811514320050716672); (* -1.355115585649603E-01, 2.290658341603791E-17, 0.000000000000000E+00, 7.142857142857142E-02 *)
  (0, 2814464959328006822963316642545664, 0, 1483513388152807811514320050716672); (* 0.000000000000000E+00, 1.355115585649603E-01, 0.000000000000000E+00, 7.142857142857142E-02 *)
  (0, -2814464959328006822963316642545664, 0, 1483513388152808099744696202428416); (* 0.000000000000000E+00, -1.355115585649603E-01, 0.000000000000000E+00, 7.142857142857144E-02 *)
  (0, 475751124443438464, 2814464959328006822963316642545664, 1483513388152807811514320050716672); (* 0.000000000000000E+00, 2.290658341603791E-17, 1.355115585649603E-01, 7.142857142857142E-02 *)
  (0, 475751124443438464, -2814464959328006822963316642545664, 1483513388152807811514320050716672); (* 0.000000000000000E+00, 2.290658341603791E-17, -1.355115585649603E-01, 7.142857142857142E-02 *)
  (2683487047461872742730211799334912, 2683487047461872742730211799334912, 2683487047461872742730211799334912, 1483513388152807811514320050716672); (* 1.292052015020528E-01, 1.292052015020528E-01, 1.292052015020528E-01, 7.142857142857142E-02 *)
  (-2683487047461872742730211799334912, 2683487047461872742730211799334912, 2683487047461872742730211799334912, 1483513388152807811514320050716672); (* -1.292052015020528E-01, 1.292052015020528E-01, 1.292052015020528E-01, 7.142857142857142E-02 *)
  (2683487047461872742730211799334912, -2683487047461872742730211799334912, 2683487047461872742730211799334912, 1483513388152808387975072354140160); (* 1.292052015020528E-01, -1.292052015020528E-01, 1.292052015020528E-01, 7.142857142857145E-02 *)
  (-2683487047461872742730211799334912, -2683487047461870436887202585640960, 2683487047461872742730211799334912, 1483513388152807811514320050716672); (* -1.292052015020528E-01, -1.292052015020527E-01, 1.292052015020528E-01, 7.142857142857142E-02 *)
  (2683487047461872742730211799334912, 2683487047461872742730211799334912, -2683487047461872742730211799334912, 1483513388152807811514320050716672); (* 1.292052015020528E-01, 1.292052015020528E-01, -1.292052015020528E-01, 7.142857142857142E-02 *)
  (-2683487047461872742730211799334912, 2683487047461872742730211799334912, -2683487047461872742730211799334912, 1483513388152807811514320050716672); (* -1.292052015020528E-01, 1.292052015020528E-01, -1.292052015020528E-01, 7.142857142857142E-02 *)
  (2683487047461872742730211799334912, -2683487047461870436887202585640960, -2683487047461872742730211799334912, 1483513388152807811514320050716672); (* 1.292052015020528E-01, -1.292052015020527E-01, -1.292052015020528E-01, 7.142857142857142E-02 *)
  (-2683487047461872742730211799334912, -2683487047461870436887202585640960, -2683487047461872742730211799334912, 1483513388152807811514320050716672) (* -1.292052015020528E-01, -1.292052015020527E-01, -1.292052015020528E-01, 7.142857142857142E-02 *)].

(* src/recovery/get_extrap_matrix.rs:619-647 *)
Definition tr_pinv_hxi_hex_legendre_27 : list (Z * Z * Z * Z) := [
  (-1489605871234849644898097202987008, -1489605871234850221358849506410496, -1489605871234850509589225658122240, 769229164227382404653362700091392); (* -7.172191381865585E-02, -7.172191381865588E-02, -7.172191381865589E-02, 3.703703703703706E-02 *)
  (0, -1489605871234849644898097202987008, -1489605871234851086049977961545728, 769229164227382404653362700091392); (* 0.000000000000000E+00, -7.172191381865585E-02, -7.172191381865592E-02, 3.703703703703706E-02 *)
  (1489605871234850509589225658122240, -1489605871234850797819601809833984, -1489605871234851086049977961545728, 769229164227382404653362700091392); (* 7.172191381865589E-02, -7.172191381865591E-02, -7.172191381865592E-02, 3.703703703703706E-02 *)
  (-1489605871234850509589225658122240, 432345564227567744, -1489605871234850509589225658122240, 769229164227382692883738851803136); (* -7.172191381865589E-02, 2.081668171172169E-17, -7.172191381865589E-02, 3.703703703703708E-02 *)
  (0, 0, -1489605871234850509589225658122240, 769229164227382692883738851803136); (* 0.000000000000000E+00, 0.000000000000000E+00, -7.172191381865589E-02, 3.703703703703708E-02 *)
  (1489605871234850509589225658122240, 288230376151711808, -1489605871234850509589225658122240, 769229164227382548768550775947264); (* 7.172191381865589E-02, 1.387778780781446E-17, -7.172191381865589E-02, 3.703703703703707E-02 *)
  (-1489605871234850509589225658122240, 1489605871234850797819601809833984, -1489605871234850509589225658122240, 769229164227382981114115003514880); (* -7.172191381865589E-02, 7.172191381865591E-02, -7.172191381865589E-02, 3.703703703703709E-02 *)
  (0, 1489605871234850797819601809833984, -1489605871234850797819601809833984, 769229164227382692883738851803136); (* 0.000000000000000E+00, 7.172191381865591E-02, -7.172191381865591E-02, 3.703703703703708E-02 *)
  (1489605871234850509589225658122240, 1489605871234850797819601809833984, -1489605871234850509589225658122240, 769229164227382981114115003514880); (* 7.172191381865589E-02, 7.172191381865591E-02, -7.172191381865589E-02, 3.703703703703709E-02 *)
  (-1489605871234850509589225658122240, -1489605871234850509589225658122240, -576460752303423424, 769229164227381684077422320812032); (* -7.172191381865589E-02, -7.172191381865589E-02, -2.775557561562891E-17, 3.703703703703703E-02 *)
  (0, -1489605871234849933128473354698752, -144115188075855872, 769229164227381684077422320812032); (* 0.000000000000000E+00, -7.172191381865586E-02, -6.938893903907228E-18, 3.703703703703703E-02 *)
  (1489605871234850509589225658122240, -1489605871234850797819601809833984, -288230376151711808, 769229164227381684077422320812032); (* 7.172191381865589E-02, -7.172191381865591E-02, -1.387778780781446E-17, 3.703703703703703E-02 *)
  (-1489605871234850509589225658122240, 55228907116381064, 22475171385843644, 769229164227382404653362700091392); (* -7.172191381865589E-02, 2.659175150280490E-18, 1.082140139430786E-18, 3.703703703703706E-02 *)
  (0, -6654969092075265, -33697107721476100, 769229164227381972307798472523776); (* 0.000000000000000E+00, -3.204251063349822E-19, -1.622456720000829E-18, 3.703703703703704E-02 *)
  (1489605871234850509589225658122240, 53867721034276480, 26825582404875748, 769229164227382116422986548379648); (* 7.172191381865589E-02, 2.593636424395281E-18, 1.291604810729439E-18, 3.703703703703705E-02 *)
  (-1489605871234850509589225658122240, 1489605871234850509589225658122240, 432345564227567744, 769229164227382404653362700091392); (* -7.172191381865589E-02, 7.172191381865589E-02, 2.081668171172169E-17, 3.703703703703706E-02 *)
  (0, 1489605871234850509589225658122240, 432345564227567744, 769229164227382404653362700091392); (* 0.000000000000000E+00, 7.172191381865589E-02, 2.081668171172169E-17, 3.703703703703706E-02 *)
  (1489605871234850509589225658122240, 1489605871234850509589225658122240, 288230376151711808, 769229164227382404653362700091392); (* 7.172191381865589E-02, 7.172191381865589E-02, 1.387778780781446E-17, 3.703703703703706E-02 *)
  (-1489605871234850509589225658122240, -1489605871234850797819601809833984, 1489605871234850509589225658122240, 769229164227381251731858093244416); (* -7.172191381865589E-02, -7.172191381865591E-02, 7.172191381865589E-02, 3.703703703703701E-02 *)
  (0, -1489605871234850797819601809833984, 1489605871234850509589225658122240, 769229164227381251731858093244416); (* 0.000000000000000E+00, -7.172191381865591E-02, 7.172191381865589E-02, 3.703703703703701E-02 *)
  (1489605871234850509589225658122240, -1489605871234850797819601809833984, 1489605871234850509589225658122240, 769229164227381251731858093244416); (* 7.172191381865589E-02, -7.172191381865591E-02, 7.172191381865589E-02, 3.703703703703701E-02 *)
  (-1489605871234850509589225658122240, 0, 1489605871234850509589225658122240, 769229164227381684077422320812032); (* -7.172191381865589E-02, 0.000000000000000E+00, 7.172191381865589E-02, 3.703703703703703E-02 *)
  (0, -144115188075855872, 1489605871234850509589225658122240, 769229164227381251731858093244416); (* 0.000000000000000E+00, -6.938893903907228E-18, 7.172191381865589E-02, 3.703703703703701E-02 *)
  (1489605871234850509589225658122240, -144115188075855872, 1489605871234851086049977961545728, 769229164227381684077422320812032); (* 7.172191381865589E-02, -6.938893903907228E-18, 7.172191381865592E-02, 3.703703703703703E-02 *)
  (-1489605871234850509589225658122240, 1489605871234850221358849506410496, 1489605871234850509589225658122240, 769229164227381684077422320812032); (* -7.172191381865589E-02, 7.172191381865588E-02, 7.172191381865589E-02, 3.703703703703703E-02 *)
  (0, 1489605871234850221358849506410496, 1489605871234850509589225658122240, 769229164227382116422986548379648); (* 0.000000000000000E+00, 7.172191381865588E-02, 7.172191381865589E-02, 3.703703703703705E-02 *)
  (1489605871234850509589225658122240, 1489605871234850221358849506410496, 1489605871234850509589225658122240, 769229164227381684077422320812032) (* 7.172191381865589E-02, 7.172191381865588E-02, 7.172191381865589E-02, 3.703703703703703E-02 *)].

(* src/recovery/get_extrap_matrix.rs:651-716 *)
Definition tr_pinv_hxi_hex_legendre_64 : list (Z * Z * Z * Z) := [
  (-652060990796259875483004436480000, -652060990796260163713380588191744, -652060990796259731367816360624128, 324518553658426726783156020576256); (* -3.139559469353317E-02, -3.139559469353318E-02, -3.139559469353316E-02, 1.562500000000000E-02 *)
  (-257437031916026915102463740608512, -652060990796259587252628284768256, -652060990796259875483004436480000, 324518553658426510610373906792448); (* -1.239514221403122E-02, -3.139559469353315E-02, -3.139559469353317E-02, 1.562499999999999E-02 *)
  (257437031916026915102463740608512, -652060990796259875483004436480000, -652060990796260596058944815759360, 324518553658426726783156020576256); (* 1.239514221403122E-02, -3.139559469353317E-02, -3.139559469353320E-02, 1.562500000000000E-02 *)
  (652060990796259731367816360624128, -652060990796259875483004436480000, -652060990796259875483004436480000, 324518553658426942955938134360064); (* 3.139559469353316E-02, -3.139559469353317E-02, -3.139559469353317E-02, 1.562500000000001E-02 *)
  (-652060990796259731367816360624128, -257437031916026915102463740608512, -652060990796259875483004436480000, 324518553658426510610373906792448); (* -3.139559469353316E-02, -1.239514221403122E-02, -3.139559469353317E-02, 1.562499999999999E-02 *)
  (-257437031916026915102463740608512, -257437031916026915102463740608512, -652060990796259875483004436480000, 324518553658426510610373906792448); (* -1.239514221403122E-02, -1.239514221403122E-02, -3.139559469353317E-02, 1.562499999999999E-02 *)
  (257437031916026915102463740608512, -257437031916026734958478645788672, -652060990796259875483004436480000, 324518553658426510610373906792448); (* 1.239514221403122E-02, -1.239514221403121E-02, -3.139559469353317E-02, 1.562499999999999E-02 *)
  (652060990796259731367816360624128, -257437031916026915102463740608512, -652060990796260163713380588191744, 324518553658426510610373906792448); (* 3.139559469353316E-02, -1.239514221403122E-02, -3.139559469353318E-02, 1.562499999999999E-02 *)
  (-652060990796259731367816360624128, 257437031916026915102463740608512, -652060990796259875483004436480000, 324518553658426726783156020576256); (* -3.139559469353316E-02, 1.239514221403122E-02, -3.139559469353317E-02, 1.562500000000000E-02 *)
  (-257437031916026915102463740608512, 257437031916026734958478645788672, -652060990796260163713380588191744, 324518553658426510610373906792448); (* -1.239514221403122E-02, 1.239514221403121E-02, -3.139559469353318E-02, 1.562499999999999E-02 *)
  (257437031916026915102463740608512, 257437031916026915102463740608512, -652060990796259875483004436480000, 324518553658426510610373906792448); (* 1.239514221403122E-02, 1.239514221403122E-02, -3.139559469353317E-02, 1.562499999999999E-02 *)
  (652060990796259731367816360624128, 257437031916026915102463740608512, -652060990796259875483004436480000, 324518553658426510610373906792448); (* 3.139559469353316E-02, 1.239514221403122E-02, -3.139559469353317E-02, 1.562499999999999E-02 *)
  (-652060990796259731367816360624128, 652060990796259875483004436480000, -652060990796259875483004436480000, 324518553658426726783156020576256); (* -3.139559469353316E-02, 3.139559469353317E-02, -3.139559469353317E-02, 1.562500000000000E-02 *)
  (-257437031916026915102463740608512, 652060990796259875483004436480000, -652060990796259875483004436480000, 324518553658426726783156020576256); (* -1.239514221403122E-02, 3.139559469353317E-02, -3.139559469353317E-02, 1.562500000000000E-02 *)
  (257437031916026915102463740608512, 652060990796259875483004436480000, -652060990796260307828568664047616, 324518553658426726783156020576256); (* 1.239514221403122E-02, 3.139559469353317E-02, -3.139559469353319E-02, 1.562500000000000E-02 *)
  (652060990796259731367816360624128, 652060990796259875483004436480000, -652060990796259875483004436480000, 324518553658426510610373906792448); (* 3.139559469353316E-02, 3.139559469353317E-02, -3.139559469353317E-02, 1.562499999999999E-02 *)
  (-652060990796259731367816360624128, -652060990796259875483004436480000, -257437031916026915102463740608512, 324518553658426510610373906792448); (* -3.139559469353316E-02, -3.139559469353317E-02, -1.239514221403122E-02, 1.562499999999999E-02 *)
  (-257437031916026915102463740608512, -652060990796259875483004436480000, -257437031916026915102463740608512, 324518553658426510610373906792448); (* -1.239514221403122E-02, -3.139559469353317E-02, -1.239514221403122E-02, 1.562499999999999E-02 *)
  (257437031916026915102463740608512, -652060990796259875483004436480000, -257437031916026915102463740608512, 324518553658426510610373906792448); (* 1.239514221403122E-02, -3.139559469353317E-02, -1.239514221403122E-02, 1.562499999999999E-02 *)
  (652060990796259731367816360624128, -652060990796259875483004436480000, -257437031916026915102463740608512, 324518553658426510610373906792448); (* 3.139559469353316E-02, -3.139559469353317E-02, -1.239514221403122E-02, 1.562499999999999E-02 *)
  (-652060990796259731367816360624128, -257437031916026915102463740608512, -257437031916026915102463740608512, 324518553658426510610373906792448); (* -3.139559469353316E-02, -1.239514221403122E-02, -1.239514221403122E-02, 1.562499999999999E-02 *)
  (-257437031916026915102463740608512, -257437031916026915102463740608512, -257437031916026915102463740608512, 324518553658426510610373906792448); (* -1.239514221403122E-02, -1.239514221403122E-02, -1.239514221403122E-02, 1.562499999999999E-02 *)
  (257437031916026915102463740608512, -257437031916026734958478645788672, -257437031916027131275245854392320, 324518553658426510610373906792448); (* 1.239514221403122E-02, -1.239514221403121E-02, -1.239514221403123E-02, 1.562499999999999E-02 *)
  (652060990796259731367816360624128, -257437031916026915102463740608512, -257437031916026915102463740608512, 324518553658426510610373906792448); (* 3.139559469353316E-02, -1.239514221403122E-02, -1.239514221403122E-02, 1.562499999999999E-02 *)
  (-652060990796259731367816360624128, 257437031916026915102463740608512, -257437031916026915102463740608512, 324518553658426726783156020576256); (* -3.139559469353316E-02, 1.239514221403122E-02, -1.239514221403122E-02, 1.562500000000000E-02 *)
  (-257437031916026915102463740608512, 257437031916026734958478645788672, -257437031916026915102463740608512, 324518553658426726783156020576256); (* -1.239514221403122E-02, 1.239514221403121E-02, -1.239514221403122E-02, 1.562500000000000E-02 *)
  (257437031916026915102463740608512, 257437031916026915102463740608512, -257437031916026915102463740608512, 324518553658426510610373906792448); (* 1.239514221403122E-02, 1.239514221403122E-02, -1.239514221403122E-02, 1.562499999999999E-02 *)
  (652060990796259731367816360624128, 257437031916026915102463740608512, -257437031916026915102463740608512, 324518553658426510610373906792448); (* 3.139559469353316E-02, 1.239514221403122E-02, -1.239514221403122E-02, 1.562499999999999E-02 *)
  (-652060990796259731367816360624128, 652060990796259875483004436480000, -257437031916026915102463740608512, 324518553658426510610373906792448); (* -3.139559469353316E-02, 3.139559469353317E-02, -1.239514221403122E-02, 1.562499999999999E-02 *)
  (-257437031916026915102463740608512, 652060990796259875483004436480000, -257437031916026915102463740608512, 324518553658426510610373906792448); (* -1.239514221403122E-02, 3.139559469353317E-02, -1.239514221403122E-02, 1.562499999999999E-02 *)
  (257437031916026915102463740608512, 652060990796259875483004436480000, -257437031916026915102463740608512, 324518553658426726783156020576256); (* 1.239514221403122E-02, 3.139559469353317E-02, -1.239514221403122E-02, 1.562500000000000E-02 *)
  (652060990796259731367816360624128, 652060990796259875483004436480000, -257437031916026915102463740608512, 324518553658426726783156020576256); (* 3.139559469353316E-02, 3.139559469353317E-02, -1.239514221403122E-02, 1.562500000000000E-02 *)
  (-652060990796259731367816360624128, -652060990796259875483004436480000, 257437031916027131275245854392320, 324518553658426510610373906792448); (* -3.139559469353316E-02, -3.139559469353317E-02, 1.239514221403123E-02, 1.562499999999999E-02 *)
  (-257437031916026915102463740608512, -652060990796259875483004436480000, 257437031916026915102463740608512, 324518553658426726783156020576256); (* -1.239514221403122E-02, -3.139559469353317E-02, 1.239514221403122E-02, 1.562500000000000E-02 *)
  (257437031916026915102463740608512, -652060990796259875483004436480000, 257437031916026915102463740608512, 324518553658426510610373906792448); (* 1.239514221403122E-02, -3.139559469353317E-02, 1.239514221403122E-02, 1.562499999999999E-02 *)
  (652060990796259731367816360624128, -652060990796259875483004436480000, 257437031916026915102463740608512, 324518553658426510610373906792448); (* 3.139559469353316E-02, -3.139559469353317E-02, 1.239514221403122E-02, 1.562499999999999E-02 *)
  (-652060990796259731367816360624128, -257437031916026915102463740608512, 257437031916026915102463740608512, 324518553658426510610373906792448); (* -3.139559469353316E-02, -1.239514221403122E-02, 1.239514221403122E-02, 1.562499999999999E-02 *)
  (-257437031916026915102463740608512, -257437031916026915102463740608512, 257437031916026915102463740608512, 324518553658426510610373906792448); (* -1.239514221403122E-02, -1.239514221403122E-02, 1.239514221403122E-02, 1.562499999999999E-02 *)
  (257437031916026915102463740608512, -257437031916026734958478645788672, 257437031916026915102463740608512, 324518553658426510610373906792448); (* 1.239514221403122E-02, -1.239514221403121E-02, 1.239514221403122E-02, 1.562499999999999E-02 *)
  (652060990796259731367816360624128, -257437031916026915102463740608512, 257437031916026915102463740608512, 324518553658426726783156020576256); (* 3.139559469353316E-02, -1.239514221403122E-02, 1.239514221403122E-02, 1.562500000000000E-02 *)
  (-652060990796259731367816360624128, 257437031916026915102463740608512, 257437031916026915102463740608512, 324518553658426726783156020576256); (* -3.139559469353316E-02, 1.239514221403122E-02, 1.239514221403122E-02, 1.562500000000000E-02 *)
  (-257437031916026915102463740608512, 257437031916026734958478645788672, 257437031916027131275245854392320, 324518553658426510610373906792448); (* -1.239514221403122E-02, 1.239514221403121E-02, 1.239514221403123E-02, 1.562499999999999E-02 *)
  (257437031916026915102463740608512, 257437031916026915102463740608512, 257437031916026915102463740608512, 324518553658426510610373906792448); (* 1.239514221403122E-02, 1.239514221403122E-02, 1.239514221403122E-02, 1.562499999999999E-02 *)
  (652060990796259731367816360624128, 257437031916026915102463740608512, 257437031916026915102463740608512, 324518553658426510610373906792448); (* 3.139559469353316E-02, 1.239514221403122E-02, 1.239514221403122E-02, 1.562499999999999E-02 *)
  (-652060990796259731367816360624128, 652060990796259875483004436480000, 257437031916026915102463740608512, 324518553658426510610373906792448); (* -3.139559469353316E-02, 3.139559469353317E-02, 1.239514221403122E-02, 1.562499999999999E-02 *)
  (-257437031916026915102463740608512, 652060990796259875483004436480000, 257437031916027131275245854392320, 324518553658426726783156020576256); (* -1.239514221403122E-02, 3.139559469353317E-02, 1.239514221403123E-02, 1.562500000000000E-02 *)
  (257437031916026915102463740608512, 652060990796259875483004436480000, 257437031916026915102463740608512, 324518553658426726783156020576256); (* 1.239514221403122E-02, 3.139559469353317E-02, 1.239514221403122E-02, 1.562500000000000E-02 *)
  (652060990796259731367816360624128, 652060990796259875483004436480000, 257437031916026915102463740608512, 324518553658426510610373906792448); (* 3.139559469353316E-02, 3.139559469353317E-02, 1.239514221403122E-02, 1.562499999999999E-02 *)
  (-652060990796259731367816360624128, -652060990796259875483004436480000, 652060990796259875483004436480000, 324518553658426510610373906792448); (* -3.139559469353316E-02, -3.139559469353317E-02, 3.139559469353317E-02, 1.562499999999999E-02 *)
  (-257437031916026915102463740608512, -652060990796259875483004436480000, 652060990796260307828568664047616, 324518553658426726783156020576256); (* -1.239514221403122E-02, -3.139559469353317E-02, 3.139559469353319E-02, 1.562500000000000E-02 *)
  (257437031916026915102463740608512, -652060990796259875483004436480000, 652060990796259875483004436480000, 324518553658426510610373906792448); (* 1.239514221403122E-02, -3.139559469353317E-02, 3.139559469353317E-02, 1.562499999999999E-02 *)
  (652060990796259731367816360624128, -652060990796259875483004436480000, 652060990796259875483004436480000, 324518553658426510610373906792448); (* 3.139559469353316E-02, -3.139559469353317E-02, 3.139559469353317E-02, 1.562499999999999E-02 *)
  (-652060990796259731367816360624128, -257437031916026915102463740608512, 652060990796259875483004436480000, 324518553658426510610373906792448); (* -3.139559469353316E-02, -1.239514221403122E-02, 3.139559469353317E-02, 1.562499999999999E-02 *)
  (-257437031916026915102463740608512, -257437031916026915102463740608512, 652060990796259875483004436480000, 324518553658426510610373906792448); (* -1.239514221403122E-02, -1.239514221403122E-02, 3.139559469353317E-02, 1.562499999999999E-02 *)
  (257437031916026915102463740608512, -257437031916026734958478645788672, 652060990796260163713380588191744, 324518553658426726783156020576256); (* 1.239514221403122E-02, -1.239514221403121E-02, 3.139559469353318E-02, 1.562500000000000E-02 *)
  (652060990796259731367816360624128, -257437031916026915102463740608512, 652060990796259875483004436480000, 324518553658426510610373906792448); (* 3.139559469353316E-02, -1.239514221403122E-02, 3.139559469353317E-02, 1.562499999999999E-02 *)
  (-652060990796259731367816360624128, 257437031916026915102463740608512, 652060990796260163713380588191744, 324518553658426726783156020576256); (* -3.139559469353316E-02, 1.239514221403122E-02, 3.139559469353318E-02, 1.562500000000000E-02 *)
  (-257437031916026915102463740608512, 257437031916026734958478645788672, 652060990796259875483004436480000, 324518553658426510610373906792448); (* -1.239514221403122E-02, 1.239514221403121E-02, 3.139559469353317E-02, 1.562499999999999E-02 *)
  (257437031916026915102463740608512, 257437031916026915102463740608512, 652060990796259875483004436480000, 324518553658426510610373906792448); (* 1.239514221403122E-02, 1.239514221403122E-02, 3.139559469353317E-02, 1.562499999999999E-02 *)
  (652060990796259731367816360624128, 257437031916026915102463740608512, 652060990796259875483004436480000, 324518553658426510610373906792448); (* 3.139559469353316E-02, 1.239514221403122E-02, 3.139559469353317E-02, 1.562499999999999E-02 *)
  (-652060990796259731367816360624128, 652060990796259875483004436480000, 652060990796259875483004436480000, 324518553658426726783156020576256); (* -3.139559469353316E-02, 3.139559469353317E-02, 3.139559469353317E-02, 1.562500000000000E-02 *)
  (-257437031916026915102463740608512, 652060990796259875483004436480000, 652060990796260163713380588191744, 324518553658426510610373906792448); (* -1.239514221403122E-02, 3.139559469353317E-02, 3.139559469353318E-02, 1.562499999999999E-02 *)
  (257437031916026915102463740608512, 652060990796259875483004436480000, 652060990796259875483004436480000, 324518553658426726783156020576256); (* 1.239514221403122E-02, 3.139559469353317E-02, 3.139559469353317E-02, 1.562500000000000E-02 *)
  (652060990796259731367816360624128, 652060990796259875483004436480000, 652060990796259875483004436480000, 324518553658426510610373906792448) (* 3.139559469353316E-02, 3.139559469353317E-02, 3.139559469353317E-02, 1.562499999999999E-02 *)].
