(** The literals of fenris-quadrature/src/codegen/gauss_lobatto_rules.rs, as mantissa and number of decimals: [(m, k)] is m / 10^k. Generated from that file, literal by literal; zeros at the end are dropped. *)
From Coq Require Import ZArith NArith List.
Import ListNotations.
Local Open Scope Z_scope.
Definition literal : Type := (Z * N)%type.
(** gauss_lobatto_rules.rs:6-16 *)
Definition gauss_lobatto_2 : list literal * list literal :=
  ([
    (9999999999999998, 16%N); (9999999999999998, 16%N) ],
   [
    (-10, 1%N); (10, 1%N) ]).
(** gauss_lobatto_rules.rs:19-31 *)
Definition gauss_lobatto_3 : list literal * list literal :=
  ([
    (33333333333333476, 17%N); (13333333333333315, 16%N); (33333333333333354, 17%N) ],
   [
    (-9999999999999978, 16%N); (6661338147750939, 31%N); (9999999999999999, 16%N) ]).
(** gauss_lobatto_rules.rs:34-48 *)
Definition gauss_lobatto_4 : list literal * list literal :=
  ([
    (16666666666666685, 17%N); (8333333333333333, 16%N); (833333333333333, 15%N); (16666666666666632, 17%N) ],
   [
    (-9999999999999978, 16%N); (-4472135954999572, 16%N); (44721359549995876, 17%N); (10, 1%N) ]).
(** gauss_lobatto_rules.rs:51-67 *)
Definition gauss_lobatto_5 : list literal * list literal :=
  ([
    (999999999999992, 16%N); (5444444444444464, 16%N); (7111111111111109, 16%N); (5444444444444436, 16%N); (9999999999999964, 17%N) ],
   [
    (-9999999999999982, 16%N); (-6546536707079755, 16%N); (6661338147750939, 31%N); (6546536707079775, 16%N); (10, 1%N) ]).
(** gauss_lobatto_rules.rs:70-88 *)
Definition gauss_lobatto_6 : list literal * list literal :=
  ([
    (6666666666666483, 17%N); (37847495629785, 14%N); (5548583770354855, 16%N); (5548583770354855, 16%N); (37847495629784766, 17%N); (6666666666666651, 17%N) ],
   [
    (-9999999999999998, 16%N); (-765055323929464, 15%N); (-28523151648064515, 17%N); (2852315164806456, 16%N); (7650553239294646, 16%N); (10, 1%N) ]).
(** gauss_lobatto_rules.rs:91-111 *)
Definition gauss_lobatto_7 : list literal * list literal :=
  ([
    (47619047619048185, 18%N); (2768260473615666, 16%N); (4317453812098624, 16%N); (4876190476190478, 16%N); (43174538120986206, 17%N); (27682604736156524, 17%N); (4761904761904743, 17%N) ],
   [
    (-9999999999999976, 16%N); (-8302238962785637, 16%N); (-4688487934707133, 16%N); (2220446049250313, 31%N); (46884879347071506, 17%N); (8302238962785671, 16%N); (10, 1%N) ]).
(** gauss_lobatto_rules.rs:114-136 *)
Definition gauss_lobatto_8 : list literal * list literal :=
  ([
    (3571428571428532, 17%N); (21070422714350415, 17%N); (3411226924835074, 16%N); (41245879465870305, 17%N); (41245879465870405, 17%N); (34112269248350424, 17%N); (210704227143506, 15%N);
    (35714285714285525, 18%N) ],
   [
    (-9999999999999987, 16%N); (-8717401485096059, 16%N); (-5917001814331417, 16%N); (-20929921790247863, 17%N); (20929921790247963, 17%N); (5917001814331423, 16%N); (8717401485096068, 16%N);
    (10, 1%N) ]).
(** gauss_lobatto_rules.rs:139-163 *)
Definition gauss_lobatto_9 : list literal * list literal :=
  ([
    (2777777777777764, 17%N); (1654953615608063, 16%N); (27453871250016115, 17%N); (3464285109730465, 16%N); (3715192743764182, 16%N); (3464285109730452, 16%N); (2745387125001616, 16%N);
    (165495361560806, 15%N); (27777777777777665, 18%N) ],
   [
    (-9999999999999984, 16%N); (-8997579954114587, 16%N); (-6771862795107362, 16%N); (-3631174638261774, 16%N); (0, 1%N); (3631174638261786, 16%N); (6771862795107383, 16%N); (8997579954114601, 16%N);
    (10, 1%N) ]).
(** gauss_lobatto_rules.rs:166-192 *)
Definition gauss_lobatto_10 : list literal * list literal :=
  ([
    (22222222222220846, 18%N); (13330599085107145, 17%N); (2248893420631292, 16%N); (2920426836796824, 16%N); (32753976118389466, 17%N); (32753976118389705, 17%N); (29204268367968306, 17%N);
    (22488934206312794, 17%N); (13330599085107017, 17%N); (22222222222222133, 18%N) ],
   [
    (-9999999999999996, 16%N); (-9195339081664577, 16%N); (-7387738651055042, 16%N); (-47792494981044387, 17%N); (-16527895766638712, 17%N); (16527895766638823, 17%N); (47792494981044487, 17%N);
    (7387738651055051, 16%N); (9195339081664586, 16%N); (10, 1%N) ]).
(** gauss_lobatto_rules.rs:195-223 *)
Definition gauss_lobatto_11 : list literal * list literal :=
  ([
    (18181818181816082, 18%N); (10961227326699295, 17%N); (1871698817803077, 16%N); (24804810426403048, 17%N); (2868791247790077, 16%N); (3002175954556917, 16%N); (2868791247790069, 16%N);
    (2480481042640292, 16%N); (18716988178030525, 17%N); (10961227326699403, 17%N); (18181818181818146, 18%N) ],
   [
    (-10000000000000004, 16%N); (-9340014304080582, 16%N); (-7844834736631436, 16%N); (-5652353269962056, 16%N); (-2957581355869381, 16%N); (-4440892098500626, 31%N); (29575813558693964, 17%N);
    (5652353269962049, 16%N); (7844834736631443, 16%N); (934001430408059, 15%N); (10, 1%N) ]).
(** gauss_lobatto_rules.rs:226-256 *)
Definition gauss_lobatto_12 : list literal * list literal :=
  ([
    (15151515151513811, 18%N); (9168451741319396, 17%N); (15797470556437102, 17%N); (21250841776102344, 17%N); (251275603199203, 15%N); (27140524091069435, 17%N); (2714052409106962, 16%N);
    (25127560319920217, 17%N); (21250841776102075, 17%N); (15797470556436988, 17%N); (9168451741319555, 17%N); (15151515151515154, 18%N) ],
   [
    (-10000000000000004, 16%N); (-9448992722228817, 16%N); (-8192793216440062, 16%N); (-6328761530318598, 16%N); (-39953094096534936, 17%N); (-13655293285492798, 17%N); (1365529328549281, 16%N);
    (39953094096534914, 17%N); (632876153031861, 15%N); (8192793216440066, 16%N); (9448992722228822, 16%N); (10, 1%N) ]).
(** gauss_lobatto_rules.rs:259-291 *)
Definition gauss_lobatto_13 : list literal * list literal :=
  ([
    (12820512820512638, 18%N); (7780168674681694, 17%N); (13498192668960848, 17%N); (1836468652035522, 16%N); (2207677935661098, 16%N); (24401579030667844, 17%N); (25193084933344745, 17%N);
    (2440157903066755, 16%N); (22076779356610884, 17%N); (18364686520355059, 17%N); (13498192668960832, 17%N); (7780168674681857, 17%N); (128205128205129, 16%N) ],
   [
    (-10, 1%N); (-9533098466421634, 16%N); (-8463475646518714, 16%N); (-6861884690817577, 16%N); (-4829098210913356, 16%N); (-24928693010623904, 17%N); (2220446049250313, 31%N);
    (2492869301062397, 16%N); (4829098210913362, 16%N); (6861884690817573, 16%N); (8463475646518723, 16%N); (953309846642164, 15%N); (10, 1%N) ]).
(** gauss_lobatto_rules.rs:294-328 *)
Definition gauss_lobatto_14 : list literal * list literal :=
  ([
    (10989010989011548, 18%N); (6683728449767998, 17%N); (11658665589871241, 17%N); (1600218517629538, 16%N); (19482614937341677, 17%N); (21912625300976965, 17%N); (2316127944684555, 16%N);
    (23161279446845567, 17%N); (2191262530097709, 16%N); (19482614937341733, 17%N); (1600218517629522, 16%N); (11658665589871195, 17%N); (668372844976812, 16%N); (10989010989011104, 18%N) ],
   [
    (-9999999999999996, 16%N); (-9599350452672597, 16%N); (-8678010538303467, 16%N); (-7288685990913253, 16%N); (-5506394029286479, 16%N); (-34272401334271363, 17%N); (-1163318688837034, 16%N);
    (11633186888370439, 17%N); (3427240133427134, 16%N); (5506394029286474, 16%N); (7288685990913264, 16%N); (8678010538303473, 16%N); (959935045267261, 15%N); (10, 1%N) ]).
(** gauss_lobatto_rules.rs:331-367 *)
Definition gauss_lobatto_15 : list literal * list literal :=
  ([
    (9523809523811006, 18%N); (58029893028599074, 18%N); (10166007032571688, 17%N); (14051169980242767, 17%N); (17278964725360296, 17%N); (19698723596461373, 17%N); (21197358592682206, 17%N);
    (2170481163488151, 16%N); (21197358592682133, 17%N); (1969872359646134, 16%N); (1727896472535999, 16%N); (1405116998024282, 16%N); (10166007032571787, 17%N); (58029893028601134, 18%N);
    (9523809523809554, 18%N) ],
   [
    (-9999999999999987, 16%N); (-9652459265038373, 16%N); (-885082044222975, 15%N); (-7635196899518146, 16%N); (-6062532054698446, 16%N); (-4206380547136723, 16%N); (-21535395536379376, 17%N);
    (2220446049250313, 31%N); (2153539553637943, 16%N); (4206380547136729, 16%N); (6062532054698461, 16%N); (7635196899518154, 16%N); (8850820442229764, 16%N); (9652459265038388, 16%N); (10, 1%N) ]).
(** gauss_lobatto_rules.rs:370-408 *)
Definition gauss_lobatto_16 : list literal * list literal :=
  ([
    (8333333333334213, 18%N); (5085036100591913, 17%N); (8939369732592968, 17%N); (12425538213251645, 17%N); (15402698080716465, 17%N); (17749191339170423, 17%N); (19369002382520223, 17%N);
    (20195830817823007, 17%N); (2019583081782291, 16%N); (19369002382520348, 17%N); (17749191339170323, 17%N); (1540269808071652, 16%N); (12425538213251465, 17%N); (8939369732593087, 17%N);
    (5085036100592017, 17%N); (8333333333333382, 18%N) ],
   [
    (-9999999999999991, 16%N); (-9695680462702181, 16%N); (-8992005330934716, 16%N); (-7920082918618154, 16%N); (-6523887028824933, 16%N); (-486059421887137, 15%N); (-2998304689007629, 16%N);
    (-10132627352194912, 17%N); (10132627352195, 14%N); (29983046890076404, 17%N); (48605942188713747, 17%N); (6523887028824935, 16%N); (7920082918618151, 16%N); (8992005330934721, 16%N);
    (9695680462702181, 16%N); (10, 1%N) ]).
(** gauss_lobatto_rules.rs:411-451 *)
Definition gauss_lobatto_17 : list literal * list literal :=
  ([
    (7352941176471605, 18%N); (4492194054325402, 17%N); (7919827050368587, 17%N); (11059290900702957, 17%N); (13798774620192938, 17%N); (16039466199761998, 17%N); (17700425351565824, 17%N);
    (18721633967761886, 17%N); (1906618747534675, 16%N); (1872163396776194, 16%N); (17700425351565705, 17%N); (16039466199762226, 17%N); (1379877462019271, 16%N); (11059290900702813, 17%N);
    (7919827050368707, 17%N); (4492194054325447, 17%N); (73529411764706315, 19%N) ],
   [
    (-9999999999999987, 16%N); (-973132176631418, 15%N); (-9108799959155724, 16%N); (-8156962512217689, 16%N); (-6910289806276833, 16%N); (-5413853993301017, 16%N); (-3721744335654762, 16%N);
    (-1895119735183166, 16%N); (4440892098500626, 31%N); (18951197351831772, 17%N); (3721744335654772, 16%N); (5413853993301019, 16%N); (6910289806276846, 16%N); (8156962512217704, 16%N);
    (9108799959155737, 16%N); (9731321766314184, 16%N); (10, 1%N) ]).
(** gauss_lobatto_rules.rs:454-496 *)
Definition gauss_lobatto_18 : list literal * list literal :=
  ([
    (6535947712417979, 18%N); (39970628810914614, 18%N); (7063716688563182, 17%N); (990162717175021, 16%N); (12421053313296705, 17%N); (14541196157380484, 17%N); (16193951723760203, 17%N);
    (17326210948945586, 17%N); (17901586343970385, 17%N); (17901586343970266, 17%N); (17326210948945525, 17%N); (16193951723760316, 17%N); (1454119615738021, 16%N); (12421053313296658, 17%N);
    (9901627171750292, 17%N); (7063716688563369, 17%N); (39970628810914365, 18%N); (6535947712418293, 18%N) ],
   [
    (-9999999999999998, 16%N); (-9761055574121988, 16%N); (-920649185347534, 15%N); (-8355935352180901, 16%N); (-7236793292832424, 16%N); (-5885048343186625, 16%N); (-4344150369121247, 16%N);
    (-26636265287828076, 17%N); (-8974909348465188, 17%N); (8974909348465221, 17%N); (2663626528782811, 16%N); (43441503691212446, 17%N); (5885048343186619, 16%N); (7236793292832429, 16%N);
    (8355935352180905, 16%N); (920649185347534, 15%N); (9761055574121986, 16%N); (10, 1%N) ]).
(** gauss_lobatto_rules.rs:499-543 *)
Definition gauss_lobatto_19 : list literal * list literal :=
  ([
    (5847953216373969, 18%N); (3579336518617792, 17%N); (6338189176262879, 17%N); (8913175709920805, 17%N); (11231534147730403, 17%N); (13226728044875072, 17%N); (14841394259593946, 17%N);
    (1602909240440616, 16%N); (16755658452714225, 17%N); (1700019192848255, 16%N); (1675565845271431, 16%N); (16029092404406214, 17%N); (14841394259593788, 17%N); (13226728044875039, 17%N);
    (11231534147730518, 17%N); (8913175709920762, 17%N); (6338189176262998, 17%N); (357933651861767, 16%N); (5847953216374237, 18%N) ],
   [
    (-9999999999999996, 16%N); (-9786117662220799, 16%N); (-9289015281525861, 16%N); (-8524605777966456, 16%N); (-7514942025526123, 16%N); (-6289081372652199, 16%N); (-48822928568071267, 17%N);
    (-33350484782449863, 17%N); (-16918602340928146, 17%N); (4440892098500626, 31%N); (1691860234092818, 16%N); (33350484782449896, 17%N); (4882292856807138, 16%N); (6289081372652212, 16%N);
    (7514942025526132, 16%N); (8524605777966461, 16%N); (9289015281525864, 16%N); (9786117662220801, 16%N); (10, 1%N) ]).
(** gauss_lobatto_rules.rs:546-592 *)
Definition gauss_lobatto_20 : list literal * list literal :=
  ([
    (5263157894736142, 18%N); (3223712318848967, 17%N); (57181802127566676, 18%N); (8063176399612038, 17%N); (10199149969945154, 17%N); (1207092276286764, 16%N); (13630048235872197, 17%N);
    (1483615540709155, 16%N); (156580102647475, 15%N); (1607432863878459, 16%N); (16074328638784555, 17%N); (15658010264747457, 17%N); (14836155407091509, 17%N); (13630048235872405, 17%N);
    (12070922762867584, 17%N); (1019914996994515, 16%N); (8063176399611971, 17%N); (5718180212756718, 17%N); (3223712318848899, 17%N); (5263157894736828, 18%N) ],
   [
    (-9999999999999998, 16%N); (-9807437048939143, 16%N); (-9359344988126654, 16%N); (-8668779780899492, 16%N); (-775368260952056, 15%N); (-6637764022903114, 16%N); (-5349928640318862, 16%N);
    (-3923531837139085, 16%N); (-23955170592298636, 17%N); (-8054593723882153, 17%N); (8054593723882242, 17%N); (2395517059229869, 16%N); (3923531837139097, 16%N); (5349928640318866, 16%N);
    (6637764022903112, 16%N); (775368260952056, 15%N); (8668779780899502, 16%N); (9359344988126655, 16%N); (9807437048939142, 16%N); (10, 1%N) ]).
(** gauss_lobatto_rules.rs:595-643 *)
Definition gauss_lobatto_21 : list literal * list literal :=
  ([
    (47619047619041985, 19%N); (29184840098505617, 18%N); (51843169000850356, 18%N); (7327391818507258, 17%N); (9298546795788809, 17%N); (11051708321912454, 17%N); (12545812119087013, 17%N);
    (1374584628600417, 16%N); (14623686244797598, 17%N); (15158757511168042, 17%N); (15338519033217307, 17%N); (15158757511168133, 17%N); (14623686244797707, 17%N); (1374584628600426, 16%N);
    (12545812119086963, 17%N); (11051708321912342, 17%N); (9298546795788624, 17%N); (7327391818507405, 17%N); (5184316900084989, 17%N); (291848400985054, 16%N); (47619047619047224, 19%N) ],
   [
    (-9999999999999996, 16%N); (-9825722966045471, 16%N); (-9419762969597447, 16%N); (-8792947553235886, 16%N); (-7960019260777118, 16%N); (-6940510260622219, 16%N); (-5758319602618311, 16%N);
    (-44411578327900214, 17%N); (-30198985650876464, 17%N); (-15278551580218513, 17%N); (6661338147750939, 31%N); (1527855158021858, 16%N); (30198985650876564, 17%N); (4441157832790025, 16%N);
    (5758319602618311, 16%N); (6940510260622235, 16%N); (7960019260777125, 16%N); (8792947553235906, 16%N); (9419762969597455, 16%N); (982572296604548, 15%N); (10, 1%N) ]).
(** gauss_lobatto_rules.rs:646-696 *)
Definition gauss_lobatto_22 : list literal * list literal :=
  ([
    (4329004329002971, 18%N); (26545747682501182, 18%N); (4721446529374164, 17%N); (6686560586455079, 17%N); (850900603918387, 16%N); (10150057480164758, 17%N); (11574764465394027, 17%N);
    (1275276966534304, 16%N); (13658968861374313, 17%N); (14274049227136137, 17%N); (14584901944424228, 17%N); (14584901944424222, 17%N); (14274049227136126, 17%N); (1365896886137418, 16%N);
    (12752769665342945, 17%N); (11574764465393828, 17%N); (10150057480164774, 17%N); (8509006039183828, 17%N); (6686560586455305, 17%N); (4721446529374072, 17%N); (26545747682501643, 18%N);
    (4329004329004284, 18%N) ],
   [
    (-10000000000000002, 16%N); (-9841524384576461, 16%N); (-9472042839992287, 16%N); (-8900622901909041, 16%N); (-813948927611921, 15%N); (-7204872399612023, 16%N); (-6116694382842585, 16%N);
    (-4898148751899014, 16%N); (-35752071013891906, 17%N); (-21760658515928477, 17%N); (-730545400108984, 16%N); (7305454001089895, 17%N); (21760658515928533, 17%N); (3575207101389194, 16%N);
    (4898148751899025, 16%N); (6116694382842591, 16%N); (7204872399612022, 16%N); (8139489276119212, 16%N); (8900622901909045, 16%N); (9472042839992286, 16%N); (9841524384576462, 16%N); (10, 1%N) ]).
(** gauss_lobatto_rules.rs:699-751 *)
Definition gauss_lobatto_23 : list literal * list literal :=
  ([
    (3952569169959066, 18%N); (24248600771531598, 18%N); (4317587117024298, 17%N); (6125247712955391, 17%N); (7813544947557091, 17%N); (9349724616351301, 17%N); (10703910172433719, 17%N);
    (11849751066274897, 17%N); (12764947470175714, 17%N); (13431687263860423, 17%N); (13836993638580744, 17%N); (13972978001274658, 17%N); (13836993638580744, 17%N); (1343168726386032, 16%N);
    (12764947470175814, 17%N); (1184975106627491, 16%N); (10703910172433752, 17%N); (9349724616351245, 17%N); (7813544947557043, 17%N); (6125247712955459, 17%N); (4317587117024172, 17%N);
    (2424860077153178, 17%N); (3952569169960447, 18%N) ],
   [
    (-10000000000000004, 16%N); (-9855271558787333, 16%N); (-9517579557107099, 16%N); (-8994585580403451, 16%N); (-829651096651286, 15%N); (-7436950411720602, 16%N); (-6432636444601372, 16%N);
    (-5303117711368441, 16%N); (-4070379379144746, 16%N); (-27584154894579305, 17%N); (-13927620404066854, 17%N); (0, 1%N); (13927620404066854, 17%N); (2758415489457928, 16%N);
    (40703793791447496, 17%N); (5303117711368441, 16%N); (6432636444601365, 16%N); (7436950411720609, 16%N); (829651096651286, 15%N); (899458558040345, 15%N); (9517579557107102, 16%N);
    (9855271558787326, 16%N); (10, 1%N) ]).
(** gauss_lobatto_rules.rs:754-808 *)
Definition gauss_lobatto_24 : list literal * list literal :=
  ([
    (3623188405796096, 18%N); (22236853464711236, 18%N); (3963168133346675, 17%N); (56309848724646915, 18%N); (7198186205529497, 17%N); (8636902996792857, 17%N); (9921482768408686, 17%N);
    (11029008689296768, 17%N); (11939719370249234, 17%N); (12637364202801965, 17%N); (1310949418736035, 16%N); (1334768438669858, 16%N); (13347684386698616, 17%N); (13109494187360327, 17%N);
    (1263736420280214, 16%N); (11939719370249172, 17%N); (11029008689296872, 17%N); (992148276840838, 16%N); (863690299679291, 16%N); (7198186205529435, 17%N); (56309848724646276, 18%N);
    (39631681333467526, 18%N); (2223685346471116, 17%N); (36231884057970672, 19%N) ],
   [
    (-10, 1%N); (-9867305535051607, 16%N); (-9557482209298855, 16%N); (-9077056751135057, 16%N); (-8434640701548712, 16%N); (-7641704824204929, 16%N); (-6712401052641279, 16%N);
    (-5663313579792957, 16%N); (-4513163732143226, 16%N); (-3282476133755108, 16%N); (-19932125339083218, 17%N); (-6683799373722876, 17%N); (668379937372291, 16%N); (19932125339083295, 17%N);
    (3282476133755112, 16%N); (4513163732143227, 16%N); (5663313579792957, 16%N); (6712401052641286, 16%N); (7641704824204933, 16%N); (8434640701548719, 16%N); (9077056751135064, 16%N);
    (9557482209298863, 16%N); (9867305535051609, 16%N); (10, 1%N) ]).
(** gauss_lobatto_rules.rs:811-867 *)
Definition gauss_lobatto_25 : list literal * list literal :=
  ([
    (33333333333324796, 19%N); (20465168932974703, 18%N); (365047387942695, 16%N); (5193622836849148, 17%N); (665137286753135, 16%N); (7999877483629342, 17%N); (921701399106198, 16%N);
    (10282803034796016, 17%N); (11179746626832049, 17%N); (11893117940681282, 17%N); (12411203893795042, 17%N); (12725497753833184, 17%N); (1283083892986616, 16%N); (1272549775383319, 16%N);
    (12411203893795059, 17%N); (11893117940681133, 17%N); (11179746626832066, 17%N); (1028280303479579, 16%N); (9217013991062027, 17%N); (7999877483629327, 17%N); (6651372867531292, 17%N);
    (5193622836849123, 17%N); (3650473879427109, 17%N); (20465168932974346, 18%N); (3333333333333285, 18%N) ],
   [
    (-10, 1%N); (-9877899449314935, 16%N); (-9592641382525335, 16%N); (-9149827707346223, 16%N); (-8556764658353155, 16%N); (-7823196592407169, 16%N); (-6961170488151336, 16%N);
    (-5984841472799931, 16%N); (-49102411481887787, 17%N); (-37550145785922684, 17%N); (-2538130641688767, 16%N); (-12795705948310676, 17%N); (2220446049250313, 31%N); (12795705948310732, 17%N);
    (25381306416887683, 17%N); (3755014578592274, 16%N); (49102411481887875, 17%N); (5984841472799931, 16%N); (6961170488151346, 16%N); (7823196592407169, 16%N); (8556764658353164, 16%N);
    (9149827707346225, 16%N); (9592641382525344, 16%N); (9877899449314937, 16%N); (10, 1%N) ]).
(** gauss_lobatto_rules.rs:870-928 *)
Definition gauss_lobatto_26 : list literal * list literal :=
  ([
    (3076923076922327, 18%N); (18896858024264447, 18%N); (3373230368595398, 17%N); (480483990811797, 16%N); (61635025142547685, 18%N); (7428705012229292, 17%N); (8581286398000527, 17%N);
    (9603780235390186, 17%N); (10480688623073788, 17%N); (1119871941198595, 16%N); (1174698840938088, 16%N); (1211718462884437, 16%N); (12303696380008267, 17%N); (1230369638000832, 16%N);
    (12117184628844323, 17%N); (11746988409380808, 17%N); (11198719411986052, 17%N); (1048068862307375, 16%N); (9603780235390137, 17%N); (8581286398000496, 17%N); (7428705012229142, 17%N);
    (6163502514254733, 17%N); (4804839908118027, 17%N); (33732303685955825, 18%N); (18896858024263503, 18%N); (3076923076923039, 18%N) ],
   [
    (-10, 1%N); (-9887274123114755, 16%N); (-9623778747677165, 16%N); (-921435546817557, 15%N); (-8665243239591229, 16%N); (-7984771831074378, 16%N); (-718325816362666, 15%N);
    (-6272852994923173, 16%N); (-5267357420298788, 16%N); (-41820138706624665, 17%N); (-3033275128592521, 16%N); (-1838554952700544, 16%N); (-6159641178191988, 17%N); (6159641178191999, 17%N);
    (18385549527005496, 17%N); (30332751285925275, 17%N); (41820138706624677, 17%N); (5267357420298784, 16%N); (6272852994923171, 16%N); (7183258163626651, 16%N); (7984771831074374, 16%N);
    (8665243239591236, 16%N); (9214355468175573, 16%N); (9623778747677174, 16%N); (9887274123114757, 16%N); (10, 1%N) ]).
(** gauss_lobatto_rules.rs:931-991 *)
Definition gauss_lobatto_27 : list literal * list literal :=
  ([
    (28490028490025937, 19%N); (17501974876066667, 18%N); (31262951735200474, 18%N); (44577657933060115, 18%N); (5726556968016187, 17%N); (691493423600449, 16%N); (8006232197053956, 17%N);
    (8985136525929296, 17%N); (9837907458595122, 17%N); (105525747821254, 15%N); (11119106525743752, 17%N); (11529550025465092, 17%N); (11778143658595626, 17%N); (11861397766276269, 17%N);
    (11778143658595615, 17%N); (11529550025465177, 17%N); (11119106525743779, 17%N); (10552574782125301, 17%N); (9837907458595203, 17%N); (8985136525929162, 17%N); (8006232197053821, 17%N);
    (6914934236004312, 17%N); (57265569680162526, 18%N); (4457765793306142, 17%N); (3126295173520229, 17%N); (1750197487606565, 17%N); (28490028490028105, 19%N) ],
   [
    (-9999999999999996, 16%N); (-9895609637285496, 16%N); (-9651484024508179, 16%N); (-9271834587251153, 16%N); (-8762020862145214, 16%N); (-812920486895812, 15%N); (-7382271498464585, 16%N);
    (-6531706636968091, 16%N); (-5589450609425604, 16%N); (-4568730756140822, 16%N); (-34838758198902875, 17%N); (-2350114831029182, 16%N); (-11833633389852127, 17%N); (0, 1%N);
    (1183363338985216, 16%N); (23501148310291875, 17%N); (34838758198902886, 17%N); (45687307561408275, 17%N); (5589450609425615, 16%N); (6531706636968095, 16%N); (7382271498464599, 16%N);
    (8129204868958123, 16%N); (8762020862145226, 16%N); (9271834587251159, 16%N); (965148402450819, 15%N); (9895609637285506, 16%N); (10, 1%N) ]).
(** gauss_lobatto_rules.rs:994-1056 *)
Definition gauss_lobatto_28 : list literal * list literal :=
  ([
    (26455026455026926, 19%N); (1625588395750513, 17%N); (29054220677977825, 18%N); (4146691524300587, 17%N); (5333807704732628, 17%N); (6451365808035513, 17%N); (7484812350970706, 17%N);
    (8420679512151222, 17%N); (9246768599771345, 17%N); (9952311041249495, 17%N); (10528109376105547, 17%N); (10966657379597773, 17%N); (11262238007723938, 17%N); (11410997967262732, 17%N);
    (11410997967262825, 17%N); (11262238007723935, 17%N); (10966657379597654, 17%N); (10528109376105509, 17%N); (9952311041249533, 17%N); (924676859977128, 16%N); (8420679512150998, 17%N);
    (748481235097075, 16%N); (645136580803545, 16%N); (5333807704732728, 17%N); (414669152430068, 16%N); (2905422067797917, 17%N); (16255883957504248, 18%N); (2645502645502618, 18%N) ],
   [
    (-9999999999999993, 16%N); (-9903054026184528, 16%N); (-9676242858571305, 16%N); (-9323251671215582, 16%N); (-8848710172113015, 16%N); (-825880970056337, 15%N); (-7561241940055692, 16%N);
    (-6765101289295725, 16%N); (-5880766898371761, 16%N); (-4919767539315787, 16%N); (-3894631375763622, 16%N); (-28187226662160203, 17%N); (-17060675530800395, 17%N); (-5711712169351313, 17%N);
    (5711712169351335, 17%N); (1706067553080045, 16%N); (2818722666216027, 16%N); (3894631375763634, 16%N); (4919767539315797, 16%N); (5880766898371758, 16%N); (6765101289295734, 16%N);
    (75612419400557, 14%N); (8258809700563383, 16%N); (8848710172113028, 16%N); (9323251671215587, 16%N); (9676242858571313, 16%N); (9903054026184541, 16%N); (10, 1%N) ]).
(** gauss_lobatto_rules.rs:1059-1123 *)
Definition gauss_lobatto_29 : list literal * list literal :=
  ([
    (24630541871927623, 19%N); (15138169859968336, 18%N); (2707080629682449, 17%N); (3866843997971346, 17%N); (49795809093235825, 18%N); (6031850382852379, 17%N); (70108938000598, 15%N);
    (7904831302788477, 17%N); (8702813344113731, 17%N); (9395154211479735, 17%N); (9973450163714985, 17%N); (1043068164636754, 16%N); (10761298583356753, 17%N); (10961287784589033, 17%N);
    (11028221677968235, 17%N); (10961287784589009, 17%N); (10761298583356732, 17%N); (10430681646367657, 17%N); (9973450163715016, 17%N); (9395154211479696, 17%N); (8702813344113491, 17%N);
    (7904831302788552, 17%N); (701089380005981, 16%N); (60318503828522996, 18%N); (49795809093237574, 18%N); (3866843997971321, 17%N); (27070806296824963, 18%N); (15138169859967635, 18%N);
    (24630541871920766, 19%N) ],
   [
    (-9999999999999987, 16%N); (-9909729882685678, 16%N); (-969845807287935, 15%N); (-9369427185209815, 16%N); (-8926657199760868, 16%N); (-8375527362817854, 16%N); (-7722728972064676, 16%N);
    (-6976186613563669, 16%N); (-6144962522034318, 16%N); (-5239146743719687, 16%N); (-42697347171349387, 17%N); (-3248493828419099, 16%N); (-21878205828426034, 17%N); (-11005901339559165, 17%N);
    (0, 1%N); (11005901339559288, 17%N); (21878205828426134, 17%N); (3248493828419112, 16%N); (4269734717134943, 16%N); (523914674371969, 15%N); (6144962522034332, 16%N); (6976186613563683, 16%N);
    (7722728972064689, 16%N); (8375527362817866, 16%N); (8926657199760883, 16%N); (9369427185209825, 16%N); (9698458072879363, 16%N); (9909729882685698, 16%N); (10, 1%N) ]).
(** gauss_lobatto_rules.rs:1126-1192 *)
Definition gauss_lobatto_30 : list literal * list literal :=
  ([
    (22988505747128306, 19%N); (1413179932790517, 17%N); (2528316674055106, 17%N); (361420941994094, 16%N); (4659069453314177, 17%N); (5651119792308141, 17%N); (6579133639779035, 17%N);
    (7432600332471873, 17%N); (820185128334073, 16%N); (8878171231976352, 17%N); (9453897519386144, 17%N); (9922507100430097, 17%N); (1027869053072354, 16%N); (10518412159645463, 17%N);
    (10638955872366648, 17%N); (10638955872366794, 17%N); (10518412159645478, 17%N); (10278690530723525, 17%N); (9922507100429968, 17%N); (9453897519386076, 17%N); (8878171231976362, 17%N);
    (8201851283340741, 17%N); (7432600332471882, 17%N); (6579133639779018, 17%N); (5651119792308057, 17%N); (46590694533143094, 18%N); (3614209419940867, 17%N); (25283166740551453, 18%N);
    (14131799327905427, 18%N); (2298850574712603, 18%N) ],
   [
    (-9999999999999991, 16%N); (-991573942840499, 15%N); (-9718466031662689, 16%N); (-9411047809510564, 16%N); (-8996992181992765, 16%N); (-8480994871801975, 16%N); (-7868903572375465, 16%N);
    (-716765398637085, 15%N); (-6385191758075579, 16%N); (-5530382600950519, 16%N); (-4612911901682406, 16%N); (-3643175004224488, 16%N); (-2632159437195736, 16%N); (-15913204262584957, 17%N);
    (-53245110485486746, 18%N); (5324511048548752, 17%N); (1591320426258508, 16%N); (263215943719574, 15%N); (36431750042244915, 17%N); (46129119016824094, 17%N); (5530382600950533, 16%N);
    (6385191758075587, 16%N); (7167653986370852, 16%N); (7868903572375472, 16%N); (8480994871801981, 16%N); (8996992181992769, 16%N); (9411047809510571, 16%N); (9718466031662693, 16%N);
    (9915739428405004, 16%N); (10, 1%N) ]).
(** gauss_lobatto_rules.rs:1195-1263 *)
Definition gauss_lobatto_31 : list literal * list literal :=
  ([
    (21505376344082778, 19%N); (13222471025464089, 18%N); (23666433230270147, 18%N); (33853940405224776, 18%N); (4368181816006659, 17%N); (5304646549344845, 17%N); (6184874129045578, 17%N);
    (6999537759410146, 17%N); (7740003234147787, 17%N); (839842205175289, 16%N); (896781510452599, 16%N); (944214683778568, 16%N); (9816389301371271, 17%N); (10086575479865058, 17%N);
    (10249841359547052, 17%N); (10304456295320738, 17%N); (10249841359546978, 17%N); (10086575479864955, 17%N); (9816389301371208, 17%N); (9442146837785782, 17%N); (8967815104526054, 17%N);
    (8398422051753059, 17%N); (7740003234147638, 17%N); (6999537759410053, 17%N); (6184874129045479, 17%N); (53046465493448776, 18%N); (43681818160067096, 18%N); (3385394040522408, 17%N);
    (23666433230270283, 18%N); (13222471025464685, 18%N); (21505376344085362, 19%N) ],
   [
    (-9999999999999996, 16%N); (-9921168443464807, 16%N); (-9736549358157365, 16%N); (-944869170208039, 15%N); (-9060669514412696, 16%N); (-8576599952974551, 16%N); (-8001615431924636, 16%N);
    (-7341811363090749, 16%N); (-6604182026115255, 16%N); (-5796546572080026, 16%N); (-4927466190988321, 16%N); (-40061533828056195, 17%N); (-3042374312728724, 16%N); (-20463452924752357, 17%N);
    (-10286244876068174, 17%N); (2220446049250313, 31%N); (10286244876068285, 17%N); (20463452924752457, 17%N); (30423743127287284, 17%N); (40061533828056217, 17%N); (49274661909883277, 17%N);
    (5796546572080022, 16%N); (6604182026115255, 16%N); (7341811363090753, 16%N); (8001615431924631, 16%N); (8576599952974557, 16%N); (9060669514412698, 16%N); (9448691702080393, 16%N);
    (9736549358157365, 16%N); (9921168443464812, 16%N); (10, 1%N) ]).
(** gauss_lobatto_rules.rs:1266-1336 *)
Definition gauss_lobatto_32 : list literal * list literal :=
  ([
    (2016129032257692, 18%N); (12398106501372777, 18%N); (22199552889291634, 18%N); (317751354109156, 16%N); (41034201586062614, 18%N); (498852713362204, 16%N); (5824049724805728, 17%N);
    (6601687725715376, 17%N); (7313713960267995, 17%N); (795305256921086, 16%N); (8513349794966917, 17%N); (8989037295735786, 17%N); (9375387554681329, 17%N); (9668560894800203, 17%N);
    (98656436540762, 15%N); (996467715012752, 16%N); (9964677150127603, 17%N); (9865643654076166, 17%N); (966856089480028, 16%N); (9375387554681454, 17%N); (89890372957358, 15%N);
    (8513349794966912, 17%N); (7953052569210607, 17%N); (7313713960267876, 17%N); (6601687725715437, 17%N); (5824049724805597, 17%N); (4988527133622131, 17%N); (4103420158606266, 17%N);
    (3177513541091537, 17%N); (2219955288929185, 17%N); (12398106501373839, 18%N); (2016129032258002, 18%N) ],
   [
    (-9999999999999996, 16%N); (-9926089339727611, 16%N); (-9752946904827089, 16%N); (-9482848384172318, 16%N); (-9118499390637314, 16%N); (-8663524760126744, 16%N); (-8122447317774417, 16%N);
    (-7500644939366736, 16%N); (-6804297556155496, 16%N); (-6040325871484211, 16%N); (-5216322628815653, 16%N); (-4340477172018471, 16%N); (-3421494065388817, 16%N); (-2468506588502053, 16%N);
    (-14909859681364712, 17%N); (-4986472504659356, 17%N); (4986472504659367, 17%N); (14909859681364712, 17%N); (24685065885020552, 17%N); (3421494065388817, 16%N); (43404771720184687, 17%N);
    (5216322628815653, 16%N); (6040325871484212, 16%N); (6804297556155509, 16%N); (7500644939366747, 16%N); (8122447317774424, 16%N); (8663524760126755, 16%N); (9118499390637318, 16%N);
    (9482848384172323, 16%N); (9752946904827092, 16%N); (9926089339727614, 16%N); (10, 1%N) ]).
(** gauss_lobatto_rules.rs:1339-1473 *)
Definition gauss_lobatto_64 : list literal * list literal :=
  ([
    (4960317460318956, 19%N); (3056008244911598, 18%N); (5496016203816361, 18%N); (7921289790046854, 18%N); (10327002366815118, 18%N); (12707399197453685, 18%N); (1505668398796406, 17%N);
    (17369116384542648, 18%N); (19639040723241102, 18%N); (21860903511517447, 18%N); (24029268144024136, 18%N); (26138828614338343, 18%N); (2818442266584926, 17%N); (30161044499089244, 18%N);
    (32063857057726554, 18%N); (3388820388412589, 17%N); (35629620524490035, 18%N); (3728384545980234, 17%N); (38846830537809615, 18%N); (4031475088155916, 17%N); (416840142508016, 16%N);
    (42951269833602215, 18%N); (44113416446892116, 18%N); (45167610125946826, 18%N); (4611127108428881, 17%N); (4694209002702835, 17%N); (476580338022205, 16%N); (48257350376413696, 18%N);
    (4873857312223339, 17%N); (4910052440750182, 17%N); (4934231847713874, 17%N); (49463363620776024, 18%N); (4946336362077623, 17%N); (49342318477139296, 18%N); (49100524407501484, 18%N);
    (48738573122232856, 18%N); (4825735037641459, 17%N); (4765803380221999, 17%N); (46942090027029114, 18%N); (4611127108428825, 17%N); (4516761012594776, 17%N); (44113416446892546, 18%N);
    (4295126983360218, 17%N); (41684014250802065, 18%N); (4031475088156014, 17%N); (3884683053780841, 17%N); (3728384545980134, 17%N); (356296205244894, 16%N); (3388820388412525, 17%N);
    (320638570577269, 16%N); (301610444990896, 16%N); (28184422665848554, 18%N); (2613882861433858, 17%N); (24029268144024077, 18%N); (2186090351151791, 17%N); (1963904072324188, 17%N);
    (17369116384542388, 18%N); (15056683987961478, 18%N); (12707399197454578, 18%N); (10327002366815176, 18%N); (7921289790046682, 18%N); (5496016203817201, 18%N); (30560082449124803, 19%N);
    (4960317460317352, 19%N) ],
   [
    (-9999999999999999, 16%N); (-9981798715021633, 16%N); (-9939027267030576, 16%N); (-9871926766027406, 16%N); (-9780666628313968, 16%N); (-9665471103690995, 16%N); (-9526622357886629, 16%N);
    (-9364460274756341, 16%N); (-9179381735102821, 16%N); (-8971839678458502, 16%N); (-8742342006576276, 16%N); (-8491450345429914, 16%N); (-8219778673075169, 16%N); (-7927991818262086, 16%N);
    (-7616803834081203, 16%N); (-7286976250888368, 16%N); (-6939316212907045, 16%N); (-6574674503129765, 16%N); (-6193943461384317, 16%N); (-5798054800677186, 16%N); (-538797732716801, 15%N);
    (-496471456936058, 15%N); (-45293023223158135, 17%N); (-40828061128985427, 17%N); (-36263185922626184, 17%N); (-3160956861956259, 16%N); (-2687859740191698, 16%N); (-22081849749695337, 17%N);
    (-1723106410877926, 16%N); (-12338111165002807, 17%N); (-7414964794611612, 17%N); (-24736727621958776, 18%N); (2473672762195922, 17%N); (7414964794611634, 17%N); (12338111165002819, 17%N);
    (17231064108779282, 17%N); (22081849749695381, 17%N); (26878597401917037, 17%N); (3160956861956262, 16%N); (36263185922626207, 17%N); (40828061128985427, 17%N); (45293023223158135, 17%N);
    (496471456936058, 15%N); (5387977327168008, 16%N); (5798054800677186, 16%N); (6193943461384317, 16%N); (6574674503129765, 16%N); (6939316212907048, 16%N); (728697625088837, 15%N);
    (76168038340812, 14%N); (7927991818262082, 16%N); (8219778673075172, 16%N); (8491450345429911, 16%N); (8742342006576276, 16%N); (8971839678458501, 16%N); (9179381735102817, 16%N);
    (9364460274756341, 16%N); (9526622357886628, 16%N); (9665471103690992, 16%N); (9780666628313961, 16%N); (9871926766027402, 16%N); (9939027267030573, 16%N); (9981798715021633, 16%N); (10, 1%N) ]).
(** gauss_lobatto_rules.rs:1476-1738 *)
Definition gauss_lobatto_128 : list literal * list literal :=
  ([
    (12303149606262875, 20%N); (7583323252569179, 19%N); (13652731521129327, 19%N); (197106667639043, 17%N); (2575619913038991, 18%N); (31785986553974003, 19%N); (37796440011665234, 19%N);
    (4378393219728238, 18%N); (4974483614639973, 18%N); (5567553645388338, 18%N); (6157243425393182, 18%N); (67431950412167405, 19%N); (7325052810936105, 18%N); (7902463518429378, 18%N);
    (8475076636698692, 18%N); (9042544545211884, 18%N); (9604522743409555, 18%N); (10160670061241484, 18%N); (10710648867114066, 18%N); (11254125273358812, 18%N); (11790769339244347, 18%N);
    (12320255271488315, 18%N); (12842261622173308, 18%N); (13356471483984137, 18%N); (13862572682665362, 18%N); (14360257966579469, 18%N); (14849225193272276, 18%N); (153291775129244, 16%N);
    (15799823548573032, 18%N); (16260877573032306, 18%N); (16712059682356135, 18%N); (1715309596577095, 17%N); (1758371867198408, 17%N); (18003666371721214, 18%N); (18412684116454775, 18%N);
    (18810523593179397, 18%N); (1919694327516251, 17%N); (1957170856858058, 17%N); (19934591954931993, 18%N); (20285373129178663, 18%N); (2062383913347776, 17%N); (20949784486472226, 18%N);
    (21263011308046746, 18%N); (21563329439449747, 18%N); (21850556558742282, 18%N); (22124518291488808, 18%N); (22385048316612127, 18%N); (22631988467374395, 18%N); (2286518882739337, 17%N);
    (2308450782165658, 17%N); (23289812302479247, 18%N); (23480977630325674, 18%N); (23657887749484827, 18%N); (2382043525852743, 17%N); (23968521475507102, 18%N); (2410205649787088, 17%N);
    (24220959257034956, 18%N); (24325157567608814, 18%N); (24414588171210477, 18%N); (24489196774876702, 18%N); (24548938084018077, 18%N); (2459377582992501, 17%N); (2462368279178105, 17%N);
    (2463864081318649, 17%N); (24638640813185904, 18%N); (24623682791780947, 18%N); (2459377582992557, 17%N); (24548938084018146, 18%N); (2448919677487604, 17%N); (24414588171209544, 18%N);
    (2432515756760875, 17%N); (24220959257034595, 18%N); (24102056497871047, 18%N); (2396852147550714, 17%N); (2382043525852774, 17%N); (2365788774948402, 17%N); (2348097763032569, 17%N);
    (2328981230247918, 17%N); (23084507821657052, 18%N); (22865188827392812, 18%N); (22631988467374995, 18%N); (22385048316612838, 18%N); (221245182914888, 16%N); (2185055655874277, 17%N);
    (2156332943944939, 17%N); (21263011308047315, 18%N); (20949784486472885, 18%N); (20623839133477324, 18%N); (202853731291795, 16%N); (19934591954932697, 18%N); (19571708568579507, 18%N);
    (1919694327516208, 17%N); (18810523593178575, 18%N); (1841268411645408, 17%N); (1800366637172054, 17%N); (1758371867198345, 17%N); (17153095965771775, 18%N); (1671205968235566, 17%N);
    (1626087757303339, 17%N); (1579982354857392, 17%N); (15329177512924156, 18%N); (1484922519327298, 17%N); (14360257966579252, 18%N); (13862572682664092, 18%N); (13356471483983395, 18%N);
    (12842261622172748, 18%N); (12320255271488672, 18%N); (1179076933924468, 17%N); (11254125273358687, 18%N); (10710648867114215, 18%N); (10160670061241278, 18%N); (9604522743408577, 18%N);
    (9042544545211638, 18%N); (847507663669889, 17%N); (7902463518429458, 18%N); (7325052810935082, 18%N); (6743195041217798, 18%N); (615724342539351, 17%N); (5567553645389815, 18%N);
    (4974483614639138, 18%N); (4378393219728553, 18%N); (37796440011656778, 19%N); (3178598655397741, 18%N); (2575619913039478, 18%N); (19710666763900794, 19%N); (13652731521135184, 19%N);
    (7583323252573513, 19%N); (12303149606297158, 20%N) ],
   [
    (-10, 1%N); (-9995484477835951, 16%N); (-998486526837496, 15%N); (-9968182654877111, 16%N); (-9945448056434174, 16%N); (-991667550312787, 15%N); (-9881882527680976, 16%N);
    (-9841090276890168, 16%N); (-9794323526166568, 16%N); (-9741610672663592, 16%N); (-9682983720981175, 16%N); (-9618478264951209, 16%N); (-9548133466584625, 16%N); (-9471992032572114, 16%N);
    (-9390100188503108, 16%N); (-9302507650884022, 16%N); (-9209267597003348, 16%N); (-9110436632676933, 16%N); (-9006074757901081, 16%N); (-8896245330438652, 16%N); (-8781015027362633, 16%N);
    (-8660453804582091, 16%N); (-8534634854375942, 16%N); (-8403634560960813, 16%N); (-8267532454120374, 16%N); (-8126411160924489, 16%N); (-798035635556765, 15%N); (-782945670735731, 15%N);
    (-7673803826883636, 16%N); (-7513492210403541, 16%N); (-7348619182472713, 16%N); (-7179284836860547, 16%N); (-7005591975783789, 16%N); (-6827646047495923, 16%N); (-6645555082270056, 16%N);
    (-645942962681429, 15%N); (-6269382677159341, 16%N); (-6075529610059149, 16%N); (-5877988112946186, 16%N); (-567687811248393, 15%N); (-5472321701759877, 16%N); (-5264443066163365, 16%N);
    (-5053368407993146, 16%N); (-4839225869840482, 16%N); (-4622145456794309, 16%N); (-4402258957515668, 16%N); (-41796998642293715, 17%N); (-39546032916813956, 17%N); (-37271058951112446, 17%N);
    (-34973457872891456, 17%N); (-326546245466832, 15%N); (-3031596672703307, 16%N); (-2795890420385756, 16%N); (-25584867940495704, 17%N); (-2319529920497645, 16%N); (-20791648695031006, 17%N);
    (-18375375657379767, 17%N); (-1594794700182991, 16%N); (-13510836410719462, 17%N); (-11065523444251335, 17%N); (-8613492642257947, 17%N); (-6156232622942848, 17%N); (-3695235179146872, 17%N);
    (-12319943726862181, 18%N); (1231994372686196, 17%N); (3695235179146883, 17%N); (6156232622942881, 17%N); (8613492642257958, 17%N); (11065523444251357, 17%N); (13510836410719462, 17%N);
    (15947947001829932, 17%N); (18375375657379833, 17%N); (20791648695030995, 17%N); (23195299204976472, 17%N); (2558486794049577, 16%N); (27958904203857626, 17%N); (30315966727033106, 17%N);
    (32654624546683253, 17%N); (3497345787289152, 16%N); (3727105895111248, 16%N); (39546032916814, 14%N); (41796998642293814, 17%N); (44022589575156756, 17%N); (46221454567943143, 17%N);
    (4839225869840491, 16%N); (5053368407993154, 16%N); (5264443066163369, 16%N); (5472321701759878, 16%N); (5676878112483932, 16%N); (5877988112946192, 16%N); (6075529610059149, 16%N);
    (6269382677159343, 16%N); (6459429626814294, 16%N); (664555508227006, 15%N); (6827646047495928, 16%N); (7005591975783794, 16%N); (7179284836860552, 16%N); (734861918247272, 15%N);
    (7513492210403546, 16%N); (7673803826883641, 16%N); (7829456707357313, 16%N); (7980356355567653, 16%N); (8126411160924487, 16%N); (8267532454120377, 16%N); (8403634560960818, 16%N);
    (8534634854375946, 16%N); (8660453804582096, 16%N); (8781015027362639, 16%N); (889624533043866, 15%N); (9006074757901087, 16%N); (9110436632676935, 16%N); (9209267597003356, 16%N);
    (9302507650884032, 16%N); (9390100188503113, 16%N); (9471992032572121, 16%N); (954813346658463, 15%N); (9618478264951216, 16%N); (9682983720981185, 16%N); (9741610672663599, 16%N);
    (9794323526166572, 16%N); (9841090276890169, 16%N); (9881882527680981, 16%N); (9916675503127873, 16%N); (9945448056434174, 16%N); (9968182654877115, 16%N); (9984865268374962, 16%N);
    (9995484477835951, 16%N); (10, 1%N) ]).
(** gauss_lobatto_rules.rs:1741-2259 *)
Definition gauss_lobatto_256 : list literal * list literal :=
  ([
    (3063725490207418, 20%N); (18886096714199068, 20%N); (340108661849477, 18%N); (4912256483841856, 19%N); (6422574998440147, 19%N); (7931895517313525, 19%N); (944000768271093, 18%N);
    (10946688867832343, 19%N); (12451713277883058, 19%N); (13954854228313564, 19%N); (1545588487221552, 18%N); (16954578485273676, 19%N); (18450708602212292, 19%N); (19944049096752106, 19%N);
    (21434374237815925, 19%N); (22921458735026333, 19%N); (2440507777881015, 18%N); (25885007077892062, 19%N); (2736102289522537, 18%N); (28832902083134604, 19%N); (30300422117679436, 19%N);
    (3176336113290013, 18%N); (33221497954648137, 19%N); (3467461213428795, 18%N); (36122483982120664, 19%N); (3756489460071363, 18%N); (39001625918096573, 19%N); (4043246072078553, 18%N);
    (418571826866195, 17%N); (4327557641752167, 18%N); (4468742747211366, 18%N); (4609252239807973, 18%N); (474906487645239, 17%N); (488815951940385, 17%N); (5026515139473092, 18%N);
    (5164110819194546, 18%N); (5300925755997014, 18%N); (54369392653437895, 19%N); (5572130783859159, 18%N); (5706479872444841, 18%N); (58399662193619134, 19%N); (5972569643307577, 18%N);
    (610427009646269, 17%N); (6235047667526174, 18%N); (6364882584721953, 18%N); (6493755218790468, 18%N); (6621646085956731, 18%N); (6748535850874354, 18%N); (6874405329549062, 18%N);
    (6999235492242209, 18%N); (7123007466340522, 18%N); (7245702539220608, 18%N); (736730216106488, 17%N); (7487787947679976, 18%N); (76071416832634645, 19%N); (7725345323164219, 18%N);
    (7842380996612533, 18%N); (7958231009417074, 18%N); (8072877846641466, 18%N); (8186304175256872, 18%N); (8298492846752747, 18%N); (8409426899740063, 18%N); (8519089562507316, 18%N);
    (8627464255564104, 18%N); (8734534594139351, 18%N); (8840284390664041, 18%N); (8944697657216715, 18%N); (9047758607942184, 18%N); (9149451661435467, 18%N); (9249761443098928, 18%N);
    (9348672787468227, 18%N); (9446170740500378, 18%N); (9542240561842417, 18%N); (963686772705116, 17%N); (9730037929794662, 18%N); (9821737084015375, 18%N); (9911951326054479, 18%N);
    (10000667016755822, 18%N); (10087870743521325, 18%N); (10173549322341435, 18%N); (10257689799787691, 18%N); (10340279454970906, 18%N); (10421305801468769, 18%N); (10500756589205375, 18%N);
    (10578619806309243, 18%N); (1065488368092853, 17%N); (1072953668300847, 17%N); (10802567526038516, 18%N); (10873965168754536, 18%N); (10943718816811415, 18%N); (11011817924411332, 18%N);
    (1107825219590304, 17%N); (11143011587332115, 18%N); (11206086307968013, 18%N); (11267466821773714, 18%N); (11327143848857295, 18%N); (1138510836686968, 17%N); (11441351612368462, 18%N);
    (11495865082144955, 18%N); (1154864053451024, 17%N); (11599669990537718, 18%N); (11648945735271619, 18%N); (11696460318894916, 18%N); (1174220655785315, 17%N); (11786177535939198, 18%N);
    (11828366605346278, 18%N); (11868767387662621, 18%N); (1190737377484373, 17%N); (11944179930132677, 18%N); (11979180288942732, 18%N); (12012369559698692, 18%N); (12043742724636021, 18%N);
    (12073295040563434, 18%N); (12101022039574982, 18%N); (12126919529728162, 18%N); (1215098359567584, 17%N); (12173210599261762, 18%N); (1219359718006689, 17%N); (12212140255920158, 18%N);
    (12228837023360967, 18%N); (12243684958067488, 18%N); (12256681815234568, 18%N); (12267825629916821, 18%N); (12277114717321215, 18%N); (12284547673065412, 18%N); (12290123373387522, 18%N);
    (12293840975317551, 18%N); (12295699916805253, 18%N); (12295699916805724, 18%N); (12293840975317716, 18%N); (12290123373387184, 18%N); (12284547673064855, 18%N); (12277114717321272, 18%N);
    (12267825629917404, 18%N); (12256681815235598, 18%N); (12243684958067604, 18%N); (12228837023361501, 18%N); (12212140255920136, 18%N); (12193597180066934, 18%N); (12173210599261823, 18%N);
    (12150983595676172, 18%N); (12126919529727678, 18%N); (1210102203957509, 17%N); (12073295040563663, 18%N); (12043742724636224, 18%N); (12012369559698532, 18%N); (11979180288942478, 18%N);
    (11944179930132647, 18%N); (11907373774843943, 18%N); (11868767387662496, 18%N); (1182836660534615, 17%N); (11786177535939253, 18%N); (11742206557852432, 18%N); (11696460318894424, 18%N);
    (11648945735271678, 18%N); (11599669990537718, 18%N); (11548640534510426, 18%N); (11495865082145345, 18%N); (11441351612368563, 18%N); (1138510836686934, 17%N); (11327143848857411, 18%N);
    (1126746682177358, 17%N); (11206086307967314, 18%N); (1114301158733196, 17%N); (11078252195902739, 18%N); (11011817924411225, 18%N); (10943718816811412, 18%N); (10873965168755101, 18%N);
    (1080256752603856, 17%N); (10729536683008389, 18%N); (1065488368092797, 17%N); (1057861980630879, 17%N); (105007565892048, 16%N); (10421305801468616, 18%N); (10340279454971417, 18%N);
    (10257689799787478, 18%N); (1017354932234142, 17%N); (10087870743521353, 18%N); (10000667016756145, 18%N); (9911951326054545, 18%N); (9821737084014515, 18%N); (9730037929794601, 18%N);
    (9636867727050937, 18%N); (9542240561842217, 18%N); (9446170740500776, 18%N); (9348672787468109, 18%N); (924976144309895, 17%N); (9149451661435498, 18%N); (9047758607942291, 18%N);
    (8944697657216715, 18%N); (8840284390663845, 18%N); (8734534594138981, 18%N); (8627464255564056, 18%N); (8519089562507718, 18%N); (8409426899739685, 18%N); (829849284675297, 17%N);
    (8186304175256986, 18%N); (807287784664251, 17%N); (7958231009417395, 18%N); (7842380996612693, 18%N); (7725345323164307, 18%N); (7607141683263006, 18%N); (7487787947679842, 18%N);
    (7367302161065658, 18%N); (7245702539220168, 18%N); (71230074663406265, 19%N); (6999235492241575, 18%N); (6874405329549195, 18%N); (6748535850874274, 18%N); (66216460859567835, 19%N);
    (6493755218790754, 18%N); (636488258472179, 17%N); (6235047667526097, 18%N); (6104270096462891, 18%N); (5972569643307512, 18%N); (5839966219361722, 18%N); (5706479872444512, 18%N);
    (5572130783859306, 18%N); (5436939265343248, 18%N); (53009257559975, 16%N); (5164110819195129, 18%N); (5026515139473095, 18%N); (48881595194042796, 19%N); (4749064876451965, 18%N);
    (4609252239807956, 18%N); (4468742747211159, 18%N); (4327557641752566, 18%N); (4185718268661726, 18%N); (4043246072078394, 18%N); (39001625918098385, 19%N); (37564894600709002, 19%N);
    (36122483982117372, 19%N); (34674612134294037, 19%N); (33221497954655306, 19%N); (3176336113289965, 18%N); (3030042211768087, 18%N); (2883290208313915, 18%N); (27361022895235777, 19%N);
    (25885007077881207, 19%N); (24405077778803003, 19%N); (22921458735027317, 19%N); (2143437423782176, 18%N); (19944049096746767, 19%N); (1845070860220546, 18%N); (1695457848526883, 18%N);
    (154558848722178, 17%N); (13954854228320386, 19%N); (12451713277884236, 19%N); (1094668886783197, 18%N); (94400076827084, 17%N); (7931895517318706, 19%N); (6422574998440151, 19%N);
    (491225648384233, 18%N); (3401086618497863, 19%N); (18886096714174793, 20%N); (3063725490195384, 20%N) ],
   [
    (-9999999999999998, 16%N); (-9998875482883649, 16%N); (-9996230440868826, 16%N); (-9992073699444184, 16%N); (-9986406208502117, 16%N); (-9979228881638991, 16%N); (-9970542820146735, 16%N);
    (-9960349343237884, 16%N); (-9948649994661086, 16%N); (-9935446544500658, 16%N); (-9920740989641487, 16%N); (-9904535553769447, 16%N); (-9886832687173448, 16%N); (-9867635066443574, 16%N);
    (-9846945594102683, 16%N); (-9824767398187899, 16%N); (-980110383178953, 15%N); (-9775958472551349, 16%N); (-9749335122134226, 16%N); (-9721237805644294, 16%N); (-9691670771026377, 16%N);
    (-9660638488423061, 16%N); (-9628145649499795, 16%N); (-9594197166736222, 16%N); (-9558798172683947, 16%N); (-9521954019190904, 16%N); (-9483670276592471, 16%N); (-9443952732869512, 16%N);
    (-9402807392773453, 16%N); (-9360240476918549, 16%N); (-9316258420841497, 16%N); (-927086787402855, 15%N); (-9224075698910223, 16%N); (-9175888969823875, 16%N); (-9126314971944165, 16%N);
    (-9075361200181669, 16%N); (-9023035358049771, 16%N); (-8969345356500031, 16%N); (-8914299312726148, 16%N); (-8857905548936769, 16%N); (-8800172591097308, 16%N); (-8741109167640939, 16%N);
    (-8680724208148964, 16%N); (-8619026842000825, 16%N); (-8556026396993837, 16%N); (-8491732397932978, 16%N); (-842615456519086, 15%N); (-8359302813238156, 16%N); (-8291187249144656, 16%N);
    (-8221818171051238, 16%N); (-8151206066612922, 16%N); (-8079361611413249, 16%N); (-8006295667350363, 16%N); (-7932019280994749, 16%N); (-7856543681919217, 16%N); (-7779880281001084, 16%N);
    (-7702040668697061, 16%N); (-7623036613290894, 16%N); (-7542880059114199, 16%N); (-7461583124740585, 16%N); (-7379158101153571, 16%N); (-7295617449888296, 16%N); (-7210973801147529, 16%N);
    (-712523995189215, 15%N); (-7038428863906427, 16%N); (-6950553661838388, 16%N); (-6861627631215512, 16%N); (-6771664216436202, 16%N); (-6680677018737091, 16%N); (-658867979413682, 15%N);
    (-6495686451356257, 16%N); (-6401711049715659, 16%N); (-6306767797009196, 16%N); (-6210871047356834, 16%N); (-6114035299034206, 16%N); (-6016275192280729, 16%N); (-5917605507086128, 16%N);
    (-5818041160955938, 16%N); (-571759720665618, 15%N); (-5616288829937606, 16%N); (-551413134723977, 15%N); (-5411140203375446, 16%N); (-5307330969195554, 16%N); (-5202719339235078, 16%N);
    (-5097321129340231, 16%N); (-49911522742773795, 17%N); (-4884228825323864, 16%N); (-4776566947841303, 16%N); (-46681829188315827, 17%N); (-4559093124476019, 16%N); (-44493140576579915, 17%N);
    (-4338862315469447, 16%N); (-4227754596701616, 16%N); (-41160076993204187, 17%N); (-4003638517926824, 16%N); (-38906640412026383, 17%N); (-37771013493420225, 17%N); (-3662967611469212, 16%N);
    (-3548280083042783, 16%N); (-343305610324687, 15%N); (-3317313092369698, 16%N); (-320106854916989, 15%N); (-3084340048230887, 16%N); (-29671452373039187, 17%N); (-2849501834639896, 16%N);
    (-2731427626310665, 16%N); (-2612940463519988, 16%N); (-24940582599046768, 17%N); (-2374798988826321, 16%N); (-2255180680653952, 16%N); (-2135221420038078, 16%N); (-20149393431765583, 17%N);
    (-18943526350726403, 17%N); (-17734795267856662, 17%N); (-16523382926747354, 17%N); (-15309472476359276, 17%N); (-14093247443332868, 17%N); (-12874891704242075, 17%N); (-11654589457794295, 17%N);
    (-10432525196982079, 17%N); (-9208883681190527, 17%N); (-7983849908264151, 17%N); (-6757609086537597, 17%N); (-55303466068347795, 18%N); (-43022480144403685, 18%N); (-30734989810477398, 18%N);
    (-1844285276688118, 17%N); (-614792741644532, 17%N); (6147927416445098, 18%N); (18442852766880846, 18%N); (30734989810477398, 18%N); (43022480144403796, 18%N); (55303466068347906, 18%N);
    (6757609086537575, 17%N); (7983849908264129, 17%N); (9208883681190505, 17%N); (10432525196982012, 17%N); (1165458945779424, 16%N); (12874891704242086, 17%N); (14093247443332846, 17%N);
    (15309472476359243, 17%N); (1652338292674732, 16%N); (1773479526785663, 16%N); (1894352635072638, 16%N); (2014939343176554, 16%N); (21352214200380748, 17%N); (22551806806539476, 17%N);
    (2374798988826321, 16%N); (24940582599046734, 17%N); (2612940463519985, 16%N); (2731427626310664, 16%N); (28495018346398937, 17%N); (29671452373039153, 17%N); (3084340048230886, 16%N);
    (32010685491698876, 17%N); (3317313092369695, 16%N); (34330561032468676, 17%N); (3548280083042783, 16%N); (3662967611469208, 16%N); (3777101349342018, 16%N); (38906640412026383, 17%N);
    (4003638517926824, 16%N); (4116007699320414, 16%N); (4227754596701615, 16%N); (4338862315469447, 16%N); (4449314057657996, 16%N); (4559093124476017, 16%N); (4668182918831576, 16%N);
    (47765669478413, 14%N); (4884228825323864, 16%N); (49911522742773784, 17%N); (5097321129340231, 16%N); (5202719339235073, 16%N); (5307330969195556, 16%N); (541114020337545, 15%N);
    (5514131347239771, 16%N); (5616288829937606, 16%N); (5717597206656182, 16%N); (5818041160955932, 16%N); (5917605507086123, 16%N); (6016275192280727, 16%N); (6114035299034206, 16%N);
    (6210871047356827, 16%N); (6306767797009196, 16%N); (6401711049715663, 16%N); (6495686451356248, 16%N); (6588679794136822, 16%N); (6680677018737091, 16%N); (6771664216436195, 16%N);
    (6861627631215516, 16%N); (6950553661838388, 16%N); (703842886390643, 15%N); (712523995189215, 15%N); (7210973801147531, 16%N); (7295617449888299, 16%N); (7379158101153573, 16%N);
    (7461583124740585, 16%N); (7542880059114194, 16%N); (7623036613290897, 16%N); (7702040668697062, 16%N); (7779880281001087, 16%N); (7856543681919218, 16%N); (7932019280994755, 16%N);
    (8006295667350365, 16%N); (8079361611413252, 16%N); (8151206066612917, 16%N); (8221818171051241, 16%N); (8291187249144658, 16%N); (8359302813238156, 16%N); (8426154565190862, 16%N);
    (8491732397932978, 16%N); (8556026396993839, 16%N); (8619026842000828, 16%N); (8680724208148967, 16%N); (8741109167640939, 16%N); (8800172591097312, 16%N); (8857905548936771, 16%N);
    (891429931272615, 15%N); (8969345356500036, 16%N); (9023035358049776, 16%N); (907536120018167, 15%N); (9126314971944166, 16%N); (9175888969823877, 16%N); (9224075698910223, 16%N);
    (9270867874028548, 16%N); (93162584208415, 14%N); (9360240476918551, 16%N); (9402807392773455, 16%N); (9443952732869513, 16%N); (9483670276592471, 16%N); (9521954019190905, 16%N);
    (955879817268395, 15%N); (9594197166736225, 16%N); (9628145649499796, 16%N); (9660638488423063, 16%N); (9691670771026379, 16%N); (9721237805644296, 16%N); (9749335122134226, 16%N);
    (9775958472551352, 16%N); (9801103831789533, 16%N); (9824767398187899, 16%N); (9846945594102684, 16%N); (9867635066443573, 16%N); (9886832687173451, 16%N); (9904535553769449, 16%N);
    (992074098964149, 15%N); (9935446544500659, 16%N); (9948649994661088, 16%N); (9960349343237888, 16%N); (9970542820146736, 16%N); (9979228881638993, 16%N); (9986406208502119, 16%N);
    (9992073699444182, 16%N); (9996230440868829, 16%N); (9998875482883649, 16%N); (10, 1%N) ]).
(** gauss_lobatto_rules.rs:2262-3292 *)
Definition gauss_lobatto_512 : list literal * list literal :=
  ([
    (7644324853419089, 21%N); (4712416972829803, 20%N); (8486877530200226, 20%N); (1225903968046551, 19%N); (16030468226012915, 20%N); (1980122472008754, 19%N); (23571211402929535, 20%N);
    (2734029947805711, 19%N); (31108351740082783, 20%N); (34875228177683073, 20%N); (38640787708934523, 20%N); (42404888811472597, 20%N); (46167389782768303, 20%N); (499281488594882, 18%N);
    (5368702427782336, 19%N); (5744387430722119, 19%N); (6119855727063165, 19%N); (6495093155887986, 19%N); (6870085564077654, 19%N); (7244818807196668, 19%N); (7619278750141891, 19%N);
    (7993451267880445, 19%N); (8367322246034365, 19%N); (8740877581438444, 19%N); (9114103182764525, 19%N); (9486984971029656, 19%N); (9859508880189552, 19%N); (10231660857643117, 19%N);
    (1060342686477608, 18%N); (10974792877554485, 19%N); (1134574488696611, 18%N); (11716268899631317, 19%N); (12086350938301492, 19%N); (12455977042373292, 19%N); (12825133268464853, 19%N);
    (1319380569087426, 18%N); (13561980402176045, 19%N); (1392964351372908, 18%N); (14296781156147274, 19%N); (14663379479894422, 19%N); (15029424655755325, 19%N); (1539490287540283, 18%N);
    (15759800351875825, 19%N); (16124103320133414, 19%N); (16487798037540474, 19%N); (16850870784435004, 19%N); (17213307864596104, 19%N); (17575095605789862, 19%N); (17936220360270341, 19%N);
    (1829666850530787, 18%N); (18656426443681559, 19%N); (19015480604227559, 19%N); (19373817442323168, 19%N); (19731423440400337, 19%N); (20088285108455827, 19%N); (2044438898458333, 18%N);
    (2079972163544101, 18%N); (21154269656796314, 19%N); (21508019673998086, 19%N); (2186095834252129, 18%N); (22213072348429646, 19%N); (22564348408901564, 19%N); (2291477327271876, 18%N);
    (23264333720782395, 19%N); (23613016566598945, 19%N); (2396080865678049, 18%N); (2430769687152698, 18%N); (2465366812517212, 18%N); (2499870936659167, 18%N); (25342807579786892, 19%N);
    (25685949784300167, 19%N); (26028123035763888, 19%N); (2636931442635054, 18%N); (2670951108526521, 18%N); (27048700179252575, 19%N); (2738686891303972, 18%N); (2772400452987922, 18%N);
    (28060094311969748, 19%N); (28395125580975094, 19%N); (2872908569848344, 18%N); (2906196206648827, 18%N); (29393742127874064, 19%N); (29724413366880066, 19%N); (3005396330956336, 18%N);
    (30382379524287353, 19%N); (30709649622183656, 19%N); (3103576125761916, 18%N); (31360702128645475, 19%N); (31684459977521103, 19%N); (32007022591076725, 19%N); (3232837780127605, 18%N);
    (32648513485608933, 19%N); (3296741756756355, 18%N); (33285078017102473, 19%N); (3360148285109941, 18%N); (339166201337857, 17%N); (34230477977218177, 19%N); (34543044541706274, 19%N);
    (34854308036286466, 19%N); (3516425671914607, 18%N); (35472878898043267, 19%N); (357801629308126, 17%N); (36086097225779485, 19%N); (36390670242133563, 19%N); (36693870490439075, 19%N);
    (36995686533075806, 19%N); (37296106984589534, 19%N); (37595120512206866, 19%N); (3789271583622303, 18%N); (38188881730417163, 19%N); (38483607022502067, 19%N); (3877688059454121, 18%N);
    (3906869138334289, 18%N); (39359028380917625, 19%N); (3964788063485366, 18%N); (3993523724875696, 18%N); (4022108738263721, 18%N); (4050542025338256, 18%N); (4078822513505165, 18%N);
    (4106949135937704, 18%N); (4134920831614672, 18%N); (41627365453568745, 19%N); (4190395227869678, 18%N); (4217895835782964, 18%N); (4245237331688824, 18%N); (42724186841826065, 19%N);
    (4299438867899624, 18%N); (4326296863554775, 18%N); (4352991657982926, 18%N); (4379522244173695, 18%N); (4405887621311753, 18%N); (44320867948151, 16%N); (4458118776368117, 18%N);
    (4483982583965803, 18%N); (450967724194571, 17%N); (45352017810265, 16%N); (4560555238343387, 18%N); (4585736657486328, 18%N); (4610745088533513, 18%N); (4635579588092345, 18%N);
    (4660239219327593, 18%N); (4684723052002096, 18%N); (4709030162511035, 18%N); (4733159633915258, 18%N); (4757110555975818, 18%N); (47808820251914515, 19%N); (48044731448289545, 19%N);
    (4827883024958609, 18%N); (4851110782486941, 18%N); (48741555411925515, 19%N); (4897016431756931, 18%N); (49196925917951, 16%N); (4942183165892736, 18%N); (49644873056374425, 19%N);
    (4986604169648003, 18%N); (5008532923607707, 18%N); (5030272740297549, 18%N); (5051822799623763, 18%N); (5073182288652394, 18%N); (5094350401637406, 18%N); (5115326340052777, 18%N);
    (5136109312620882, 18%N); (515669853534462, 17%N); (5177093231535969, 18%N); (5197292631842452, 18%N); (5217295974281998, 18%N); (5237102504267179, 18%N); (52567114746329465, 19%N);
    (527612214567015, 17%N); (5295333785148793, 18%N); (5314345668345166, 18%N); (5333157078073398, 18%N); (53517673047098, 16%N); (5370175646218938, 18%N); (5388381408181111, 18%N);
    (5406383903819943, 18%N); (5424182454024383, 18%N); (54417763873800965, 19%N); (5459165040189133, 18%N); (5476347756497326, 18%N); (5493323888119922, 18%N); (5510092794665895, 18%N);
    (5526653843560286, 18%N); (554300641006896, 17%N); (5559149877322431, 18%N); (5575083636339998, 18%N); (5590807086051843, 18%N); (56063196333196825, 19%N); (5621620692963664, 18%N);
    (5636709687780203, 18%N); (5651586048566284, 18%N); (5666249214139256, 18%N); (56806986313598035, 19%N); (5694933755152057, 18%N); (5708954048522484, 18%N); (57227589825829634, 19%N);
    (5736348036568066, 18%N); (5749720697857367, 18%N); (5762876461993749, 18%N); (5775814832700553, 18%N); (5788535321902507, 18%N); (5801037449743635, 18%N); (5813320744605413, 18%N);
    (58253847431251615, 19%N); (5837228990209991, 18%N); (5848853039058926, 18%N); (5860256451177881, 18%N); (587143879639367, 17%N); (5882399652875169, 18%N); (589313860714569, 17%N);
    (5903655254096635, 18%N); (5913949197010009, 18%N); (5924020047564474, 18%N); (5933867425858072, 18%N); (5943490960416984, 18%N); (5952890288211782, 18%N); (5962065054671365, 18%N);
    (59710149136945325, 19%N); (59797395276654924, 19%N); (5988238567465223, 18%N); (59965117124836835, 19%N); (6004558650631535, 18%N); (601237907835462, 17%N); (6019972700641632, 18%N);
    (6027339231038522, 18%N); (6034478391656555, 18%N); (6041389913184653, 18%N); (60480735348992344, 19%N); (60545290046733246, 19%N); (6060756078986444, 18%N); (6066754522934527, 18%N);
    (6072524110237724, 18%N); (60780646232495295, 19%N); (60833758529651874, 19%N); (6088457599027772, 18%N); (6093309669739251, 18%N); (6097931882063784, 18%N); (6102324061637471, 18%N);
    (610648604277408, 17%N); (6110417668470954, 18%N); (6114118790414264, 18%N); (6117589268987086, 18%N); (6120828973271414, 18%N); (6123837781057489, 18%N); (6126615578841981, 18%N);
    (61291622618386285, 19%N); (6131477733978541, 18%N); (6133561907914875, 18%N); (61354147050262904, 19%N); (61370360554196726, 19%N); (6138425897932777, 18%N); (6139584180135994, 18%N);
    (6140510858336026, 18%N); (6141205897575385, 18%N); (61416692716338445, 19%N); (6141900963033802, 18%N); (6141900963033875, 18%N); (6141669271634195, 18%N); (6141205897575428, 18%N);
    (6140510858335673, 18%N); (6139584180135777, 18%N); (6138425897932838, 18%N); (6137036055419776, 18%N); (6135414705026741, 18%N); (61335619079148215, 19%N); (6131477733978728, 18%N);
    (61291622618385565, 19%N); (6126615578841918, 18%N); (6123837781057752, 18%N); (61208289732717905, 19%N); (611758926898706, 17%N); (6114118790414188, 18%N); (611041766847085, 17%N);
    (6106486042773972, 18%N); (6102324061637543, 18%N); (6097931882063748, 18%N); (6093309669739057, 18%N); (6088457599027856, 18%N); (6083375852965185, 18%N); (6078064623249496, 18%N);
    (607252411023804, 17%N); (6066754522934616, 18%N); (60607560789866285, 19%N); (6054529004673181, 18%N); (604807353489909, 17%N); (6041389913184508, 18%N); (6034478391656835, 18%N);
    (6027339231038462, 18%N); (6019972700641822, 18%N); (6012379078354469, 18%N); (60045586506318185, 19%N); (5996511712483633, 18%N); (59882385674653125, 19%N); (5979739527665682, 18%N);
    (5971014913694787, 18%N); (5962065054671178, 18%N); (5952890288211926, 18%N); (5943490960417188, 18%N); (5933867425858035, 18%N); (5924020047564712, 18%N); (5913949197009597, 18%N);
    (59036552540968415, 19%N); (5893138607145515, 18%N); (5882399652875496, 18%N); (587143879639398, 17%N); (5860256451177934, 18%N); (584885303905877, 17%N); (5837228990209802, 18%N);
    (5825384743124577, 18%N); (5813320744605471, 18%N); (5801037449743922, 18%N); (5788535321902615, 18%N); (57758148327004145, 19%N); (5762876461993735, 18%N); (574972069785744, 17%N);
    (57363480365679115, 19%N); (5722758982582482, 18%N); (5708954048522135, 18%N); (56949337551518145, 19%N); (5680698631360165, 18%N); (566624921413951, 17%N); (5651586048566321, 18%N);
    (5636709687780206, 18%N); (5621620692963708, 18%N); (5606319633319894, 18%N); (5590807086051823, 18%N); (5575083636340288, 18%N); (5559149877322234, 18%N); (5543006410068657, 18%N);
    (5526653843560148, 18%N); (5510092794666126, 18%N); (5493323888120197, 18%N); (5476347756497027, 18%N); (545916504018866, 17%N); (54417763873797955, 19%N); (5424182454024491, 18%N);
    (5406383903819546, 18%N); (5388381408181103, 18%N); (5370175646219016, 18%N); (5351767304709704, 18%N); (5333157078073651, 18%N); (5314345668345344, 18%N); (5295333785148252, 18%N);
    (5276122145670106, 18%N); (5256711474633025, 18%N); (5237102504266771, 18%N); (5217295974282092, 18%N); (5197292631842801, 18%N); (5177093231535861, 18%N); (5156698535344908, 18%N);
    (5136109312621015, 18%N); (5115326340052685, 18%N); (5094350401637306, 18%N); (5073182288652375, 18%N); (5051822799623898, 18%N); (5030272740297617, 18%N); (5008532923608181, 18%N);
    (4986604169648162, 18%N); (49644873056377105, 19%N); (4942183165892909, 18%N); (4919692591794648, 18%N); (48970164317561566, 19%N); (4874155541192718, 18%N); (4851110782487001, 18%N);
    (4827883024958173, 18%N); (4804473144828573, 18%N); (4780882025191322, 18%N); (4757110555975731, 18%N); (4733159633914873, 18%N); (4709030162510973, 18%N); (46847230520021725, 19%N);
    (4660239219327794, 18%N); (4635579588092415, 18%N); (4610745088534042, 18%N); (458573665748587, 17%N); (4560555238343012, 18%N); (4535201781026234, 18%N); (4509677241945738, 18%N);
    (4483982583966135, 18%N); (4458118776368184, 18%N); (4432086794814515, 18%N); (4405887621312023, 18%N); (437952224417404, 17%N); (4352991657983049, 18%N); (4326296863555122, 18%N);
    (4299438867899425, 18%N); (4272418684182802, 18%N); (42452373316891195, 19%N); (4217895835782988, 18%N); (419039522786988, 17%N); (4162736545356944, 18%N); (4134920831614934, 18%N);
    (4106949135937857, 18%N); (407882251350495, 17%N); (4050542025337799, 18%N); (40221087382642465, 19%N); (399352372487542, 17%N); (3964788063485343, 18%N); (3935902838091868, 18%N);
    (3906869138334714, 18%N); (38776880594543974, 19%N); (38483607022506755, 19%N); (3818888173041748, 18%N); (3789271583622214, 18%N); (37595120512209997, 19%N); (37296106984588536, 19%N);
    (3699568653307243, 18%N); (36693870490440445, 19%N); (36390670242128055, 19%N); (36086097225776735, 19%N); (35780162930821144, 19%N); (35472878898042143, 19%N); (3516425671913811, 18%N);
    (34854308036286236, 19%N); (34543044541707184, 19%N); (34230477977216143, 19%N); (33916620133784513, 19%N); (3360148285109785, 18%N); (3328507801710252, 18%N); (32967417567561904, 19%N);
    (3264851348560588, 18%N); (32328377801277347, 19%N); (32007022591079943, 19%N); (31684459977520244, 19%N); (31360702128652037, 19%N); (3103576125761698, 18%N); (3070964962218406, 18%N);
    (3038237952428874, 18%N); (3005396330956448, 18%N); (2972441336688193, 18%N); (29393742127878843, 19%N); (2906196206649136, 18%N); (2872908569848293, 18%N); (28395125580974803, 19%N);
    (2806009431197026, 18%N); (2772400452987771, 18%N); (27386868913038868, 19%N); (27048700179247024, 19%N); (2670951108526513, 18%N); (26369314426349776, 19%N); (26028123035764577, 19%N);
    (25685949784300705, 19%N); (25342807579781437, 19%N); (24998709366589756, 19%N); (24653668125166595, 19%N); (2430769687152883, 18%N); (23960808656775675, 19%N); (23613016566597506, 19%N);
    (23264333720782685, 19%N); (22914773272718018, 19%N); (22564348408900445, 19%N); (222130723484314, 17%N); (21860958342523806, 19%N); (2150801967400179, 18%N); (21154269656794788, 19%N);
    (2079972163544202, 18%N); (20444388984582613, 19%N); (20088285108458745, 19%N); (19731423440399972, 19%N); (19373817442323927, 19%N); (1901548060423018, 18%N); (18656426443681778, 19%N);
    (18296668505304353, 19%N); (1793622036027157, 18%N); (175750956057931, 17%N); (1721330786460157, 18%N); (16850870784439428, 19%N); (16487798037543991, 19%N); (16124103320130595, 19%N);
    (15759800351876198, 19%N); (1539490287540251, 18%N); (15029424655758432, 19%N); (14663379479893553, 19%N); (14296781156150798, 19%N); (1392964351373108, 18%N); (13561980402182945, 19%N);
    (13193805690870232, 19%N); (12825133268455319, 19%N); (1245597704237157, 18%N); (12086350938298916, 19%N); (11716268899633567, 19%N); (11345744886967553, 19%N); (10974792877553635, 19%N);
    (10603426864780434, 19%N); (10231660857638342, 19%N); (985950888018881, 18%N); (9486984971029955, 19%N); (9114103182759545, 19%N); (8740877581434287, 19%N); (8367322246028243, 19%N);
    (7993451267880745, 19%N); (7619278750140725, 19%N); (7244818807195778, 19%N); (687008556408615, 18%N); (6495093155889407, 19%N); (6119855727062846, 19%N); (5744387430719162, 19%N);
    (5368702427781797, 19%N); (4992814885944765, 19%N); (46167389782743036, 20%N); (42404888811480306, 20%N); (3864078770896823, 19%N); (34875228177712846, 20%N); (31108351740077514, 20%N);
    (2734029947813005, 19%N); (2357121140291395, 19%N); (19801224720107473, 20%N); (16030468226017194, 20%N); (12259039680445635, 20%N); (8486877530227403, 20%N); (47124169728120364, 21%N);
    (764432485322384, 20%N) ],
   [
    (-9999999999999998, 16%N); (-9999719416929437, 16%N); (-9999059410073272, 16%N); (-9998022106585162, 16%N); (-9996607625796287, 16%N); (-9994816035223137, 16%N); (-9992647406485913, 16%N);
    (-9990101822888319, 16%N); (-9987179381114661, 16%N); (-9983880191733372, 16%N); (-9980204379375551, 16%N); (-9976152082805686, 16%N); (-9971723454950902, 16%N); (-9966918662912292, 16%N);
    (-9961737887967663, 16%N); (-9956181325569756, 16%N); (-9950249185341833, 16%N); (-9943941691071556, 16%N); (-9937259080703693, 16%N); (-9930201606331852, 16%N); (-9922769534189467, 16%N);
    (-9914963144640089, 16%N); (-9906782732167029, 16%N); (-9898228605362412, 16%N); (-9889301086915658, 16%N); (-9880000513601388, 16%N); (-9870327236266787, 16%N); (-9860281619818404, 16%N);
    (-9849864043208441, 16%N); (-9839074899420467, 16%N); (-9827914595454627, 16%N); (-9816383552312293, 16%N); (-980448220498021, 15%N); (-9792211002414083, 16%N); (-9779570407521659, 16%N);
    (-9766560897145267, 16%N); (-975318296204383, 15%N); (-973943710687437, 15%N); (-9725323850172964, 16%N); (-9710843724335185, 16%N); (-9695997275596036, 16%N); (-9680785064009313, 16%N);
    (-9665207663426529, 16%N); (-9649265661475219, 16%N); (-9632959659536804, 16%N); (-9616290272723899, 16%N); (-9599258129857103, 16%N); (-9581863873441291, 16%N); (-9564108159641365, 16%N);
    (-9545991658257514, 16%N); (-9527515052699933, 16%N); (-9508679039963056, 16%N); (-9489484330599256, 16%N); (-9469931648692052, 16%N); (-9450021731828777, 16%N); (-9429755331072764, 16%N);
    (-9409133210935021, 16%N); (-9388156149345377, 16%N); (-9366824937623148, 16%N); (-9345140380447274, 16%N); (-9323103295825983, 16%N); (-9300714515065909, 16%N); (-9277974882740756, 16%N);
    (-9254885256659418, 16%N); (-9231446507833638, 16%N); (-9207659520445142, 16%N); (-9183525191812276, 16%N); (-9159044432356174, 16%N); (-9134218165566403, 16%N); (-9109047327966131, 16%N);
    (-9083532869076798, 16%N); (-9057675751382288, 16%N); (-9031476950292636, 16%N); (-9004937454107229, 16%N); (-8978058263977509, 16%N); (-8950840393869224, 16%N); (-8923284870524182, 16%N);
    (-8895392733421494, 16%N); (-8867165034738382, 16%N); (-8838602839310492, 16%N); (-8809707224591707, 16%N); (-8780479280613511, 16%N); (-8750920109943885, 16%N); (-8721030827645666, 16%N);
    (-8690812561234542, 16%N); (-8660266450636502, 16%N); (-8629393648144814, 16%N); (-8598195318376562, 16%N); (-8566672638228727, 16%N); (-853482679683379, 15%N); (-850265899551486, 15%N);
    (-8470170447740368, 16%N); (-8437362379078288, 16%N); (-8404236027149905, 16%N); (-8370792641583127, 16%N); (-8337033483965344, 16%N); (-8302959827795846, 16%N); (-8268572958437768, 16%N);
    (-8233874173069615, 16%N); (-8198864780636324, 16%N); (-8163546101799881, 16%N); (-8127919468889511, 16%N); (-8091986225851411, 16%N); (-8055747728198062, 16%N); (-8019205342957076, 16%N);
    (-7982360448619654, 16%N); (-7945214435088555, 16%N); (-7907768703625699, 16%N); (-7870024666799269, 16%N); (-783198374843046, 15%N); (-7793647383539744, 16%N); (-775501701829274, 15%N);
    (-7716094109945679, 16%N); (-7676880126790404, 16%N); (-7637376548099006, 16%N); (-7597584864068003, 16%N); (-7557506575762134, 16%N); (-7517143195057738, 16%N); (-7476496244585709, 16%N);
    (-7435567257674067, 16%N); (-7394357778290119, 16%N); (-7352869360982208, 16%N); (-7311103570821071, 16%N); (-7269061983340805, 16%N); (-7226746184479433, 16%N); (-7184157770519071, 16%N);
    (-7141298348025711, 16%N); (-7098169533788632, 16%N); (-7054772954759385, 16%N); (-7011110247990446, 16%N); (-6967183060573441, 16%N); (-6922993049577018, 16%N); (-6878541881984346, 16%N);
    (-6833831234630214, 16%N); (-6788862794137795, 16%N); (-6743638256855007, 16%N); (-6698159328790529, 16%N); (-6652427725549446, 16%N); (-660644517226852, 15%N); (-6560213403551127, 16%N);
    (-6513734163401816, 16%N); (-6467009205160512, 16%N); (-6420040291436395, 16%N); (-6372829194041387, 16%N); (-6325377693923324, 16%N); (-6277687581098776, 16%N); (-6229760654585514, 16%N);
    (-6181598722334656, 16%N); (-6133203601162451, 16%N); (-6084577116681762, 16%N); (-6035721103233174, 16%N); (-5986637403815827, 16%N); (-5937327870017863, 16%N); (-5887794361946597, 16%N);
    (-5838038748158341, 16%N); (-5788062905587921, 16%N); (-573786871947787, 15%N); (-5687458083307306, 16%N); (-5636832898720514, 16%N); (-5585995075455206, 16%N); (-553494653127047, 15%N);
    (-548368919187445, 15%N); (-5432224990851677, 16%N); (-5380555869590142, 16%N); (-5328683777208059, 16%N); (-5276610670480331, 16%N); (-5224338513764752, 16%N); (-5171869278927885, 16%N);
    (-5119204945270686, 16%N); (-5066347499453843, 16%N); (-501329893542283, 15%N); (-49600612543326794, 17%N); (-4906636464472509, 16%N); (-4853026581189752, 16%N); (-47992336268141367, 17%N);
    (-4745259630581393, 16%N); (-46911066285567093, 17%N); (-4636776663557922, 16%N); (-45822717850784556, 17%N); (-4527594049210013, 16%N); (-4472745518565, 13%N); (-44177282621987346, 17%N);
    (-4362544355531388, 16%N); (-4307195880269692, 16%N); (-4251684924328407, 16%N); (-4196013581751574, 16%N); (-4140183952633507, 16%N); (-408419814303957, 15%N); (-4028058264926746, 16%N);
    (-3971766436063944, 16%N); (-3915324779952134, 16%N); (-3858735425744224, 16%N); (-3802000508164749, 16%N); (-37451221674293467, 17%N); (-3688102549164014, 16%N); (-36309438043241693, 17%N);
    (-3573648089113517, 16%N); (-3516217564902704, 16%N); (-34586543981477846, 17%N); (-34009607603085024, 17%N); (-3343138827766372, 16%N); (-3285190781742573, 16%N); (-32271188082156765, 17%N);
    (-3168925097839186, 16%N); (-3110611845858884, 16%N); (-30521812520300373, 17%N); (-29936355205344034, 17%N); (-2934976859897087, 16%N); (-28762074829032347, 17%N); (-28173296065145426, 17%N);
    (-2758345451785653, 16%N); (-2699257243780335, 16%N); (-2640067211487589, 16%N); (-25807775877375194, 17%N); (-2521390609117147, 16%N); (-24619085158859977, 17%N); (-2402333551891631, 16%N);
    (-2342667964484968, 16%N); (-22829140044355234, 17%N); (-22230739258465038, 17%N); (-21631499860697678, 17%N); (-21031444456206838, 17%N); (-20430595680928354, 17%N); (-1982897620072659, 16%N);
    (-19226608710539161, 17%N); (-18623515933520984, 17%N); (-1801972062018704, 16%N); (-17415245547554048, 17%N); (-16810113518281433, 17%N); (-16204347359811044, 17%N); (-15597969923505928, 17%N);
    (-1499100408378855, 16%N); (-1438347273727767, 16%N); (-13775398801924754, 17%N); (-1316680521614937, 16%N); (-1255771493797384, 16%N); (-11948150944157376, 17%N); (-11338136229329132, 17%N);
    (-10727693805120797, 17%N); (-10116846699298687, 17%N); (-9505617954894774, 17%N); (-889403062933789, 16%N); (-828210779358336, 16%N); (-766987253124316, 16%N); (-7057347937714886, 17%N);
    (-6444557119310668, 17%N); (-5831523192385357, 17%N); (-521826928246476, 16%N); (-4604818523372889, 17%N); (-3991194056359748, 17%N); (-3377419029227968, 17%N); (-27635165954598362, 18%N);
    (-21495099133438833, 18%N); (-15354221451010952, 18%N); (-9212764560112552, 18%N); (-3070960135392209, 18%N); (3070960135391876, 18%N); (921276456011244, 17%N); (1535422145101073, 17%N);
    (2149509913343861, 17%N); (27635165954598584, 18%N); (3377419029227935, 17%N); (3991194056359715, 17%N); (4604818523372867, 17%N); (5218269282464727, 17%N); (5831523192385346, 17%N);
    (6444557119310668, 17%N); (7057347937714864, 17%N); (7669872531243116, 17%N); (8282107793583349, 17%N); (8894030629337857, 17%N); (9505617954894796, 17%N); (10116846699298665, 17%N);
    (10727693805120797, 17%N); (11338136229329154, 17%N); (1194815094415741, 16%N); (12557714937973863, 17%N); (1316680521614939, 16%N); (13775398801924787, 17%N); (14383472737277714, 17%N);
    (14991004083788573, 17%N); (1559796992350595, 16%N); (16204347359811033, 17%N); (16810113518281478, 17%N); (1741524554755407, 16%N); (18019720620187052, 17%N); (1862351593352104, 16%N);
    (19226608710539195, 17%N); (19828976200726622, 17%N); (20430595680928398, 17%N); (2103144445620685, 16%N); (21631499860697723, 17%N); (2223073925846506, 16%N); (22829140044355278, 17%N);
    (2342667964484969, 16%N); (24023335518916322, 17%N); (24619085158859988, 17%N); (25213906091171456, 17%N); (25807775877375216, 17%N); (264006721148759, 15%N); (26992572437803364, 17%N);
    (27583454517856565, 17%N); (2817329606514545, 16%N); (28762074829032347, 17%N); (29349768598970893, 17%N); (29936355205344034, 17%N); (30521812520300406, 17%N); (3110611845858885, 16%N);
    (3168925097839187, 16%N); (322711880821568, 15%N); (3285190781742574, 16%N); (3343138827766373, 16%N); (34009607603085057, 17%N); (3458654398147787, 16%N); (3516217564902705, 16%N);
    (3573648089113518, 16%N); (36309438043241704, 17%N); (3688102549164014, 16%N); (374512216742935, 15%N); (38020005081647523, 17%N); (38587354257442263, 17%N); (39153247799521373, 17%N);
    (3971766436063947, 16%N); (4028058264926748, 16%N); (40841981430395735, 17%N); (4140183952633508, 16%N); (41960135817515765, 17%N); (42516849243284094, 17%N); (4307195880269691, 16%N);
    (43625443555313914, 17%N); (44177282621987357, 17%N); (4472745518565, 13%N); (4527594049210014, 16%N); (4582271785078458, 16%N); (46367766635579255, 17%N); (46911066285567127, 17%N);
    (4745259630581393, 16%N); (4799233626814139, 16%N); (48530265811897555, 17%N); (490663646447251, 15%N); (4960061254332683, 16%N); (5013298935422832, 16%N); (5066347499453845, 16%N);
    (5119204945270688, 16%N); (5171869278927885, 16%N); (5224338513764754, 16%N); (5276610670480335, 16%N); (532868377720806, 15%N); (5380555869590146, 16%N); (543222499085168, 15%N);
    (5483689191874452, 16%N); (5534946531270473, 16%N); (5585995075455208, 16%N); (5636832898720516, 16%N); (5687458083307309, 16%N); (5737868719477872, 16%N); (5788062905587925, 16%N);
    (5838038748158342, 16%N); (5887794361946596, 16%N); (5937327870017863, 16%N); (5986637403815827, 16%N); (6035721103233176, 16%N); (6084577116681763, 16%N); (6133203601162455, 16%N);
    (6181598722334656, 16%N); (6229760654585517, 16%N); (6277687581098776, 16%N); (6325377693923325, 16%N); (6372829194041387, 16%N); (6420040291436395, 16%N); (6467009205160514, 16%N);
    (6513734163401816, 16%N); (6560213403551127, 16%N); (6606445172268522, 16%N); (6652427725549447, 16%N); (6698159328790532, 16%N); (6743638256855007, 16%N); (6788862794137795, 16%N);
    (6833831234630214, 16%N); (6878541881984346, 16%N); (692299304957702, 15%N); (6967183060573443, 16%N); (7011110247990446, 16%N); (7054772954759385, 16%N); (7098169533788631, 16%N);
    (7141298348025711, 16%N); (7184157770519071, 16%N); (7226746184479435, 16%N); (7269061983340808, 16%N); (7311103570821071, 16%N); (7352869360982209, 16%N); (739435777829012, 15%N);
    (7435567257674067, 16%N); (7476496244585709, 16%N); (7517143195057737, 16%N); (7557506575762136, 16%N); (7597584864068003, 16%N); (7637376548099009, 16%N); (7676880126790406, 16%N);
    (771609410994568, 15%N); (775501701829274, 15%N); (7793647383539742, 16%N); (783198374843046, 15%N); (7870024666799271, 16%N); (7907768703625698, 16%N); (7945214435088557, 16%N);
    (7982360448619653, 16%N); (8019205342957078, 16%N); (8055747728198062, 16%N); (8091986225851413, 16%N); (8127919468889512, 16%N); (8163546101799881, 16%N); (8198864780636324, 16%N);
    (8233874173069616, 16%N); (8268572958437769, 16%N); (8302959827795845, 16%N); (8337033483965345, 16%N); (8370792641583127, 16%N); (8404236027149905, 16%N); (843736237907829, 15%N);
    (847017044774037, 15%N); (8502658995514862, 16%N); (8534826796833792, 16%N); (856667263822873, 15%N); (8598195318376562, 16%N); (8629393648144814, 16%N); (8660266450636506, 16%N);
    (8690812561234542, 16%N); (8721030827645659, 16%N); (8750920109943877, 16%N); (8780479280613512, 16%N); (8809707224591707, 16%N); (8838602839310493, 16%N); (8867165034738383, 16%N);
    (8895392733421493, 16%N); (8923284870524183, 16%N); (8950840393869227, 16%N); (8978058263977509, 16%N); (9004937454107229, 16%N); (903147695029264, 15%N); (9057675751382289, 16%N);
    (9083532869076798, 16%N); (9109047327966133, 16%N); (9134218165566405, 16%N); (9159044432356174, 16%N); (9183525191812276, 16%N); (9207659520445142, 16%N); (9231446507833642, 16%N);
    (925488525665942, 15%N); (9277974882740756, 16%N); (9300714515065911, 16%N); (9323103295825984, 16%N); (9345140380447277, 16%N); (9366824937623148, 16%N); (9388156149345378, 16%N);
    (9409133210935021, 16%N); (9429755331072764, 16%N); (9450021731828776, 16%N); (9469931648692053, 16%N); (9489484330599258, 16%N); (9508679039963056, 16%N); (9527515052699933, 16%N);
    (9545991658257514, 16%N); (9564108159641368, 16%N); (9581863873441293, 16%N); (9599258129857104, 16%N); (96162902727239, 14%N); (9632959659536805, 16%N); (964926566147522, 15%N);
    (966520766342653, 15%N); (9680785064009316, 16%N); (9695997275596034, 16%N); (9710843724335187, 16%N); (9725323850172964, 16%N); (9739437106874371, 16%N); (975318296204383, 15%N);
    (9766560897145267, 16%N); (9779570407521662, 16%N); (9792211002414085, 16%N); (9804482204980212, 16%N); (9816383552312294, 16%N); (9827914595454627, 16%N); (9839074899420468, 16%N);
    (9849864043208441, 16%N); (9860281619818404, 16%N); (9870327236266786, 16%N); (9880000513601389, 16%N); (988930108691566, 15%N); (9898228605362414, 16%N); (990678273216703, 15%N);
    (9914963144640091, 16%N); (992276953418947, 15%N); (9930201606331853, 16%N); (9937259080703694, 16%N); (9943941691071558, 16%N); (9950249185341833, 16%N); (9956181325569757, 16%N);
    (9961737887967664, 16%N); (9966918662912293, 16%N); (9971723454950904, 16%N); (9976152082805687, 16%N); (9980204379375552, 16%N); (9983880191733374, 16%N); (9987179381114664, 16%N);
    (9990101822888319, 16%N); (9992647406485913, 16%N); (999481603522314, 15%N); (9996607625796288, 16%N); (9998022106585163, 16%N); (9999059410073272, 16%N); (9999719416929438, 16%N); (10, 1%N) ]).
