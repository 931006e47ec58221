(** The tabulated rules of low strength: the files /repo/fenris-quadrature/rules/polyquad/expanded/{tri,quad,tet,hex,pri,pyr}/*.txt with strength at most
    10 (tri), 11 (quad), 8 (tet), 7 (hex), 7 (pri), 7 (pyr), verbatim. They are the data from which build.rs generates code. *)
From Coq Require Import List String.
From Verif Require Import PolyquadModel.
Import ListNotations.
Local Open Scope string_scope.

Definition tri_1_1 : entry := {| en_is_file := true; en_stem := "1-1"; en_extension := Some "txt"; en_text := "-0.33333333333333333333333333333333333333  -0.33333333333333333333333333333333333333                                          2
" |}.
Definition tri_2_3 : entry := {| en_is_file := true; en_stem := "2-3"; en_extension := Some "txt"; en_text := "-0.66666666666666666666666666666666666667   0.33333333333333333333333333333333333333   0.66666666666666666666666666666666666667
 0.33333333333333333333333333333333333333  -0.66666666666666666666666666666666666667   0.66666666666666666666666666666666666667
-0.66666666666666666666666666666666666667  -0.66666666666666666666666666666666666667   0.66666666666666666666666666666666666667
" |}.
Definition tri_4_6 : entry := {| en_is_file := true; en_stem := "4-6"; en_extension := Some "txt"; en_text := " -0.1081030181680702273633414922338960232   -0.7837939636638595452733170155322079536   0.44676317935602293139001401686624560874
 -0.7837939636638595452733170155322079536   -0.1081030181680702273633414922338960232   0.44676317935602293139001401686624560874
 -0.1081030181680702273633414922338960232   -0.1081030181680702273633414922338960232   0.44676317935602293139001401686624560874
-0.81684757298045851308085707319559698429   0.63369514596091702616171414639119396858   0.21990348731064373527665264980042105793
 0.63369514596091702616171414639119396858  -0.81684757298045851308085707319559698429   0.21990348731064373527665264980042105793
-0.81684757298045851308085707319559698429  -0.81684757298045851308085707319559698429   0.21990348731064373527665264980042105793
" |}.
Definition tri_5_7 : entry := {| en_is_file := true; en_stem := "5-7"; en_extension := Some "txt"; en_text := " -0.33333333333333333333333333333333333333   -0.33333333333333333333333333333333333333                                        0.45
 -0.79742698535308732239802527616975234389    0.59485397070617464479605055233950468778    0.25187836108965430519136789100036266732
  0.59485397070617464479605055233950468778   -0.79742698535308732239802527616975234389    0.25187836108965430519136789100036266732
 -0.79742698535308732239802527616975234389   -0.79742698535308732239802527616975234389    0.25187836108965430519136789100036266732
-0.059715871789769820459117580973104798968   -0.88056825642046035908176483805379040206    0.26478830557701236147529877566630399935
 -0.88056825642046035908176483805379040206  -0.059715871789769820459117580973104798968    0.26478830557701236147529877566630399935
-0.059715871789769820459117580973104798968  -0.059715871789769820459117580973104798968    0.26478830557701236147529877566630399935
" |}.
Definition tri_6_12 : entry := {| en_is_file := true; en_stem := "6-12"; en_extension := Some "txt"; en_text := " -0.87382197101699554331933679425836168532    0.74764394203399108663867358851672337064    0.10168981274041363384187361821373796809
  0.74764394203399108663867358851672337064   -0.87382197101699554331933679425836168532    0.10168981274041363384187361821373796809
 -0.87382197101699554331933679425836168532   -0.87382197101699554331933679425836168532    0.10168981274041363384187361821373796809
 -0.50142650965817915741672289378596184782  0.0028530193163583148334457875719236956481    0.23357255145275873205057922277115888265
0.0028530193163583148334457875719236956481   -0.50142650965817915741672289378596184782    0.23357255145275873205057922277115888265
 -0.50142650965817915741672289378596184782   -0.50142650965817915741672289378596184782    0.23357255145275873205057922277115888265
 -0.89370990031036610529350065673720370601    0.27300499824279729446028518882409939961    0.16570215123674715038710691284088490796
  0.27300499824279729446028518882409939961   -0.89370990031036610529350065673720370601    0.16570215123674715038710691284088490796
 -0.37929509793243118916678453208689569359    0.27300499824279729446028518882409939961    0.16570215123674715038710691284088490796
  0.27300499824279729446028518882409939961   -0.37929509793243118916678453208689569359    0.16570215123674715038710691284088490796
 -0.37929509793243118916678453208689569359   -0.89370990031036610529350065673720370601    0.16570215123674715038710691284088490796
 -0.89370990031036610529350065673720370601   -0.37929509793243118916678453208689569359    0.16570215123674715038710691284088490796
" |}.
Definition tri_7_15 : entry := {| en_is_file := true; en_stem := "7-15"; en_extension := Some "txt"; en_text := " -0.93253870289082430257005654739836752385     0.8650774057816486051401130947967350477   0.033090100221584262071955896945834891238
   0.8650774057816486051401130947967350477   -0.93253870289082430257005654739836752385   0.033090100221584262071955896945834891238
 -0.93253870289082430257005654739836752385   -0.93253870289082430257005654739836752385   0.033090100221584262071955896945834891238
 -0.51684523480919288209962646032443600082   0.033690469618385764199252920648872001638    0.25588834246031114556580247036929262133
 0.033690469618385764199252920648872001638   -0.51684523480919288209962646032443600082    0.25588834246031114556580247036929262133
 -0.51684523480919288209962646032443600082   -0.51684523480919288209962646032443600082    0.25588834246031114556580247036929262133
-0.051380614990563531580838528101628435036   -0.89723877001887293683832294379674312993    0.15417329237197213566964304166748277293
 -0.89723877001887293683832294379674312993  -0.051380614990563531580838528101628435036    0.15417329237197213566964304166748277293
-0.051380614990563531580838528101628435036  -0.051380614990563531580838528101628435036    0.15417329237197213566964304166748277293
 -0.90592671069480953331718004928623004897    0.50856008110010635471247864925623992738    0.11175746580639956167963262884202819059
  0.50856008110010635471247864925623992738   -0.90592671069480953331718004928623004897    0.11175746580639956167963262884202819059
 -0.60263337040529682139529859997000987842    0.50856008110010635471247864925623992738    0.11175746580639956167963262884202819059
  0.50856008110010635471247864925623992738   -0.60263337040529682139529859997000987842    0.11175746580639956167963262884202819059
 -0.60263337040529682139529859997000987842   -0.90592671069480953331718004928623004897    0.11175746580639956167963262884202819059
 -0.90592671069480953331718004928623004897   -0.60263337040529682139529859997000987842    0.11175746580639956167963262884202819059
" |}.
Definition tri_8_16 : entry := {| en_is_file := true; en_stem := "8-16"; en_extension := Some "txt"; en_text := " -0.33333333333333333333333333333333333333   -0.33333333333333333333333333333333333333     0.2886312153555743365021822209781292496
-0.081414823414553687942368971011661355879   -0.83717035317089262411526205797667728824     0.1901832685345692495877922087771686332
 -0.83717035317089262411526205797667728824  -0.081414823414553687942368971011661355879     0.1901832685345692495877922087771686332
-0.081414823414553687942368971011661355879  -0.081414823414553687942368971011661355879     0.1901832685345692495877922087771686332
 -0.65886138449647958675541299701707099796    0.31772276899295917351082599403414199593    0.20643474106943650056358310058425806003
  0.31772276899295917351082599403414199593   -0.65886138449647958675541299701707099796    0.20643474106943650056358310058425806003
 -0.65886138449647958675541299701707099796   -0.65886138449647958675541299701707099796    0.20643474106943650056358310058425806003
 -0.89890554336593804908315289880680210631    0.79781108673187609816630579761360421262   0.064916995246396160621851856683561193593
  0.79781108673187609816630579761360421262   -0.89890554336593804908315289880680210631   0.064916995246396160621851856683561193593
 -0.89890554336593804908315289880680210631   -0.89890554336593804908315289880680210631   0.064916995246396160621851856683561193593
 -0.98321044518008478932557233092141110162    0.45698478591080856248200075835212392604    0.05446062834886998852968938014781784832
  0.45698478591080856248200075835212392604   -0.98321044518008478932557233092141110162    0.05446062834886998852968938014781784832
 -0.47377434073072377315642842743071282442    0.45698478591080856248200075835212392604    0.05446062834886998852968938014781784832
  0.45698478591080856248200075835212392604   -0.47377434073072377315642842743071282442    0.05446062834886998852968938014781784832
 -0.47377434073072377315642842743071282442   -0.98321044518008478932557233092141110162    0.05446062834886998852968938014781784832
 -0.98321044518008478932557233092141110162   -0.47377434073072377315642842743071282442    0.05446062834886998852968938014781784832
" |}.
Definition tri_9_19 : entry := {| en_is_file := true; en_stem := "9-19"; en_extension := Some "txt"; en_text := " -0.33333333333333333333333333333333333333   -0.33333333333333333333333333333333333333    0.19427159256559766763848396501457725948
 -0.12582081701412672546013927112929005464   -0.74835836597174654907972145774141989072    0.15565508200954855863347871259880791224
 -0.74835836597174654907972145774141989072   -0.12582081701412672546013927112929005464    0.15565508200954855863347871259880791224
 -0.12582081701412672546013927112929005464   -0.12582081701412672546013927112929005464    0.15565508200954855863347871259880791224
 -0.62359292876193453951807743906532886378    0.24718585752386907903615487813065772755     0.1592954778544205060657835485280905465
  0.24718585752386907903615487813065772755   -0.62359292876193453951807743906532886378     0.1592954778544205060657835485280905465
 -0.62359292876193453951807743906532886378   -0.62359292876193453951807743906532886378     0.1592954778544205060657835485280905465
-0.020634961602524744432586150327614401262   -0.95873007679495051113482769934477119748   0.062669400454278141073709662574418630986
 -0.95873007679495051113482769934477119748  -0.020634961602524744432586150327614401262   0.062669400454278141073709662574418630986
-0.020634961602524744432586150327614401262  -0.020634961602524744432586150327614401262   0.062669400454278141073709662574418630986
    -0.91054097321109458026978682006744727       0.82108194642218916053957364013489454   0.051155351317396062523357597117999647955
     0.82108194642218916053957364013489454      -0.91054097321109458026978682006744727   0.051155351317396062523357597117999647955
    -0.91054097321109458026978682006744727      -0.91054097321109458026978682006744727   0.051155351317396062523357597117999647955
 -0.92632317589052743273036480243322979538    0.48239719756899604138015974704684765487   0.086567078754578754578754578754578754579
  0.48239719756899604138015974704684765487   -0.92632317589052743273036480243322979538   0.086567078754578754578754578754578754579
 -0.55607402167846860864979494461361785949    0.48239719756899604138015974704684765487   0.086567078754578754578754578754578754579
  0.48239719756899604138015974704684765487   -0.55607402167846860864979494461361785949   0.086567078754578754578754578754578754579
 -0.55607402167846860864979494461361785949   -0.92632317589052743273036480243322979538   0.086567078754578754578754578754578754579
 -0.92632317589052743273036480243322979538   -0.55607402167846860864979494461361785949   0.086567078754578754578754578754578754579
" |}.
Definition tri_10_25 : entry := {| en_is_file := true; en_stem := "10-25"; en_extension := Some "txt"; en_text := "-0.33333333333333333333333333333333333333  -0.33333333333333333333333333333333333333   0.16348665829257193285623736996835522439
-0.93588925356611297413803082132702052207   0.87177850713222594827606164265404104414  0.026705937626299132551145956798137306994
 0.87177850713222594827606164265404104414  -0.93588925356611297413803082132702052207  0.026705937626299132551145956798137306994
-0.93588925356611297413803082132702052207  -0.93588925356611297413803082132702052207  0.026705937626299132551145956798137306994
-0.71567779788687122981567579361808335656   0.43135559577374245963135158723616671312    0.0919159272094894560275758192650956328
 0.43135559577374245963135158723616671312  -0.71567779788687122981567579361808335656    0.0919159272094894560275758192650956328
-0.71567779788687122981567579361808335656  -0.71567779788687122981567579361808335656    0.0919159272094894560275758192650956328
-0.35637400942232915754980487802790257253  0.060108237854688056554191347891388233782   0.12780981279284809086579746752530664373
0.060108237854688056554191347891388233782  -0.35637400942232915754980487802790257253   0.12780981279284809086579746752530664373
-0.70373422843235889900438646986348566125  0.060108237854688056554191347891388233782   0.12780981279284809086579746752530664373
0.060108237854688056554191347891388233782  -0.70373422843235889900438646986348566125   0.12780981279284809086579746752530664373
-0.70373422843235889900438646986348566125  -0.35637400942232915754980487802790257253   0.12780981279284809086579746752530664373
-0.35637400942232915754980487802790257253  -0.70373422843235889900438646986348566125   0.12780981279284809086579746752530664373
-0.94076022102254046473232746114791439895   0.20246665736691849090948578691737561875  0.068369296325918857257383168082684580517
 0.20246665736691849090948578691737561875  -0.94076022102254046473232746114791439895  0.068369296325918857257383168082684580517
 -0.2617064363443780261771583257694612198   0.20246665736691849090948578691737561875  0.068369296325918857257383168082684580517
 0.20246665736691849090948578691737561875   -0.2617064363443780261771583257694612198  0.068369296325918857257383168082684580517
 -0.2617064363443780261771583257694612198  -0.94076022102254046473232746114791439895  0.068369296325918857257383168082684580517
-0.94076022102254046473232746114791439895   -0.2617064363443780261771583257694612198  0.068369296325918857257383168082684580517
-0.94326466932012312149912848884373958881   0.61586120184575813015989980576348821814  0.050595515414576768778085581365666435125
 0.61586120184575813015989980576348821814  -0.94326466932012312149912848884373958881  0.050595515414576768778085581365666435125
-0.67259653252563500866077131691974862932   0.61586120184575813015989980576348821814  0.050595515414576768778085581365666435125
 0.61586120184575813015989980576348821814  -0.67259653252563500866077131691974862932  0.050595515414576768778085581365666435125
-0.67259653252563500866077131691974862932  -0.94326466932012312149912848884373958881  0.050595515414576768778085581365666435125
-0.94326466932012312149912848884373958881  -0.67259653252563500866077131691974862932  0.050595515414576768778085581365666435125
" |}.
Definition tri_files : list entry := [tri_1_1; tri_2_3; tri_4_6; tri_5_7; tri_6_12; tri_7_15; tri_8_16; tri_9_19; tri_10_25].

Definition quad_1_1 : entry := {| en_is_file := true; en_stem := "1-1"; en_extension := Some "txt"; en_text := "0  0  4
" |}.
Definition quad_3_4 : entry := {| en_is_file := true; en_stem := "3-4"; en_extension := Some "txt"; en_text := " 0.57735026918962576450914878050195745565   0.57735026918962576450914878050195745565                                          1
 0.57735026918962576450914878050195745565  -0.57735026918962576450914878050195745565                                          1
-0.57735026918962576450914878050195745565   0.57735026918962576450914878050195745565                                          1
-0.57735026918962576450914878050195745565  -0.57735026918962576450914878050195745565                                          1
" |}.
Definition quad_5_8 : entry := {| en_is_file := true; en_stem := "5-8"; en_extension := Some "txt"; en_text := " 0.68313005106397322554806924536807013272                                          0    0.8163265306122448979591836734693877551
                                        0   0.68313005106397322554806924536807013272    0.8163265306122448979591836734693877551
-0.68313005106397322554806924536807013272                                          0    0.8163265306122448979591836734693877551
                                        0  -0.68313005106397322554806924536807013272    0.8163265306122448979591836734693877551
  0.8819171036881968635005385845464201419    0.8819171036881968635005385845464201419    0.1836734693877551020408163265306122449
  0.8819171036881968635005385845464201419   -0.8819171036881968635005385845464201419    0.1836734693877551020408163265306122449
 -0.8819171036881968635005385845464201419    0.8819171036881968635005385845464201419    0.1836734693877551020408163265306122449
 -0.8819171036881968635005385845464201419   -0.8819171036881968635005385845464201419    0.1836734693877551020408163265306122449
" |}.
Definition quad_7_12 : entry := {| en_is_file := true; en_stem := "7-12"; en_extension := Some "txt"; en_text := " 0.92582009977255146156656677658399952253                                          0   0.24197530864197530864197530864197530864
                                        0   0.92582009977255146156656677658399952253   0.24197530864197530864197530864197530864
-0.92582009977255146156656677658399952253                                          0   0.24197530864197530864197530864197530864
                                        0  -0.92582009977255146156656677658399952253   0.24197530864197530864197530864197530864
  0.8059797829185987437078561813507442463    0.8059797829185987437078561813507442463   0.23743177469063023421810525931129352533
  0.8059797829185987437078561813507442463   -0.8059797829185987437078561813507442463   0.23743177469063023421810525931129352533
 -0.8059797829185987437078561813507442463    0.8059797829185987437078561813507442463   0.23743177469063023421810525931129352533
 -0.8059797829185987437078561813507442463   -0.8059797829185987437078561813507442463   0.23743177469063023421810525931129352533
  0.3805544332083156563791063590863941355    0.3805544332083156563791063590863941355   0.52059291666739445713991943204673116603
  0.3805544332083156563791063590863941355   -0.3805544332083156563791063590863941355   0.52059291666739445713991943204673116603
 -0.3805544332083156563791063590863941355    0.3805544332083156563791063590863941355   0.52059291666739445713991943204673116603
 -0.3805544332083156563791063590863941355   -0.3805544332083156563791063590863941355   0.52059291666739445713991943204673116603
" |}.
Definition quad_9_20 : entry := {| en_is_file := true; en_stem := "9-20"; en_extension := Some "txt"; en_text := " 0.48892685697436906957409306022929339497                                          0   0.45416396068674902744178724560528503088
                                        0   0.48892685697436906957409306022929339497   0.45416396068674902744178724560528503088
-0.48892685697436906957409306022929339497                                          0   0.45416396068674902744178724560528503088
                                        0  -0.48892685697436906957409306022929339497   0.45416396068674902744178724560528503088
 0.93965525809683770585757175046316803289   0.93965525809683770585757175046316803289  0.042731231865775762580130721539841651755
 0.93965525809683770585757175046316803289  -0.93965525809683770585757175046316803289  0.042731231865775762580130721539841651755
-0.93965525809683770585757175046316803289   0.93965525809683770585757175046316803289  0.042731231865775762580130721539841651755
-0.93965525809683770585757175046316803289  -0.93965525809683770585757175046316803289  0.042731231865775762580130721539841651755
 0.69088055048634387281488830813840885584   0.69088055048634387281488830813840885584   0.21420036092686163194242563430597811641
 0.69088055048634387281488830813840885584  -0.69088055048634387281488830813840885584   0.21420036092686163194242563430597811641
-0.69088055048634387281488830813840885584   0.69088055048634387281488830813840885584   0.21420036092686163194242563430597811641
-0.69088055048634387281488830813840885584  -0.69088055048634387281488830813840885584   0.21420036092686163194242563430597811641
  0.9186204410567222596554701791427794163    0.3448720253644035761712304181246973037   0.14445222326030678901782819927444760048
  0.3448720253644035761712304181246973037    0.9186204410567222596554701791427794163   0.14445222326030678901782819927444760048
  0.9186204410567222596554701791427794163   -0.3448720253644035761712304181246973037   0.14445222326030678901782819927444760048
 -0.3448720253644035761712304181246973037    0.9186204410567222596554701791427794163   0.14445222326030678901782819927444760048
 -0.9186204410567222596554701791427794163    0.3448720253644035761712304181246973037   0.14445222326030678901782819927444760048
  0.3448720253644035761712304181246973037   -0.9186204410567222596554701791427794163   0.14445222326030678901782819927444760048
 -0.9186204410567222596554701791427794163   -0.3448720253644035761712304181246973037   0.14445222326030678901782819927444760048
 -0.3448720253644035761712304181246973037   -0.9186204410567222596554701791427794163   0.14445222326030678901782819927444760048
" |}.
Definition quad_11_28 : entry := {| en_is_file := true; en_stem := "11-28"; en_extension := Some "txt"; en_text := " 0.71461782966460591762942382404176367266                                          0   0.21740043986871200551566672515052291339
                                        0   0.71461782966460591762942382404176367266   0.21740043986871200551566672515052291339
-0.71461782966460591762942382404176367266                                          0   0.21740043986871200551566672515052291339
                                        0  -0.71461782966460591762942382404176367266   0.21740043986871200551566672515052291339
 0.27365721017145961383557026431906649027   0.27365721017145961383557026431906649027   0.27727410298385108795028691796804462632
 0.27365721017145961383557026431906649027  -0.27365721017145961383557026431906649027   0.27727410298385108795028691796804462632
-0.27365721017145961383557026431906649027   0.27365721017145961383557026431906649027   0.27727410298385108795028691796804462632
-0.27365721017145961383557026431906649027  -0.27365721017145961383557026431906649027   0.27727410298385108795028691796804462632
 0.63660393221230104405852833198974404207   0.63660393221230104405852833198974404207   0.21393363787824810450280500660206134837
 0.63660393221230104405852833198974404207  -0.63660393221230104405852833198974404207   0.21393363787824810450280500660206134837
-0.63660393221230104405852833198974404207   0.63660393221230104405852833198974404207   0.21393363787824810450280500660206134837
-0.63660393221230104405852833198974404207  -0.63660393221230104405852833198974404207   0.21393363787824810450280500660206134837
 0.95163038878403345881049829363696371918   0.81556543368963841306389865463928759233  0.044074569114983092054304271154112061776
 0.81556543368963841306389865463928759233   0.95163038878403345881049829363696371918  0.044074569114983092054304271154112061776
 0.95163038878403345881049829363696371918  -0.81556543368963841306389865463928759233  0.044074569114983092054304271154112061776
-0.81556543368963841306389865463928759233   0.95163038878403345881049829363696371918  0.044074569114983092054304271154112061776
-0.95163038878403345881049829363696371918   0.81556543368963841306389865463928759233  0.044074569114983092054304271154112061776
 0.81556543368963841306389865463928759233  -0.95163038878403345881049829363696371918  0.044074569114983092054304271154112061776
-0.95163038878403345881049829363696371918  -0.81556543368963841306389865463928759233  0.044074569114983092054304271154112061776
-0.81556543368963841306389865463928759233  -0.95163038878403345881049829363696371918  0.044074569114983092054304271154112061776
 0.34620720004764544118747320724330043979   0.93556787148759108135480212161830515337   0.10162134051961130896131640398557349419
 0.93556787148759108135480212161830515337   0.34620720004764544118747320724330043979   0.10162134051961130896131640398557349419
 0.34620720004764544118747320724330043979  -0.93556787148759108135480212161830515337   0.10162134051961130896131640398557349419
-0.93556787148759108135480212161830515337   0.34620720004764544118747320724330043979   0.10162134051961130896131640398557349419
-0.34620720004764544118747320724330043979   0.93556787148759108135480212161830515337   0.10162134051961130896131640398557349419
 0.93556787148759108135480212161830515337  -0.34620720004764544118747320724330043979   0.10162134051961130896131640398557349419
-0.34620720004764544118747320724330043979  -0.93556787148759108135480212161830515337   0.10162134051961130896131640398557349419
-0.93556787148759108135480212161830515337  -0.34620720004764544118747320724330043979   0.10162134051961130896131640398557349419
" |}.
Definition quad_files : list entry := [quad_1_1; quad_3_4; quad_5_8; quad_7_12; quad_9_20; quad_11_28].

Definition tet_1_1 : entry := {| en_is_file := true; en_stem := "1-1"; en_extension := Some "txt"; en_text := "                                   -0.5                                     -0.5                                     -0.5  1.3333333333333333333333333333333333333
" |}.
Definition tet_2_4 : entry := {| en_is_file := true; en_stem := "2-4"; en_extension := Some "txt"; en_text := "-0.72360679774997896964091736687312762354  -0.72360679774997896964091736687312762354   0.17082039324993690892275210061938287063   0.33333333333333333333333333333333333333
-0.72360679774997896964091736687312762354   0.17082039324993690892275210061938287063  -0.72360679774997896964091736687312762354   0.33333333333333333333333333333333333333
 0.17082039324993690892275210061938287063  -0.72360679774997896964091736687312762354  -0.72360679774997896964091736687312762354   0.33333333333333333333333333333333333333
-0.72360679774997896964091736687312762354  -0.72360679774997896964091736687312762354  -0.72360679774997896964091736687312762354   0.33333333333333333333333333333333333333
" |}.
Definition tet_3_8 : entry := {| en_is_file := true; en_stem := "3-8"; en_extension := Some "txt"; en_text := "-0.34367339496723662642072827083693243093  -0.34367339496723662642072827083693243093   -0.9689798150982901207378151874892027072   0.18162379004944980942342872025562069427
-0.34367339496723662642072827083693243093   -0.9689798150982901207378151874892027072  -0.34367339496723662642072827083693243093   0.18162379004944980942342872025562069427
 -0.9689798150982901207378151874892027072  -0.34367339496723662642072827083693243093  -0.34367339496723662642072827083693243093   0.18162379004944980942342872025562069427
-0.34367339496723662642072827083693243093  -0.34367339496723662642072827083693243093  -0.34367339496723662642072827083693243093   0.18162379004944980942342872025562069427
-0.78390550020314279176487322158837338344  -0.78390550020314279176487322158837338344   0.35171650060942837529461966476512015033   0.15170954328388352390990461307771263906
-0.78390550020314279176487322158837338344   0.35171650060942837529461966476512015033  -0.78390550020314279176487322158837338344   0.15170954328388352390990461307771263906
 0.35171650060942837529461966476512015033  -0.78390550020314279176487322158837338344  -0.78390550020314279176487322158837338344   0.15170954328388352390990461307771263906
-0.78390550020314279176487322158837338344  -0.78390550020314279176487322158837338344  -0.78390550020314279176487322158837338344   0.15170954328388352390990461307771263906
" |}.
Definition tet_5_14 : entry := {| en_is_file := true; en_stem := "5-14"; en_extension := Some "txt"; en_text := " -0.37822816147339878040530853247308433401   -0.37822816147339878040530853247308433401   -0.86531551557980365878407440258074699796    0.15025056762402113439891420311104844508
 -0.37822816147339878040530853247308433401   -0.86531551557980365878407440258074699796   -0.37822816147339878040530853247308433401    0.15025056762402113439891420311104844508
 -0.86531551557980365878407440258074699796   -0.37822816147339878040530853247308433401   -0.37822816147339878040530853247308433401    0.15025056762402113439891420311104844508
 -0.37822816147339878040530853247308433401   -0.37822816147339878040530853247308433401   -0.37822816147339878040530853247308433401    0.15025056762402113439891420311104844508
 -0.81452949937821754719535217252593878951   -0.81452949937821754719535217252593878951    0.44358849813465264158605651757781636853   0.097990724155149266058280273981770004697
 -0.81452949937821754719535217252593878951    0.44358849813465264158605651757781636853   -0.81452949937821754719535217252593878951   0.097990724155149266058280273981770004697
  0.44358849813465264158605651757781636853   -0.81452949937821754719535217252593878951   -0.81452949937821754719535217252593878951   0.097990724155149266058280273981770004697
 -0.81452949937821754719535217252593878951   -0.81452949937821754719535217252593878951   -0.81452949937821754719535217252593878951   0.097990724155149266058280273981770004697
 -0.90899259174870070101623894744132112187  -0.091007408251299298983761052558678878131  -0.091007408251299298983761052558678878131    0.05672802770277528858409257082700992237
-0.091007408251299298983761052558678878131   -0.90899259174870070101623894744132112187  -0.091007408251299298983761052558678878131    0.05672802770277528858409257082700992237
 -0.90899259174870070101623894744132112187   -0.90899259174870070101623894744132112187  -0.091007408251299298983761052558678878131    0.05672802770277528858409257082700992237
 -0.90899259174870070101623894744132112187  -0.091007408251299298983761052558678878131   -0.90899259174870070101623894744132112187    0.05672802770277528858409257082700992237
-0.091007408251299298983761052558678878131   -0.90899259174870070101623894744132112187   -0.90899259174870070101623894744132112187    0.05672802770277528858409257082700992237
-0.091007408251299298983761052558678878131  -0.091007408251299298983761052558678878131   -0.90899259174870070101623894744132112187    0.05672802770277528858409257082700992237
" |}.
Definition tet_6_24 : entry := {| en_is_file := true; en_stem := "6-24"; en_extension := Some "txt"; en_text := "-0.91865208293077729376884110208717988144  -0.91865208293077729376884110208717988144   0.75595624879233188130652330626153964433  0.013436281407094190597350983261249151023
-0.91865208293077729376884110208717988144   0.75595624879233188130652330626153964433  -0.91865208293077729376884110208717988144  0.013436281407094190597350983261249151023
 0.75595624879233188130652330626153964433  -0.91865208293077729376884110208717988144  -0.91865208293077729376884110208717988144  0.013436281407094190597350983261249151023
-0.91865208293077729376884110208717988144  -0.91865208293077729376884110208717988144  -0.91865208293077729376884110208717988144  0.013436281407094190597350983261249151023
-0.35532421971544897931201105847501574951  -0.35532421971544897931201105847501574951  -0.93402734085365306206396682457495275146  0.073809575391539629460204370471634688549
-0.35532421971544897931201105847501574951  -0.93402734085365306206396682457495275146  -0.35532421971544897931201105847501574951  0.073809575391539629460204370471634688549
-0.93402734085365306206396682457495275146  -0.35532421971544897931201105847501574951  -0.35532421971544897931201105847501574951  0.073809575391539629460204370471634688549
-0.35532421971544897931201105847501574951  -0.35532421971544897931201105847501574951  -0.35532421971544897931201105847501574951  0.073809575391539629460204370471634688549
 -0.5707942574816959414223215612274300172   -0.5707942574816959414223215612274300172  -0.28761722755491217573303531631770994839  0.053230333677556656132920836743306636618
 -0.5707942574816959414223215612274300172  -0.28761722755491217573303531631770994839   -0.5707942574816959414223215612274300172  0.053230333677556656132920836743306636618
-0.28761722755491217573303531631770994839   -0.5707942574816959414223215612274300172   -0.5707942574816959414223215612274300172  0.053230333677556656132920836743306636618
 -0.5707942574816959414223215612274300172   -0.5707942574816959414223215612274300172   -0.5707942574816959414223215612274300172  0.053230333677556656132920836743306636618
 0.20601132958329828273486227812187937257  -0.87267799624996494940152894478854603924  -0.46065533708336838393180438854478729409  0.064285714285714285714285714285714285714
 0.20601132958329828273486227812187937257  -0.87267799624996494940152894478854603924  -0.87267799624996494940152894478854603924  0.064285714285714285714285714285714285714
-0.87267799624996494940152894478854603924  -0.87267799624996494940152894478854603924   0.20601132958329828273486227812187937257  0.064285714285714285714285714285714285714
-0.46065533708336838393180438854478729409   0.20601132958329828273486227812187937257  -0.87267799624996494940152894478854603924  0.064285714285714285714285714285714285714
-0.87267799624996494940152894478854603924  -0.46065533708336838393180438854478729409   0.20601132958329828273486227812187937257  0.064285714285714285714285714285714285714
-0.87267799624996494940152894478854603924   0.20601132958329828273486227812187937257  -0.87267799624996494940152894478854603924  0.064285714285714285714285714285714285714
-0.46065533708336838393180438854478729409  -0.87267799624996494940152894478854603924   0.20601132958329828273486227812187937257  0.064285714285714285714285714285714285714
-0.87267799624996494940152894478854603924  -0.46065533708336838393180438854478729409  -0.87267799624996494940152894478854603924  0.064285714285714285714285714285714285714
-0.87267799624996494940152894478854603924  -0.87267799624996494940152894478854603924  -0.46065533708336838393180438854478729409  0.064285714285714285714285714285714285714
-0.87267799624996494940152894478854603924   0.20601132958329828273486227812187937257  -0.46065533708336838393180438854478729409  0.064285714285714285714285714285714285714
-0.46065533708336838393180438854478729409  -0.87267799624996494940152894478854603924  -0.87267799624996494940152894478854603924  0.064285714285714285714285714285714285714
 0.20601132958329828273486227812187937257  -0.46065533708336838393180438854478729409  -0.87267799624996494940152894478854603924  0.064285714285714285714285714285714285714
" |}.
Definition tet_7_35 : entry := {| en_is_file := true; en_stem := "7-35"; en_extension := Some "txt"; en_text := "                                     -0.5                                       -0.5                                       -0.5   0.12731371928550779848077124815630184245
-0.36859770044359440115314000081337702315  -0.36859770044359440115314000081337702315  -0.89420689866921679654057999755986893056   0.05643944161328937210171489439806231665
-0.36859770044359440115314000081337702315  -0.89420689866921679654057999755986893056  -0.36859770044359440115314000081337702315   0.05643944161328937210171489439806231665
-0.89420689866921679654057999755986893056  -0.36859770044359440115314000081337702315  -0.36859770044359440115314000081337702315   0.05643944161328937210171489439806231665
-0.36859770044359440115314000081337702315  -0.36859770044359440115314000081337702315  -0.36859770044359440115314000081337702315   0.05643944161328937210171489439806231665
-0.89902035480320726247389235402687506805  -0.10097964519679273752610764597312493195  -0.10097964519679273752610764597312493195   0.04252923711047677324569976544392327613
-0.10097964519679273752610764597312493195  -0.89902035480320726247389235402687506805  -0.10097964519679273752610764597312493195   0.04252923711047677324569976544392327613
-0.89902035480320726247389235402687506805  -0.89902035480320726247389235402687506805  -0.10097964519679273752610764597312493195   0.04252923711047677324569976544392327613
-0.89902035480320726247389235402687506805  -0.10097964519679273752610764597312493195  -0.89902035480320726247389235402687506805   0.04252923711047677324569976544392327613
-0.10097964519679273752610764597312493195  -0.89902035480320726247389235402687506805  -0.89902035480320726247389235402687506805   0.04252923711047677324569976544392327613
-0.10097964519679273752610764597312493195  -0.10097964519679273752610764597312493195  -0.89902035480320726247389235402687506805   0.04252923711047677324569976544392327613
 0.15034327517400004696648315404461503933  -0.62233233794799790452713779229082848999  -0.90567859927800423791220756946295805935  0.049609507637779495159487414921974827082
 0.15034327517400004696648315404461503933  -0.62233233794799790452713779229082848999  -0.62233233794799790452713779229082848999  0.049609507637779495159487414921974827082
-0.62233233794799790452713779229082848999  -0.62233233794799790452713779229082848999   0.15034327517400004696648315404461503933  0.049609507637779495159487414921974827082
-0.90567859927800423791220756946295805935   0.15034327517400004696648315404461503933  -0.62233233794799790452713779229082848999  0.049609507637779495159487414921974827082
-0.62233233794799790452713779229082848999  -0.90567859927800423791220756946295805935   0.15034327517400004696648315404461503933  0.049609507637779495159487414921974827082
-0.62233233794799790452713779229082848999   0.15034327517400004696648315404461503933  -0.62233233794799790452713779229082848999  0.049609507637779495159487414921974827082
-0.90567859927800423791220756946295805935  -0.62233233794799790452713779229082848999   0.15034327517400004696648315404461503933  0.049609507637779495159487414921974827082
-0.62233233794799790452713779229082848999  -0.90567859927800423791220756946295805935  -0.62233233794799790452713779229082848999  0.049609507637779495159487414921974827082
-0.62233233794799790452713779229082848999  -0.62233233794799790452713779229082848999  -0.90567859927800423791220756946295805935  0.049609507637779495159487414921974827082
-0.62233233794799790452713779229082848999   0.15034327517400004696648315404461503933  -0.90567859927800423791220756946295805935  0.049609507637779495159487414921974827082
-0.90567859927800423791220756946295805935  -0.62233233794799790452713779229082848999  -0.62233233794799790452713779229082848999  0.049609507637779495159487414921974827082
 0.15034327517400004696648315404461503933  -0.90567859927800423791220756946295805935  -0.62233233794799790452713779229082848999  0.049609507637779495159487414921974827082
 0.62166048219709712223621075969646478759  -0.95746905491703350802232779700036011785  -0.70672237236303010619155516569574455189  0.010814361106537788754804577988128720209
 0.62166048219709712223621075969646478759  -0.95746905491703350802232779700036011785  -0.95746905491703350802232779700036011785  0.010814361106537788754804577988128720209
-0.95746905491703350802232779700036011785  -0.95746905491703350802232779700036011785   0.62166048219709712223621075969646478759  0.010814361106537788754804577988128720209
-0.70672237236303010619155516569574455189   0.62166048219709712223621075969646478759  -0.95746905491703350802232779700036011785  0.010814361106537788754804577988128720209
-0.95746905491703350802232779700036011785  -0.70672237236303010619155516569574455189   0.62166048219709712223621075969646478759  0.010814361106537788754804577988128720209
-0.95746905491703350802232779700036011785   0.62166048219709712223621075969646478759  -0.95746905491703350802232779700036011785  0.010814361106537788754804577988128720209
-0.70672237236303010619155516569574455189  -0.95746905491703350802232779700036011785   0.62166048219709712223621075969646478759  0.010814361106537788754804577988128720209
-0.95746905491703350802232779700036011785  -0.70672237236303010619155516569574455189  -0.95746905491703350802232779700036011785  0.010814361106537788754804577988128720209
-0.95746905491703350802232779700036011785  -0.95746905491703350802232779700036011785  -0.70672237236303010619155516569574455189  0.010814361106537788754804577988128720209
-0.95746905491703350802232779700036011785   0.62166048219709712223621075969646478759  -0.70672237236303010619155516569574455189  0.010814361106537788754804577988128720209
-0.70672237236303010619155516569574455189  -0.95746905491703350802232779700036011785  -0.95746905491703350802232779700036011785  0.010814361106537788754804577988128720209
 0.62166048219709712223621075969646478759  -0.70672237236303010619155516569574455189  -0.95746905491703350802232779700036011785  0.010814361106537788754804577988128720209
" |}.
Definition tet_8_46 : entry := {| en_is_file := true; en_stem := "8-46"; en_extension := Some "txt"; en_text := " -0.78409455007557830303561343854585276851   -0.78409455007557830303561343854585276851    0.35228365022673490910684031563755830553   0.035235534544545108539097313565645827902
 -0.78409455007557830303561343854585276851    0.35228365022673490910684031563755830553   -0.78409455007557830303561343854585276851   0.035235534544545108539097313565645827902
  0.35228365022673490910684031563755830553   -0.78409455007557830303561343854585276851   -0.78409455007557830303561343854585276851   0.035235534544545108539097313565645827902
 -0.78409455007557830303561343854585276851   -0.78409455007557830303561343854585276851   -0.78409455007557830303561343854585276851   0.035235534544545108539097313565645827902
   -0.629781024434826859446183999496503797     -0.629781024434826859446183999496503797     -0.110656926695519421661448001510488609   0.069375663418318043619861410028472677606
   -0.629781024434826859446183999496503797     -0.110656926695519421661448001510488609     -0.629781024434826859446183999496503797   0.069375663418318043619861410028472677606
   -0.110656926695519421661448001510488609     -0.629781024434826859446183999496503797     -0.629781024434826859446183999496503797   0.069375663418318043619861410028472677606
   -0.629781024434826859446183999496503797     -0.629781024434826859446183999496503797     -0.629781024434826859446183999496503797   0.069375663418318043619861410028472677606
 -0.91536691263046543675183591431855057189   -0.91536691263046543675183591431855057189    0.74610073789139631025550774295565171568   0.010033674871386933040967405110292766211
 -0.91536691263046543675183591431855057189    0.74610073789139631025550774295565171568   -0.91536691263046543675183591431855057189   0.010033674871386933040967405110292766211
  0.74610073789139631025550774295565171568   -0.91536691263046543675183591431855057189   -0.91536691263046543675183591431855057189   0.010033674871386933040967405110292766211
 -0.91536691263046543675183591431855057189   -0.91536691263046543675183591431855057189   -0.91536691263046543675183591431855057189   0.010033674871386933040967405110292766211
 -0.37163658175192200927334245312373662702   -0.37163658175192200927334245312373662702   -0.88509025474423397217997264062879011895   0.055685043809246530275971813171748834223
 -0.37163658175192200927334245312373662702   -0.88509025474423397217997264062879011895   -0.37163658175192200927334245312373662702   0.055685043809246530275971813171748834223
 -0.88509025474423397217997264062879011895   -0.37163658175192200927334245312373662702   -0.37163658175192200927334245312373662702   0.055685043809246530275971813171748834223
 -0.37163658175192200927334245312373662702   -0.37163658175192200927334245312373662702   -0.37163658175192200927334245312373662702   0.055685043809246530275971813171748834223
 -0.12881734283233958954373367640680593526   -0.87118265716766041045626632359319406474   -0.87118265716766041045626632359319406474   0.048374573681745097334959362864457783412
 -0.87118265716766041045626632359319406474   -0.12881734283233958954373367640680593526   -0.87118265716766041045626632359319406474   0.048374573681745097334959362864457783412
 -0.12881734283233958954373367640680593526   -0.12881734283233958954373367640680593526   -0.87118265716766041045626632359319406474   0.048374573681745097334959362864457783412
 -0.12881734283233958954373367640680593526   -0.87118265716766041045626632359319406474   -0.12881734283233958954373367640680593526   0.048374573681745097334959362864457783412
 -0.87118265716766041045626632359319406474   -0.12881734283233958954373367640680593526   -0.12881734283233958954373367640680593526   0.048374573681745097334959362864457783412
 -0.87118265716766041045626632359319406474   -0.87118265716766041045626632359319406474   -0.12881734283233958954373367640680593526   0.048374573681745097334959362864457783412
  0.43492812685261664658005711425116290088   -0.95713213974573885031100182115353118963   -0.52066384736113894595805347194410052161  0.0095425371877925775336250150191510735196
  0.43492812685261664658005711425116290088   -0.95713213974573885031100182115353118963   -0.95713213974573885031100182115353118963  0.0095425371877925775336250150191510735196
 -0.95713213974573885031100182115353118963   -0.95713213974573885031100182115353118963    0.43492812685261664658005711425116290088  0.0095425371877925775336250150191510735196
 -0.52066384736113894595805347194410052161    0.43492812685261664658005711425116290088   -0.95713213974573885031100182115353118963  0.0095425371877925775336250150191510735196
 -0.95713213974573885031100182115353118963   -0.52066384736113894595805347194410052161    0.43492812685261664658005711425116290088  0.0095425371877925775336250150191510735196
 -0.95713213974573885031100182115353118963    0.43492812685261664658005711425116290088   -0.95713213974573885031100182115353118963  0.0095425371877925775336250150191510735196
 -0.52066384736113894595805347194410052161   -0.95713213974573885031100182115353118963    0.43492812685261664658005711425116290088  0.0095425371877925775336250150191510735196
 -0.95713213974573885031100182115353118963   -0.52066384736113894595805347194410052161   -0.95713213974573885031100182115353118963  0.0095425371877925775336250150191510735196
 -0.95713213974573885031100182115353118963   -0.95713213974573885031100182115353118963   -0.52066384736113894595805347194410052161  0.0095425371877925775336250150191510735196
 -0.95713213974573885031100182115353118963    0.43492812685261664658005711425116290088   -0.52066384736113894595805347194410052161  0.0095425371877925775336250150191510735196
 -0.52066384736113894595805347194410052161   -0.95713213974573885031100182115353118963   -0.95713213974573885031100182115353118963  0.0095425371877925775336250150191510735196
  0.43492812685261664658005711425116290088   -0.52066384736113894595805347194410052161   -0.95713213974573885031100182115353118963  0.0095425371877925775336250150191510735196
  0.16759475660428881185333950841466005283   -0.59172133224794175913941940243963088242   -0.98415209210840529357450070353539828799   0.020604648201280446418040434034344443905
  0.16759475660428881185333950841466005283   -0.59172133224794175913941940243963088242   -0.59172133224794175913941940243963088242   0.020604648201280446418040434034344443905
 -0.59172133224794175913941940243963088242   -0.59172133224794175913941940243963088242    0.16759475660428881185333950841466005283   0.020604648201280446418040434034344443905
 -0.98415209210840529357450070353539828799    0.16759475660428881185333950841466005283   -0.59172133224794175913941940243963088242   0.020604648201280446418040434034344443905
 -0.59172133224794175913941940243963088242   -0.98415209210840529357450070353539828799    0.16759475660428881185333950841466005283   0.020604648201280446418040434034344443905
 -0.59172133224794175913941940243963088242    0.16759475660428881185333950841466005283   -0.59172133224794175913941940243963088242   0.020604648201280446418040434034344443905
 -0.98415209210840529357450070353539828799   -0.59172133224794175913941940243963088242    0.16759475660428881185333950841466005283   0.020604648201280446418040434034344443905
 -0.59172133224794175913941940243963088242   -0.98415209210840529357450070353539828799   -0.59172133224794175913941940243963088242   0.020604648201280446418040434034344443905
 -0.59172133224794175913941940243963088242   -0.59172133224794175913941940243963088242   -0.98415209210840529357450070353539828799   0.020604648201280446418040434034344443905
 -0.59172133224794175913941940243963088242    0.16759475660428881185333950841466005283   -0.98415209210840529357450070353539828799   0.020604648201280446418040434034344443905
 -0.98415209210840529357450070353539828799   -0.59172133224794175913941940243963088242   -0.59172133224794175913941940243963088242   0.020604648201280446418040434034344443905
  0.16759475660428881185333950841466005283   -0.98415209210840529357450070353539828799   -0.59172133224794175913941940243963088242   0.020604648201280446418040434034344443905
" |}.
Definition tet_files : list entry := [tet_1_1; tet_2_4; tet_3_8; tet_5_14; tet_6_24; tet_7_35; tet_8_46].

Definition hex_1_1 : entry := {| en_is_file := true; en_stem := "1-1"; en_extension := Some "txt"; en_text := "0  0  0  8
" |}.
Definition hex_3_6 : entry := {| en_is_file := true; en_stem := "3-6"; en_extension := Some "txt"; en_text := "                                     -1                                        0                                        0  1.3333333333333333333333333333333333333
                                      0                                        0                                        1  1.3333333333333333333333333333333333333
                                      0                                        1                                        0  1.3333333333333333333333333333333333333
                                      0                                        0                                       -1  1.3333333333333333333333333333333333333
                                      1                                        0                                        0  1.3333333333333333333333333333333333333
                                      0                                       -1                                        0  1.3333333333333333333333333333333333333
" |}.
Definition hex_5_14 : entry := {| en_is_file := true; en_stem := "5-14"; en_extension := Some "txt"; en_text := "-0.79582242575422146326454882047613584616                                          0                                          0   0.88642659279778393351800554016620498615
                                        0                                          0   0.79582242575422146326454882047613584616   0.88642659279778393351800554016620498615
                                        0   0.79582242575422146326454882047613584616                                          0   0.88642659279778393351800554016620498615
                                        0                                          0  -0.79582242575422146326454882047613584616   0.88642659279778393351800554016620498615
 0.79582242575422146326454882047613584616                                          0                                          0   0.88642659279778393351800554016620498615
                                        0  -0.79582242575422146326454882047613584616                                          0   0.88642659279778393351800554016620498615
 0.75878691063932814626903427811226742764  -0.75878691063932814626903427811226742764  -0.75878691063932814626903427811226742764   0.33518005540166204986149584487534626039
-0.75878691063932814626903427811226742764   0.75878691063932814626903427811226742764   0.75878691063932814626903427811226742764   0.33518005540166204986149584487534626039
-0.75878691063932814626903427811226742764   0.75878691063932814626903427811226742764  -0.75878691063932814626903427811226742764   0.33518005540166204986149584487534626039
-0.75878691063932814626903427811226742764  -0.75878691063932814626903427811226742764  -0.75878691063932814626903427811226742764   0.33518005540166204986149584487534626039
-0.75878691063932814626903427811226742764  -0.75878691063932814626903427811226742764   0.75878691063932814626903427811226742764   0.33518005540166204986149584487534626039
 0.75878691063932814626903427811226742764   0.75878691063932814626903427811226742764  -0.75878691063932814626903427811226742764   0.33518005540166204986149584487534626039
 0.75878691063932814626903427811226742764   0.75878691063932814626903427811226742764   0.75878691063932814626903427811226742764   0.33518005540166204986149584487534626039
 0.75878691063932814626903427811226742764  -0.75878691063932814626903427811226742764   0.75878691063932814626903427811226742764   0.33518005540166204986149584487534626039
" |}.
Definition hex_7_34 : entry := {| en_is_file := true; en_stem := "7-34"; en_extension := Some "txt"; en_text := "-0.98808616118867654860459729594655654482                                          0                                          0   0.20012989098356700695575850638756794678
                                        0                                          0   0.98808616118867654860459729594655654482   0.20012989098356700695575850638756794678
                                        0   0.98808616118867654860459729594655654482                                          0   0.20012989098356700695575850638756794678
                                        0                                          0  -0.98808616118867654860459729594655654482   0.20012989098356700695575850638756794678
 0.98808616118867654860459729594655654482                                          0                                          0   0.20012989098356700695575850638756794678
                                        0  -0.98808616118867654860459729594655654482                                          0   0.20012989098356700695575850638756794678
 0.40795516735831936633080916251520586856  -0.40795516735831936633080916251520586856  -0.40795516735831936633080916251520586856   0.45715385606985274296912190785204854361
-0.40795516735831936633080916251520586856   0.40795516735831936633080916251520586856   0.40795516735831936633080916251520586856   0.45715385606985274296912190785204854361
-0.40795516735831936633080916251520586856   0.40795516735831936633080916251520586856  -0.40795516735831936633080916251520586856   0.45715385606985274296912190785204854361
-0.40795516735831936633080916251520586856  -0.40795516735831936633080916251520586856  -0.40795516735831936633080916251520586856   0.45715385606985274296912190785204854361
-0.40795516735831936633080916251520586856  -0.40795516735831936633080916251520586856   0.40795516735831936633080916251520586856   0.45715385606985274296912190785204854361
 0.40795516735831936633080916251520586856   0.40795516735831936633080916251520586856  -0.40795516735831936633080916251520586856   0.45715385606985274296912190785204854361
 0.40795516735831936633080916251520586856   0.40795516735831936633080916251520586856   0.40795516735831936633080916251520586856   0.45715385606985274296912190785204854361
 0.40795516735831936633080916251520586856  -0.40795516735831936633080916251520586856   0.40795516735831936633080916251520586856   0.45715385606985274296912190785204854361
 0.78110282100411850665136814715928740203  -0.78110282100411850665136814715928740203  -0.78110282100411850665136814715928740203   0.15379614006595869408326783499527494637
-0.78110282100411850665136814715928740203   0.78110282100411850665136814715928740203   0.78110282100411850665136814715928740203   0.15379614006595869408326783499527494637
-0.78110282100411850665136814715928740203   0.78110282100411850665136814715928740203  -0.78110282100411850665136814715928740203   0.15379614006595869408326783499527494637
-0.78110282100411850665136814715928740203  -0.78110282100411850665136814715928740203  -0.78110282100411850665136814715928740203   0.15379614006595869408326783499527494637
-0.78110282100411850665136814715928740203  -0.78110282100411850665136814715928740203   0.78110282100411850665136814715928740203   0.15379614006595869408326783499527494637
 0.78110282100411850665136814715928740203   0.78110282100411850665136814715928740203  -0.78110282100411850665136814715928740203   0.15379614006595869408326783499527494637
 0.78110282100411850665136814715928740203   0.78110282100411850665136814715928740203   0.78110282100411850665136814715928740203   0.15379614006595869408326783499527494637
 0.78110282100411850665136814715928740203  -0.78110282100411850665136814715928740203   0.78110282100411850665136814715928740203   0.15379614006595869408326783499527494637
-0.84805227568403872779622085759407839383  -0.84805227568403872779622085759407839383                                          0   0.15930172375100887182052758490800036662
 0.84805227568403872779622085759407839383                                          0  -0.84805227568403872779622085759407839383   0.15930172375100887182052758490800036662
                                        0   0.84805227568403872779622085759407839383  -0.84805227568403872779622085759407839383   0.15930172375100887182052758490800036662
 0.84805227568403872779622085759407839383   0.84805227568403872779622085759407839383                                          0   0.15930172375100887182052758490800036662
 0.84805227568403872779622085759407839383                                          0   0.84805227568403872779622085759407839383   0.15930172375100887182052758490800036662
                                        0  -0.84805227568403872779622085759407839383   0.84805227568403872779622085759407839383   0.15930172375100887182052758490800036662
                                        0  -0.84805227568403872779622085759407839383  -0.84805227568403872779622085759407839383   0.15930172375100887182052758490800036662
-0.84805227568403872779622085759407839383                                          0   0.84805227568403872779622085759407839383   0.15930172375100887182052758490800036662
-0.84805227568403872779622085759407839383   0.84805227568403872779622085759407839383                                          0   0.15930172375100887182052758490800036662
 0.84805227568403872779622085759407839383  -0.84805227568403872779622085759407839383                                          0   0.15930172375100887182052758490800036662
                                        0   0.84805227568403872779622085759407839383   0.84805227568403872779622085759407839383   0.15930172375100887182052758490800036662
-0.84805227568403872779622085759407839383                                          0  -0.84805227568403872779622085759407839383   0.15930172375100887182052758490800036662
" |}.
Definition hex_files : list entry := [hex_1_1; hex_3_6; hex_5_14; hex_7_34].

Definition pri_1_1 : entry := {| en_is_file := true; en_stem := "1-1"; en_extension := Some "txt"; en_text := "-0.33333333333333333333333333333333333333  -0.33333333333333333333333333333333333333                                          0                                          4
" |}.
Definition pri_2_5 : entry := {| en_is_file := true; en_stem := "2-5"; en_extension := Some "txt"; en_text := "-0.33333333333333333333333333333333333333  -0.33333333333333333333333333333333333333  -0.99999999999999985119303811076522004183   0.66666666666666686507594918564641756458
-0.33333333333333333333333333333333333333  -0.33333333333333333333333333333333333333   0.99999999999999985119303811076522004183   0.66666666666666686507594918564641756458
-0.74158162379719638007464124598498266439   0.48316324759439276014928249196996532878                                          0   0.88888888888888875661603387623572162361
 0.48316324759439276014928249196996532878  -0.74158162379719638007464124598498266439                                          0   0.88888888888888875661603387623572162361
-0.74158162379719638007464124598498266439  -0.74158162379719638007464124598498266439                                          0   0.88888888888888875661603387623572162361
" |}.
Definition pri_3_8 : entry := {| en_is_file := true; en_stem := "3-8"; en_extension := Some "txt"; en_text := "-0.33333333333333333333333333333333333333  -0.33333333333333333333333333333333333333  -0.86066920446477793249332885107223920359   0.89998695257960196814387903509173005101
-0.33333333333333333333333333333333333333  -0.33333333333333333333333333333333333333   0.86066920446477793249332885107223920359   0.89998695257960196814387903509173005101
-0.52223312808684327863699399822724711768   0.52222829574978345631488370728601281383                                          0     0.366671015806799343952040321636089983
 0.52222829574978345631488370728601281383  -0.52223312808684327863699399822724711768                                          0     0.366671015806799343952040321636089983
-0.99999516766294017767788970905876569615   0.52222829574978345631488370728601281383                                          0     0.366671015806799343952040321636089983
 0.52222829574978345631488370728601281383  -0.99999516766294017767788970905876569615                                          0     0.366671015806799343952040321636089983
-0.99999516766294017767788970905876569615  -0.52223312808684327863699399822724711768                                          0     0.366671015806799343952040321636089983
-0.52223312808684327863699399822724711768  -0.99999516766294017767788970905876569615                                          0     0.366671015806799343952040321636089983
" |}.
Definition pri_4_11 : entry := {| en_is_file := true; en_stem := "4-11"; en_extension := Some "txt"; en_text := " -0.33333333333333333333333333333333333333   -0.33333333333333333333333333333333333333   -0.86686197400903479841583223937151297546    0.43164789926214201915560571539043719684
 -0.33333333333333333333333333333333333333   -0.33333333333333333333333333333333333333    0.86686197400903479841583223937151297546    0.43164789926214201915560571539043719684
-0.062688380276009575455822705856210492672   -0.87462323944798084908835458828757901466                                           0    0.54565845042191057226153838655080393041
 -0.87462323944798084908835458828757901466  -0.062688380276009575455822705856210492672                                           0    0.54565845042191057226153838655080393041
-0.062688380276009575455822705856210492672  -0.062688380276009575455822705856210492672                                           0    0.54565845042191057226153838655080393041
 -0.79851918840217872745314255427215462609    0.59703837680435745490628510854430925218   -0.67563982368225971739661759355428029031    0.24995480836833070748402890159445230251
  0.59703837680435745490628510854430925218   -0.79851918840217872745314255427215462609   -0.67563982368225971739661759355428029031    0.24995480836833070748402890159445230251
 -0.79851918840217872745314255427215462609   -0.79851918840217872745314255427215462609   -0.67563982368225971739661759355428029031    0.24995480836833070748402890159445230251
 -0.79851918840217872745314255427215462609    0.59703837680435745490628510854430925218    0.67563982368225971739661759355428029031    0.24995480836833070748402890159445230251
  0.59703837680435745490628510854430925218   -0.79851918840217872745314255427215462609    0.67563982368225971739661759355428029031    0.24995480836833070748402890159445230251
 -0.79851918840217872745314255427215462609   -0.79851918840217872745314255427215462609    0.67563982368225971739661759355428029031    0.24995480836833070748402890159445230251
" |}.
Definition pri_5_16 : entry := {| en_is_file := true; en_stem := "5-16"; en_extension := Some "txt"; en_text := " -0.33333333333333333333333333333333333333   -0.33333333333333333333333333333333333333                                           0    0.71145555593148684996197343022099556338
-0.025400070899508667767082370124706051859   -0.94919985820098266446583525975058789628                                           0    0.22471006722826685202639587426081419504
 -0.94919985820098266446583525975058789628  -0.025400070899508667767082370124706051859                                           0    0.22471006722826685202639587426081419504
-0.025400070899508667767082370124706051859  -0.025400070899508667767082370124706051859                                           0    0.22471006722826685202639587426081419504
 -0.10880379065925599247444934872713650457   -0.78239241868148801505110130254572699087    -0.8710029348654440527292590830738210619    0.18566142131615813987257487985503458339
 -0.78239241868148801505110130254572699087   -0.10880379065925599247444934872713650457    -0.8710029348654440527292590830738210619    0.18566142131615813987257487985503458339
 -0.10880379065925599247444934872713650457   -0.10880379065925599247444934872713650457    -0.8710029348654440527292590830738210619    0.18566142131615813987257487985503458339
 -0.10880379065925599247444934872713650457   -0.78239241868148801505110130254572699087     0.8710029348654440527292590830738210619    0.18566142131615813987257487985503458339
 -0.78239241868148801505110130254572699087   -0.10880379065925599247444934872713650457     0.8710029348654440527292590830738210619    0.18566142131615813987257487985503458339
 -0.10880379065925599247444934872713650457   -0.10880379065925599247444934872713650457     0.8710029348654440527292590830738210619    0.18566142131615813987257487985503458339
 -0.79828210803458293816870337538129563058    0.59656421606916587633740675076259126116   -0.57042698070515927206196786842334325646    0.25007428574779395912056494464439239186
  0.59656421606916587633740675076259126116   -0.79828210803458293816870337538129563058   -0.57042698070515927206196786842334325646    0.25007428574779395912056494464439239186
 -0.79828210803458293816870337538129563058   -0.79828210803458293816870337538129563058   -0.57042698070515927206196786842334325646    0.25007428574779395912056494464439239186
 -0.79828210803458293816870337538129563058    0.59656421606916587633740675076259126116    0.57042698070515927206196786842334325646    0.25007428574779395912056494464439239186
  0.59656421606916587633740675076259126116   -0.79828210803458293816870337538129563058    0.57042698070515927206196786842334325646    0.25007428574779395912056494464439239186
 -0.79828210803458293816870337538129563058   -0.79828210803458293816870337538129563058    0.57042698070515927206196786842334325646    0.25007428574779395912056494464439239186
" |}.
Definition pri_6_28 : entry := {| en_is_file := true; en_stem := "6-28"; en_extension := Some "txt"; en_text := " -0.33333333333333333333333333333333333333   -0.33333333333333333333333333333333333333   -0.52662270480497475869798007748379244322    0.22269313409222502250038629788629976598
 -0.33333333333333333333333333333333333333   -0.33333333333333333333333333333333333333    0.52662270480497475869798007748379244322    0.22269313409222502250038629788629976598
 -0.33333333333333333333333333333333333333   -0.33333333333333333333333333333333333333   -0.99083630081924474869286718300205167763    0.13839610937412451172575590081432159364
 -0.33333333333333333333333333333333333333   -0.33333333333333333333333333333333333333    0.99083630081924474869286718300205167763    0.13839610937412451172575590081432159364
 -0.66959346994381506531292392577889361708    0.33918693988763013062584785155778723416                                           0    0.31182801481333532900066338577135735737
  0.33918693988763013062584785155778723416   -0.66959346994381506531292392577889361708                                           0    0.31182801481333532900066338577135735737
 -0.66959346994381506531292392577889361708   -0.66959346994381506531292392577889361708                                           0    0.31182801481333532900066338577135735737
 -0.95905346077548616195214584157965381704    0.91810692155097232390429168315930763408                                           0   0.050146535238696554002545078611329875622
  0.91810692155097232390429168315930763408   -0.95905346077548616195214584157965381704                                           0   0.050146535238696554002545078611329875622
 -0.95905346077548616195214584157965381704   -0.95905346077548616195214584157965381704                                           0   0.050146535238696554002545078611329875622
-0.067776668819680981202280000599855057023   -0.86444666236063803759543999880028988595   -0.48167413488438751267079566597126764678    0.19605056020608216687021916179149498019
 -0.86444666236063803759543999880028988595  -0.067776668819680981202280000599855057023   -0.48167413488438751267079566597126764678    0.19605056020608216687021916179149498019
-0.067776668819680981202280000599855057023  -0.067776668819680981202280000599855057023   -0.48167413488438751267079566597126764678    0.19605056020608216687021916179149498019
-0.067776668819680981202280000599855057023   -0.86444666236063803759543999880028988595    0.48167413488438751267079566597126764678    0.19605056020608216687021916179149498019
 -0.86444666236063803759543999880028988595  -0.067776668819680981202280000599855057023    0.48167413488438751267079566597126764678    0.19605056020608216687021916179149498019
-0.067776668819680981202280000599855057023  -0.067776668819680981202280000599855057023    0.48167413488438751267079566597126764678    0.19605056020608216687021916179149498019
 -0.59485220654953844609181984939099585377    0.52549348166744454603903998678937679713   -0.80928579325583275231645432806703865787   0.084632875139559356776397936558477141722
  0.52549348166744454603903998678937679713   -0.59485220654953844609181984939099585377   -0.80928579325583275231645432806703865787   0.084632875139559356776397936558477141722
 -0.93064127511790609994722013739838094335    0.52549348166744454603903998678937679713   -0.80928579325583275231645432806703865787   0.084632875139559356776397936558477141722
  0.52549348166744454603903998678937679713   -0.93064127511790609994722013739838094335   -0.80928579325583275231645432806703865787   0.084632875139559356776397936558477141722
 -0.93064127511790609994722013739838094335   -0.59485220654953844609181984939099585377   -0.80928579325583275231645432806703865787   0.084632875139559356776397936558477141722
 -0.59485220654953844609181984939099585377   -0.93064127511790609994722013739838094335   -0.80928579325583275231645432806703865787   0.084632875139559356776397936558477141722
 -0.59485220654953844609181984939099585377    0.52549348166744454603903998678937679713    0.80928579325583275231645432806703865787   0.084632875139559356776397936558477141722
  0.52549348166744454603903998678937679713   -0.59485220654953844609181984939099585377    0.80928579325583275231645432806703865787   0.084632875139559356776397936558477141722
 -0.93064127511790609994722013739838094335    0.52549348166744454603903998678937679713    0.80928579325583275231645432806703865787   0.084632875139559356776397936558477141722
  0.52549348166744454603903998678937679713   -0.93064127511790609994722013739838094335    0.80928579325583275231645432806703865787   0.084632875139559356776397936558477141722
 -0.93064127511790609994722013739838094335   -0.59485220654953844609181984939099585377    0.80928579325583275231645432806703865787   0.084632875139559356776397936558477141722
 -0.59485220654953844609181984939099585377   -0.93064127511790609994722013739838094335    0.80928579325583275231645432806703865787   0.084632875139559356776397936558477141722
" |}.
Definition pri_7_35 : entry := {| en_is_file := true; en_stem := "7-35"; en_extension := Some "txt"; en_text := " -0.33333333333333333333333333333333333333   -0.33333333333333333333333333333333333333   -0.98022806959089160171504882914128008603    0.11378272445075715563392222208600913026
 -0.33333333333333333333333333333333333333   -0.33333333333333333333333333333333333333    0.98022806959089160171504882914128008603    0.11378272445075715563392222208600913026
 -0.98332480906795705560590831565479581293    0.96664961813591411121181663130959162585                                           0   0.024472968692380158977782543188506640362
  0.96664961813591411121181663130959162585   -0.98332480906795705560590831565479581293                                           0   0.024472968692380158977782543188506640362
 -0.98332480906795705560590831565479581293   -0.98332480906795705560590831565479581293                                           0   0.024472968692380158977782543188506640362
-0.036956049341726798726440754485546402356   -0.92608790131654640254711849102890719529   -0.84138735420652599295096060100359489758   0.086203456344905850875965416526967283444
 -0.92608790131654640254711849102890719529  -0.036956049341726798726440754485546402356   -0.84138735420652599295096060100359489758   0.086203456344905850875965416526967283444
-0.036956049341726798726440754485546402356  -0.036956049341726798726440754485546402356   -0.84138735420652599295096060100359489758   0.086203456344905850875965416526967283444
-0.036956049341726798726440754485546402356   -0.92608790131654640254711849102890719529    0.84138735420652599295096060100359489758   0.086203456344905850875965416526967283444
 -0.92608790131654640254711849102890719529  -0.036956049341726798726440754485546402356    0.84138735420652599295096060100359489758   0.086203456344905850875965416526967283444
-0.036956049341726798726440754485546402356  -0.036956049341726798726440754485546402356    0.84138735420652599295096060100359489758   0.086203456344905850875965416526967283444
 -0.80903350325702126768802840491559333013    0.61806700651404253537605680983118666027   -0.79584909058698306626909009833843112408    0.11671409960839383433248991439345238969
  0.61806700651404253537605680983118666027   -0.80903350325702126768802840491559333013   -0.79584909058698306626909009833843112408    0.11671409960839383433248991439345238969
 -0.80903350325702126768802840491559333013   -0.80903350325702126768802840491559333013   -0.79584909058698306626909009833843112408    0.11671409960839383433248991439345238969
 -0.80903350325702126768802840491559333013    0.61806700651404253537605680983118666027    0.79584909058698306626909009833843112408    0.11671409960839383433248991439345238969
  0.61806700651404253537605680983118666027   -0.80903350325702126768802840491559333013    0.79584909058698306626909009833843112408    0.11671409960839383433248991439345238969
 -0.80903350325702126768802840491559333013   -0.80903350325702126768802840491559333013    0.79584909058698306626909009833843112408    0.11671409960839383433248991439345238969
 -0.97570173680324342035479366133901540544    0.48599336414579127066992364784746385989                                           0    0.10205942534059700976786329599159184945
  0.48599336414579127066992364784746385989   -0.97570173680324342035479366133901540544                                           0    0.10205942534059700976786329599159184945
 -0.51029162734254785031512998650844845445    0.48599336414579127066992364784746385989                                           0    0.10205942534059700976786329599159184945
  0.48599336414579127066992364784746385989   -0.51029162734254785031512998650844845445                                           0    0.10205942534059700976786329599159184945
 -0.51029162734254785031512998650844845445   -0.97570173680324342035479366133901540544                                           0    0.10205942534059700976786329599159184945
 -0.97570173680324342035479366133901540544   -0.51029162734254785031512998650844845445                                           0    0.10205942534059700976786329599159184945
 -0.38968756713554786569859973469754143293   -0.69403080315040476305982696739689230156    -0.4039345605321099116998238341362959742    0.15576281310483042016174134706586605691
 -0.69403080315040476305982696739689230156   -0.38968756713554786569859973469754143293    -0.4039345605321099116998238341362959742    0.15576281310483042016174134706586605691
 0.083718370285952628758426702094433734489   -0.69403080315040476305982696739689230156    -0.4039345605321099116998238341362959742    0.15576281310483042016174134706586605691
 -0.69403080315040476305982696739689230156   0.083718370285952628758426702094433734489    -0.4039345605321099116998238341362959742    0.15576281310483042016174134706586605691
 0.083718370285952628758426702094433734489   -0.38968756713554786569859973469754143293    -0.4039345605321099116998238341362959742    0.15576281310483042016174134706586605691
 -0.38968756713554786569859973469754143293   0.083718370285952628758426702094433734489    -0.4039345605321099116998238341362959742    0.15576281310483042016174134706586605691
 -0.38968756713554786569859973469754143293   -0.69403080315040476305982696739689230156     0.4039345605321099116998238341362959742    0.15576281310483042016174134706586605691
 -0.69403080315040476305982696739689230156   -0.38968756713554786569859973469754143293     0.4039345605321099116998238341362959742    0.15576281310483042016174134706586605691
 0.083718370285952628758426702094433734489   -0.69403080315040476305982696739689230156     0.4039345605321099116998238341362959742    0.15576281310483042016174134706586605691
 -0.69403080315040476305982696739689230156   0.083718370285952628758426702094433734489     0.4039345605321099116998238341362959742    0.15576281310483042016174134706586605691
 0.083718370285952628758426702094433734489   -0.38968756713554786569859973469754143293     0.4039345605321099116998238341362959742    0.15576281310483042016174134706586605691
 -0.38968756713554786569859973469754143293   0.083718370285952628758426702094433734489     0.4039345605321099116998238341362959742    0.15576281310483042016174134706586605691
" |}.
Definition pri_files : list entry := [pri_1_1; pri_2_5; pri_3_8; pri_4_11; pri_5_16; pri_6_28; pri_7_35].

Definition pyr_1_1 : entry := {| en_is_file := true; en_stem := "1-1"; en_extension := Some "txt"; en_text := "                                      0                                        0                                     -0.5  2.6666666666666666666666666666666666667
" |}.
Definition pyr_2_5 : entry := {| en_is_file := true; en_stem := "2-5"; en_extension := Some "txt"; en_text := "                                        0                                          0   0.21658207711955775339238838942231815011   0.60287280353093925911579186632475611728
 0.71892105581179616210276971993495767914                                          0  -0.70932703285428855378369530000365161136   0.51594846578393185188771870008547763735
                                        0   0.71892105581179616210276971993495767914  -0.70932703285428855378369530000365161136   0.51594846578393185188771870008547763735
-0.71892105581179616210276971993495767914                                          0  -0.70932703285428855378369530000365161136   0.51594846578393185188771870008547763735
                                        0  -0.71892105581179616210276971993495767914  -0.70932703285428855378369530000365161136   0.51594846578393185188771870008547763735
" |}.
Definition pyr_3_6 : entry := {| en_is_file := true; en_stem := "3-6"; en_extension := Some "txt"; en_text := "                                        0                                          0   0.14285714077213670617734974746312582074   0.67254902379402809443607078852738472107
                                        0                                          0  -0.99999998864829993678698817507850804299   0.30000001617617323518941867705084375434
 0.56108361105873963414196154191891982155   0.56108361105873963414196154191891982155  -0.66666666666666666666666666666666666667   0.42352940667411633426029430027210954782
 0.56108361105873963414196154191891982155  -0.56108361105873963414196154191891982155  -0.66666666666666666666666666666666666667   0.42352940667411633426029430027210954782
-0.56108361105873963414196154191891982155   0.56108361105873963414196154191891982155  -0.66666666666666666666666666666666666667   0.42352940667411633426029430027210954782
-0.56108361105873963414196154191891982155  -0.56108361105873963414196154191891982155  -0.66666666666666666666666666666666666667   0.42352940667411633426029430027210954782
" |}.
Definition pyr_4_10 : entry := {| en_is_file := true; en_stem := "4-10"; en_extension := Some "txt"; en_text := "                                        0                                          0   0.35446557777227471722730849524904581806   0.30331168845504517111391728481208001144
                                        0                                          0  -0.74972609378250711033655604388057044149   0.55168907357213937275730716433358729608
  0.6505815563982325146829577797417295398                                          0  -0.35523170084357268589593075201816127231   0.28353223437153468006819777082540613962
                                        0    0.6505815563982325146829577797417295398  -0.35523170084357268589593075201816127231   0.28353223437153468006819777082540613962
 -0.6505815563982325146829577797417295398                                          0  -0.35523170084357268589593075201816127231   0.28353223437153468006819777082540613962
                                        0   -0.6505815563982325146829577797417295398  -0.35523170084357268589593075201816127231   0.28353223437153468006819777082540613962
 0.65796699712169008954533549931479427127   0.65796699712169008954533549931479427127  -0.92150343220236930457646242598412224897   0.16938424178833585063066278355484370017
 0.65796699712169008954533549931479427127  -0.65796699712169008954533549931479427127  -0.92150343220236930457646242598412224897   0.16938424178833585063066278355484370017
-0.65796699712169008954533549931479427127   0.65796699712169008954533549931479427127  -0.92150343220236930457646242598412224897   0.16938424178833585063066278355484370017
-0.65796699712169008954533549931479427127  -0.65796699712169008954533549931479427127  -0.92150343220236930457646242598412224897   0.16938424178833585063066278355484370017
" |}.
Definition pyr_5_15 : entry := {| en_is_file := true; en_stem := "5-15"; en_extension := Some "txt"; en_text := "                                        0                                          0   0.45971576156501338586164265377920811314   0.18249431975770692138374895897213800931
                                        0                                          0  -0.39919795837246198593385139590712322914   0.45172563864726406056400285032640105704
                                        0                                          0  -0.99999998701645569241460017355590234925   0.15654542887619877154120304977336547704
 0.70652603154632457420722562974792066862                                          0                                      -0.75   0.20384344839498724639142514342645843799
                                        0   0.70652603154632457420722562974792066862                                      -0.75   0.20384344839498724639142514342645843799
-0.70652603154632457420722562974792066862                                          0                                      -0.75   0.20384344839498724639142514342645843799
                                        0  -0.70652603154632457420722562974792066862                                      -0.75   0.20384344839498724639142514342645843799
 0.70511712277882760181079385797948261057   0.70511712277882760181079385797948261057  -0.87777618587595407108464357252416911085   0.10578907087905457654220386143818487109
 0.70511712277882760181079385797948261057  -0.70511712277882760181079385797948261057  -0.87777618587595407108464357252416911085   0.10578907087905457654220386143818487109
-0.70511712277882760181079385797948261057   0.70511712277882760181079385797948261057  -0.87777618587595407108464357252416911085   0.10578907087905457654220386143818487109
-0.70511712277882760181079385797948261057  -0.70511712277882760181079385797948261057  -0.87777618587595407108464357252416911085   0.10578907087905457654220386143818487109
 0.43288286410354097685000790909815143591   0.43288286410354097685000790909815143591  -0.15279732576055038842025517341026975071   0.15934280057233240536079894703404722173
 0.43288286410354097685000790909815143591  -0.43288286410354097685000790909815143591  -0.15279732576055038842025517341026975071   0.15934280057233240536079894703404722173
-0.43288286410354097685000790909815143591   0.43288286410354097685000790909815143591  -0.15279732576055038842025517341026975071   0.15934280057233240536079894703404722173
-0.43288286410354097685000790909815143591  -0.43288286410354097685000790909815143591  -0.15279732576055038842025517341026975071   0.15934280057233240536079894703404722173
" |}.
Definition pyr_6_24 : entry := {| en_is_file := true; en_stem := "6-24"; en_extension := Some "txt"; en_text := "                                        0                                          0   0.61529159538791884731954955103613269638  0.067901049767045421348323914977088073991
                                        0                                          0  -0.99647238229436073479434618269377000101  0.042809368467176804517723726702995063594
                                        0                                          0  -0.72347438707253884945296925394581802655   0.31887881187339684620076177026181758884
                                        0                                          0  -0.15715217612872593659809486760257994179   0.27482845386440493216991697942238502071
 0.83459535111470834854355609376418165506                                          0  -0.80510531794907605316224881154681003606   0.09853490116354529166000184266852321827
                                        0   0.83459535111470834854355609376418165506  -0.80510531794907605316224881154681003606   0.09853490116354529166000184266852321827
-0.83459535111470834854355609376418165506                                          0  -0.80510531794907605316224881154681003606   0.09853490116354529166000184266852321827
                                        0  -0.83459535111470834854355609376418165506  -0.80510531794907605316224881154681003606   0.09853490116354529166000184266852321827
  0.4339254093766990953588290760534534212                                          0   0.13214918124660180928234184789309315759  0.084233545301795354894729459206933067324
                                        0    0.4339254093766990953588290760534534212   0.13214918124660180928234184789309315759  0.084233545301795354894729459206933067324
 -0.4339254093766990953588290760534534212                                          0   0.13214918124660180928234184789309315759  0.084233545301795354894729459206933067324
                                        0   -0.4339254093766990953588290760534534212   0.13214918124660180928234184789309315759  0.084233545301795354894729459206933067324
   0.565680854425675497672813848515505886     0.565680854425675497672813848515505886  -0.94104453830855858213371584535608020131  0.099200345038528745418340651788127467643
   0.565680854425675497672813848515505886    -0.565680854425675497672813848515505886  -0.94104453830855858213371584535608020131  0.099200345038528745418340651788127467643
  -0.565680854425675497672813848515505886     0.565680854425675497672813848515505886  -0.94104453830855858213371584535608020131  0.099200345038528745418340651788127467643
  -0.565680854425675497672813848515505886    -0.565680854425675497672813848515505886  -0.94104453830855858213371584535608020131  0.099200345038528745418340651788127467643
 0.49807909178070594245642503041316019049   0.49807909178070594245642503041316019049  -0.47016827357574098280216051103358470857   0.19701969247180494546144986676345270691
 0.49807909178070594245642503041316019049  -0.49807909178070594245642503041316019049  -0.47016827357574098280216051103358470857   0.19701969247180494546144986676345270691
-0.49807909178070594245642503041316019049   0.49807909178070594245642503041316019049  -0.47016827357574098280216051103358470857   0.19701969247180494546144986676345270691
-0.49807909178070594245642503041316019049  -0.49807909178070594245642503041316019049  -0.47016827357574098280216051103358470857   0.19701969247180494546144986676345270691
 0.95089948721448243656573347456644144515   0.95089948721448243656573347456644144515  -0.90350185873612803037779492533363294921  0.011573761697986328172963248398558769736
 0.95089948721448243656573347456644144515  -0.95089948721448243656573347456644144515  -0.90350185873612803037779492533363294921  0.011573761697986328172963248398558769736
-0.95089948721448243656573347456644144515   0.95089948721448243656573347456644144515  -0.90350185873612803037779492533363294921  0.011573761697986328172963248398558769736
-0.95089948721448243656573347456644144515  -0.95089948721448243656573347456644144515  -0.90350185873612803037779492533363294921  0.011573761697986328172963248398558769736
" |}.
Definition pyr_7_31 : entry := {| en_is_file := true; en_stem := "7-31"; en_extension := Some "txt"; en_text := "                                        0                                          0  -0.99990903958359448324157651569821071245  0.066668205424525275886791453990965274088
                                        0                                          0  -0.21283424648469159495743047454829830674   0.26808048719971487350508383578016326765
                                        0                                          0   0.67736556563370307561404794332413479832  0.041885798472046210460725670120584684749
 0.86409875978771469746212899147839955436                                          0  -0.86666666666666666666666666666666666667  0.071178024781341107871720116618075801749
                                        0   0.86409875978771469746212899147839955436  -0.86666666666666666666666666666666666667  0.071178024781341107871720116618075801749
-0.86409875978771469746212899147839955436                                          0  -0.86666666666666666666666666666666666667  0.071178024781341107871720116618075801749
                                        0  -0.86409875978771469746212899147839955436  -0.86666666666666666666666666666666666667  0.071178024781341107871720116618075801749
 0.61721339984836764104437785105599968169                                          0  -0.33333333333333333333333333333333333333                                  0.0765625
                                        0   0.61721339984836764104437785105599968169  -0.33333333333333333333333333333333333333                                  0.0765625
-0.61721339984836764104437785105599968169                                          0  -0.33333333333333333333333333333333333333                                  0.0765625
                                        0  -0.61721339984836764104437785105599968169  -0.33333333333333333333333333333333333333                                  0.0765625
 0.35415238086811614472192282023591880504   0.35415238086811614472192282023591880504  -0.74142718092090097274899859132692797362   0.17589383239993943496133030969806235827
 0.35415238086811614472192282023591880504  -0.35415238086811614472192282023591880504  -0.74142718092090097274899859132692797362   0.17589383239993943496133030969806235827
-0.35415238086811614472192282023591880504   0.35415238086811614472192282023591880504  -0.74142718092090097274899859132692797362   0.17589383239993943496133030969806235827
-0.35415238086811614472192282023591880504  -0.35415238086811614472192282023591880504  -0.74142718092090097274899859132692797362   0.17589383239993943496133030969806235827
 0.80272585010008780509805139967826527905   0.80272585010008780509805139967826527905   -0.8397229396404438938817746892937556123  0.039429701216628418845191891303832420129
 0.80272585010008780509805139967826527905  -0.80272585010008780509805139967826527905   -0.8397229396404438938817746892937556123  0.039429701216628418845191891303832420129
-0.80272585010008780509805139967826527905   0.80272585010008780509805139967826527905   -0.8397229396404438938817746892937556123  0.039429701216628418845191891303832420129
-0.80272585010008780509805139967826527905  -0.80272585010008780509805139967826527905   -0.8397229396404438938817746892937556123  0.039429701216628418845191891303832420129
 0.25413534686185723866998548790851960044   0.25413534686185723866998548790851960044   0.21103986022119982736889633047207386205  0.078717625851263666944851563183733367932
 0.25413534686185723866998548790851960044  -0.25413534686185723866998548790851960044   0.21103986022119982736889633047207386205  0.078717625851263666944851563183733367932
-0.25413534686185723866998548790851960044   0.25413534686185723866998548790851960044   0.21103986022119982736889633047207386205  0.078717625851263666944851563183733367932
-0.25413534686185723866998548790851960044  -0.25413534686185723866998548790851960044   0.21103986022119982736889633047207386205  0.078717625851263666944851563183733367932
 0.61430510772078528251050043488178085003   0.61430510772078528251050043488178085003  -0.99999999982048339801908931464259502541  0.035476919918997616432307229513622918413
 0.61430510772078528251050043488178085003  -0.61430510772078528251050043488178085003  -0.99999999982048339801908931464259502541  0.035476919918997616432307229513622918413
-0.61430510772078528251050043488178085003   0.61430510772078528251050043488178085003  -0.99999999982048339801908931464259502541  0.035476919918997616432307229513622918413
-0.61430510772078528251050043488178085003  -0.61430510772078528251050043488178085003  -0.99999999982048339801908931464259502541  0.035476919918997616432307229513622918413
 0.52483269825437554768220460074528261831   0.52483269825437554768220460074528261831  -0.41891384901080493632836824125506837378  0.095249439724424831648115316376411493553
 0.52483269825437554768220460074528261831  -0.52483269825437554768220460074528261831  -0.41891384901080493632836824125506837378  0.095249439724424831648115316376411493553
-0.52483269825437554768220460074528261831   0.52483269825437554768220460074528261831  -0.41891384901080493632836824125506837378  0.095249439724424831648115316376411493553
-0.52483269825437554768220460074528261831  -0.52483269825437554768220460074528261831  -0.41891384901080493632836824125506837378  0.095249439724424831648115316376411493553
" |}.
Definition pyr_files : list entry := [pyr_1_1; pyr_2_5; pyr_3_6; pyr_4_10; pyr_5_15; pyr_6_24; pyr_7_31].
