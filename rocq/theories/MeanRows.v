(** * The mean of [2^-register] on a grid, and its slope *)
From Coq Require Import NArith ZArith Reals List Bool Lia Lra.
From Verif Require Import HarmonicNum HarmonicMean MeanTable.
Import ListNotations.

Local Open Scope Z_scope.
(** The grid for the slope: [n/m = i/2^18] from 0.539 to 6.07. *)
Definition turns : list Z := [
  141248; 141696; 142144; 142592; 143104; 143616; 144128; 144704; 145280; 145920; 146560; 147264; 147968; 148672;
  149440; 150208; 151040; 151936; 152832; 153792; 154816; 155840; 156928; 158080; 159232; 160448; 161728; 163072;
  164480; 165888; 167360; 168896; 170496; 172160; 173888; 175680; 177536; 179456; 181440; 183552; 185728; 187968;
  190272; 192704; 195200; 197760; 200384; 203136; 205952; 208832; 211840; 214912; 218048; 221312; 224640; 228032;
  231488; 235072; 238720; 242432; 246208; 250048; 253952; 257984; 262080; 266176; 270336; 274560; 278848; 283136;
  287488; 291840; 296192; 300608; 305024; 309440; 313856; 318272; 322688; 327104; 331456; 335808; 340096; 344320;
  348480; 352640; 356736; 360768; 364736; 368576; 372352; 376064; 379712; 383232; 386688; 390080; 393344; 396480;
  399680; 403136; 406976; 411136; 415744; 420800; 426304; 432320; 438912; 446144; 454016; 462592; 471936; 482112;
  493184; 505280; 518400; 532608; 548032; 564736; 582784; 602240; 623232; 645824; 670080; 696064; 723840; 753536;
  782144; 808832; 833856; 857472; 879936; 901312; 921792; 941440; 960384; 978752; 996544; 1013888; 1030784; 1047296;
  1063488; 1079360; 1094976; 1110336; 1125504; 1140480; 1155264; 1169920; 1184448; 1198912; 1213248; 1227520;
  1241728; 1255936; 1270080; 1284224; 1298368; 1312512; 1326656; 1340800; 1355008; 1369216; 1383488; 1397824;
  1412224; 1426624; 1441152; 1455744; 1470400; 1485120; 1499968; 1514880; 1529920; 1545024; 1560256; 1575552;
  1590976; 1606528].

(** The standard deviation of [2^-register] is at most [c_q / 102400] times the mean up to [j/2^18]. *)
Definition c_q (j : Z) : Z := Z.min (22886 + 55 * (j / 256)) 108544.
Definition c_next (j : Z) : Z := j + (j / 1024 + 1).

(** Between [i] and [j] the mean falls by at least [q/10] of itself when [n] grows by 17.25%. *)
Definition turn_test (a x b c q : Z) : bool :=
  (0 <? a) && (0 <=? x) && (b * 1024000 <=? a * (1024000 - q)) &&
  (c * 2 ^ 60 * 102400 ^ 2 <=? (102400 ^ 2 + q ^ 2) * a ^ 2).
Definition turn_ok (i j : Z) : bool :=
  turn_test (a_lo (c_next j)) (x_lo (c_next j)) (a_up (i * 469 / 400)) (a2_up i) (c_q j).

Fixpoint all_pairs {A : Type} (f : A -> A -> bool) (l : list A) : bool :=
  match l with a :: ((b :: _) as t) => if f a b then all_pairs f t else false | _ => true end.

(** The grid for the tables, from 0.444 to 5.06: [(i, A0, A1)] with the mean between [A0/2^36] and [A1/2^36]. *)
Definition rows : list (Z * Z * Z) := [
  (116352,51771487142,51772011431); (117376,51648525912,51649050201); (118400,51525960560,51526484849);
  (119424,51403789670,51404313960); (120448,51282011832,51282536122); (121472,51160625641,51161149930);
  (122560,51032080373,51032604663); (123648,50903973984,50904498273); (124736,50776304806,50776829095);
  (125824,50649071179,50649595469); (126912,50522271451,50522795740); (128000,50395903974,50396428264);
  (129152,50262572433,50263096722); (130304,50129721715,50130246004); (131456,49997349888,49997874178);
  (132608,49865455031,49865979320); (133760,49734035228,49734559518); (134912,49603088574,49603612863);
  (136064,49472613168,49473137458); (137216,49342607122,49343131411); (138432,49205885634,49206409923);
  (139648,49069682802,49070207091); (140864,48933996432,48934520721); (142080,48798824338,48799348627);
  (143296,48664164345,48664688635); (144512,48530014288,48530538577); (145792,48389352231,48389876520);
  (147072,48249250307,48249774596); (148352,48109706024,48110230314); (149632,47970716903,47971241192);
  (150912,47832280474,47832804763); (152256,47687514371,47688038660); (153600,47543352072,47543876361);
  (154944,47399790760,47400315050); (156288,47256827633,47257351923); (157632,47114459902,47114984191);
  (158976,46972684789,46973209078); (160384,46824791093,46825315382); (161792,46677541608,46678065897);
  (163200,46530933192,46531457481); (164608,46384962717,46385487006); (166080,46233035938,46233560228);
  (167552,46081799476,46082323765); (168960,45937781216,45938305505); (170368,45794388267,45794912557);
  (171776,45651617585,45652141874); (173248,45503019370,45503543660); (174720,45355094519,45355618808);
  (176192,45207839602,45208363891); (177728,45054892870,45055417159); (179264,44902668031,44903192320);
  (180864,44744863999,44745388289); (182464,44587834812,44588359101); (184064,44431576188,44432100477);
  (185664,44276083873,44276608162); (187264,44121353636,44121877926); (188928,43961238084,43961762373);
  (190592,43801937544,43802461834); (192256,43643447344,43643971634); (193920,43485762837,43486287127);
  (195584,43328879405,43329403695); (197312,43166804958,43167329248); (199040,43005584334,43006108623);
  (200768,42845212455,42845736745); (202560,42679791965,42680316254); (204352,42515273238,42515797528);
  (206144,42351650722,42352175011); (207936,42188918897,42189443187); (209664,42032837337,42033361627);
  (211456,41871839157,41872363447); (213312,41706012927,41706537217); (215168,41541118850,41541643140);
  (217024,41377150992,41377675282); (218944,41208497474,41209021764); (220864,41040822366,41041346656);
  (222720,40879660412,40880184702); (224640,40713890779,40714415069); (226624,40543603372,40544127661);
  (228608,40374333488,40374857778); (230592,40206074223,40206598512); (232640,40033440017,40033964307);
  (234688,39861867894,39862392184); (236736,39691350423,39691874713); (238784,39521880229,39522404519);
  (240896,39348203225,39348727515); (243008,39175624222,39176148512); (245184,38998955615,38999479905);
  (247360,38823435587,38823959877); (249536,38649055627,38649579917); (251712,38475807286,38476331576);
  (253952,38298636599,38299160889); (256192,38122647126,38123171416); (258496,37942852227,37943376518);
  (260800,37764287777,37764812067); (263104,37586944146,37587468437); (265408,37410811786,37411336076);
  (267776,37231039108,37231563398); (270144,37052525729,37053050019); (272512,36875261542,36875785832);
  (274816,36703977750,36704502041); (277184,36529148873,36529673163); (279616,36350864335,36351388625);
  (282112,36169214689,36169738980); (284608,35988897620,35989421911); (287104,35809901890,35810426180);
  (289600,35632216362,35632740652); (292160,35451324256,35451848546); (294720,35271786992,35272311283);
  (297344,35089155135,35089679426); (299968,34907921951,34908446242); (302656,34723705791,34724230081);
  (305344,34540931241,34541455532); (308032,34359585272,34360109563); (310720,34179654979,34180179270);
  (313408,34001127582,34001651873); (316160,33819789713,33820314004); (318848,33644062908,33644587198);
  (321536,33469701096,33470225386); (324352,33288486988,33289011279); (327168,33108743482,33109267773);
  (329856,32938529260,32939053551); (332672,32761620238,32762144529); (335616,32578198732,32578723023);
  (338560,32396324896,32396849187); (341568,32212079974,32212604265); (344512,32033288861,32033813152);
  (347456,31855999974,31856524265); (350464,31676393230,31676917522); (353472,31498323829,31498848120);
  (356544,31318036494,31318560786); (359616,31139320388,31139844679); (362752,30958485062,30959009353);
  (365888,30779253567,30779777859); (368960,30605218877,30605743168); (372032,30432691736,30433216028);
  (375168,30258109354,30258633646); (378432,30078035360,30078559651); (381696,29899610514,29900134806);
  (385024,29719366704,29719890995); (388352,29540800273,29541324565); (391680,29363892833,29364417124);
  (395008,29188626209,29189150501); (398400,29011658928,29012183220); (401728,28839650970,28840175261);
  (404992,28672492710,28673017002); (408384,28500379438,28500903730); (411840,28326677654,28327201946);
  (415360,28151460906,28151985198); (418944,27974802555,27975326847); (422592,27796775717,27797300009);
  (426176,27623606298,27624130591); (429824,27449088803,27449613095); (433408,27279326523,27279850816);
  (437120,27105249809,27105774101); (440896,26929975326,26930499619); (444736,26753572694,26754096987);
  (448640,26576111092,26576635385); (452608,26397659217,26398183509); (456640,26218285231,26218809523);
  (460672,26040857479,26041381772); (464640,25868121578,25868645871); (468736,25691739703,25692263996);
  (472832,25517289008,25517813301); (476864,25347425533,25347949826); (480960,25176732026,25177256319);
  (485120,25005271345,25005795638); (489280,24835699905,24836224198); (493504,24665426858,24665951151);
  (497792,24494513010,24495037304); (502080,24325526219,24326050513); (506432,24155960575,24156484868);
  (510848,23985874713,23986399007); (515264,23817748871,23818273164); (519680,23651555559,23652079852);
  (524032,23489635212,23490159506); (528576,23322518599,23323042893); (533184,23155050843,23155575136);
  (537536,22998712201,22999236495); (542208,22832823356,22833347649); (546752,22673384133,22673908427);
  (551296,22515796089,22516320383); (556032,22353491050,22354015344); (560832,22190985132,22191509426);
  (565632,22030455021,22030979315); (570496,21869769645,21870293939); (575488,21706901899,21707426193);
  (580608,21541977758,21542502052); (585664,21381188519,21381712814); (590656,21224424227,21224948521);
  (595712,21067633852,21068158146); (600832,20910861393,20911385688); (606016,20754149971,20754674266);
  (611200,20599439445,20599963739); (616448,20444824382,20445348677); (621632,20294044220,20294568515);
  (626624,20150650738,20151175033); (632000,19998173108,19998697403); (637568,19842342950,19842867245);
  (642816,19697386215,19697910510); (648320,19547324655,19547848950); (654080,19392403157,19392927452);
  (659776,19241298365,19241822660); (665600,19088914878,19089439173); (671488,18936994637,18937518933);
  (677440,18785569045,18786093340); (683392,18636262606,18636786902); (689024,18496900549,18497424845);
  (695104,18348508583,18349032878); (701056,18205271782,18205796078); (707200,18059484260,18060008556);
  (712960,17924684379,17925208676); (718912,17787264746,17787789043); (724864,17651716282,17652240578);
  (731200,17509442066,17509966363); (737600,17367806115,17368330412); (744064,17226831294,17227355590);
  (750656,17085174385,17085698682); (757248,16945606988,16946131284); (763840,16808089062,16808613359);
  (770560,16669969866,16670494163); (777280,16533899225,16534423522); (784192,16396036252,16396560549);
  (791104,16260256377,16260780674); (798080,16125289442,16125813739); (805056,15992360892,15992885190);
  (812096,15860238155,15860762452); (819136,15730109459,15730633757); (826240,15600778692,15601302990);
  (833472,15471120531,15471644829); (840768,15342321108,15342845406); (848128,15214391696,15214915994);
  (855424,15089516626,15090040924); (862784,14965465074,14965989372); (870400,14839085901,14839610199);
  (878016,14714685824,14715210123); (885568,14593244449,14593768748); (893312,14470652617,14471176916);
  (901184,14348002253,14348526552); (908864,14230214812,14230739110); (916096,14120953197,14121477496);
  (924032,14002864586,14003388885); (932096,13884769942,13885294241); (940160,13768547889,13769072188);
  (948352,13652356885,13652881184); (956544,13538015454,13538539753); (964928,13422867310,13423391609);
  (973312,13309572379,13310096679); (981696,13198089789,13198614089); (990400,13084226919,13084751219);
  (999104,12972231122,12972755422); (1007616,12864471059,12864995359); (1016128,12758417845,12758942145);
  (1025024,12649363804,12649888104); (1034112,12539795807,12540320107); (1043264,12431291936,12431816236);
  (1052480,12323847620,12324371920); (1061760,12217457977,12217982278); (1070528,12118560436,12119084736);
  (1079104,12023319578,12023843879); (1088064,11925354866,11925879167); (1097152,11827563585,11828087886);
  (1106816,11725272560,11725796861); (1116352,11626012547,11626536848); (1124864,11538786013,11539310315);
  (1134336,11443212243,11443736544); (1143616,11351064830,11351589132); (1153600,11253534802,11254059103);
  (1163776,11155804008,11156328310); (1173696,11062120573,11062644875); (1184000,10966431659,10966955961);
  (1194112,10874093494,10874617796); (1204736,10778712483,10779236786); (1215104,10687203826,10687728128);
  (1225728,10595009352,10595533654); (1236480,10503286492,10503810795); (1247040,10414713417,10415237720);
  (1257024,10332316912,10332841214); (1267648,10246040968,10246565270); (1278208,10161684317,10162208620);
  (1289152,10075697419,10076221722); (1300288,9989667507,9990191810); (1311744,9902670193,9903194496);
  (1323328,9816213979,9816738283); (1335040,9730310472,9730834775)].

Definition row_ok (r : Z * Z * Z) : bool :=
  let '(i, a0, a1) := r in
  (0 <? i) && (0 <? a0) && (0 <=? x_lo i) && (a0 * 2 ^ 41 <=? a_lo i) && (a_up i <=? a1 * 2 ^ 41).

Lemma turns_run : all_pairs turn_ok turns = true.
Proof. vm_cast_no_check (eq_refl true). Qed.
Lemma rows_run : forallb row_ok rows = true.
Proof. vm_cast_no_check (eq_refl true). Qed.
