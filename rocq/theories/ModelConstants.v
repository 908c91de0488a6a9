(** * /repo/src/constants.rs: the empirical tables (generated from the source text).

    The entry [d n k] is the decimal literal n * 10^-k exactly as written in the source (a
    trailing ".0" is dropped), converted to f64 by [lit]. *)
From Coq Require Import NArith ZArith List.
From Verif Require Import ModelF64.
Import ListNotations.
Local Open Scope Z_scope.

Local Notation d n k := ((n, k%N) : Z * N) (only parsing).
Definition decimals (l : list (Z * N)) : list f64 := map (fun nk => lit (fst nk) (snd nk)) l.

(** constants.rs:4-15: raw estimates, precision 4, 79 entries. *)
Definition raw_dec_4 : list (Z * N) := [
  d 11 0; d 11717 3; d 12207 3; d 127896 4; d 132882 4; d 138204 4;
  d 143772 4; d 149342 4; d 155202 4; d 16161 3; d 167722 4; d 174636 4;
  d 180396 4; d 186766 4; d 193566 4; d 200454 4; d 207936 4; d 214856 4;
  d 222666 4; d 229946 4; d 23766 3; d 244692 4; d 253638 4; d 260764 4;
  d 267864 4; d 277602 4; d 284814 4; d 29433 3; d 302926 4; d 310664 4;
  d 319996 4; d 327956 4; d 335366 4; d 345894 4; d 355738 4; d 362698 4;
  d 373682 4; d 380544 4; d 392342 4; d 400108 4; d 407966 4; d 419298 4;
  d 428704 4; d 436358 4; d 445194 4; d 45773 3; d 466772 4; d 476174 4;
  d 484888 4; d 493304 4; d 502506 4; d 514996 4; d 523824 4; d 533078 4;
  d 543984 4; d 555838 4; d 566618 4; d 572174 4; d 583514 4; d 590802 4;
  d 601482 4; d 610376 4; d 623598 4; d 628078 4; d 639744 4; d 64914 3;
  d 65781 3; d 671806 4; d 680594 4; d 688446 4; d 697928 4; d 708248 4;
  d 718324 4; d 728598 4; d 736246 4; d 747014 4; d 75393 3; d 766708 4;
  d 772394 4
].

(** constants.rs:17-39: raw estimates, precision 5, 159 entries. *)
Definition raw_dec_5 : list (Z * N) := [
  d 23 0; d 231194 4; d 238208 4; d 242318 4; d 2477 2; d 252436 4;
  d 257774 4; d 262848 4; d 268224 4; d 273742 4; d 279336 4; d 28503 3;
  d 290494 4; d 296292 4; d 302124 4; d 30798 3; d 31367 3; d 319728 4;
  d 325944 4; d 33217 3; d 338438 4; d 343696 4; d 350956 4; d 357044 4;
  d 36324 3; d 370668 4; d 376698 4; d 383644 4; d 39049 3; d 396918 4;
  d 404146 4; d 41082 3; d 41687 3; d 425398 4; d 432462 4; d 43857 3;
  d 446606 4; d 454168 4; d 461248 4; d 469222 4; d 476804 4; d 48447 3;
  d 493454 4; d 499594 4; d 507636 4; d 515776 4; d 52331 3; d 5319 2;
  d 539676 4; d 547564 4; d 555314 4; d 564442 4; d 573708 4; d 579774 4;
  d 589624 4; d 598796 4; d 60755 3; d 61472 3; d 622076 4; d 631024 4;
  d 638908 4; d 647338 4; d 657728 4; d 66629 3; d 67413 3; d 683266 4;
  d 691524 4; d 702642 4; d 711806 4; d 720566 4; d 729192 4; d 737598 4;
  d 743516 4; d 755802 4; d 764386 4; d 774916 4; d 781524 4; d 791892 4;
  d 798414 4; d 808798 4; d 818376 4; d 824698 4; d 837656 4; d 84331 3;
  d 855914 4; d 866012 4; d 877016 4; d 885582 4; d 893394 4; d 903544 4;
  d 914912 4; d 92308 3; d 933552 4; d 939746 4; d 952052 4; d 95727 3;
  d 971322 4; d 983944 4; d 987588 4; d 100242 3; d 1011914 4; d 1022538 4;
  d 1028776 4; d 1036292 4; d 1051932 4; d 1059152 4; d 1070868 4; d 1076728 4;
  d 1087144 4; d 1103114 4; d 1108716 4; d 111245 3; d 1127908 4; d 1137064 4;
  d 114636 3; d 1157464 4; d 1161788 4; d 1177464 4; d 1184896 4; d 1196166 4;
  d 1205082 4; d 1217798 4; d 1229028 4; d 1234426 4; d 1248854 4; d 125705 3;
  d 1264652 4; d 1283464 4; d 1283462 4; d 1300398 4; d 1310342 4; d 1310042 4;
  d 1324766 4; d 133511 3; d 1347252 4; d 135425 3; d 1365172 4; d 1380572 4;
  d 1386694 4; d 1393712 4; d 1408598 4; d 1414594 4; d 142554 3; d 1434006 4;
  d 1447374 4; d 1461634 4; d 1468994 4; d 147605 3; d 1479304 4; d 1491636 4;
  d 1502468 4; d 1515876 4; d 1522096 4; d 1537032 4; d 1547146 4; d 155807 3;
  d 1569228 4; d 1570372 4; d 1585852 4
].

(** constants.rs:41-70: raw estimates, precision 6, 200 entries. *)
Definition raw_dec_6 : list (Z * N) := [
  d 46 0; d 461902 4; d 47271 3; d 478358 4; d 488142 4; d 492854 4;
  d 50317 3; d 51354 3; d 518924 4; d 529436 4; d 534596 4; d 545262 4;
  d 556248 4; d 561574 4; d 572822 4; d 57837 3; d 589636 4; d 60074 3;
  d 607042 4; d 617976 4; d 624772 4; d 636564 4; d 647942 4; d 655004 4;
  d 66686 3; d 67291 3; d 685672 4; d 698556 4; d 704982 4; d 718204 4;
  d 724252 4; d 737744 4; d 750786 4; d 758344 4; d 770294 4; d 778098 4;
  d 790794 4; d 805732 4; d 811878 4; d 825648 4; d 832902 4; d 846784 4;
  d 853352 4; d 868946 4; d 883712 4; d 890852 4; d 90499 3; d 912686 4;
  d 926844 4; d 942234 4; d 949732 4; d 963356 4; d 972286 4; d 987262 4;
  d 1003284 4; d 1011048 4; d 1025962 4; d 1033562 4; d 1051272 4; d 1064184 4;
  d 1074974 4; d 1090822 4; d 109856 3; d 11148 2; d 1132834 4; d 1140208 4;
  d 115637 3; d 1165174 4; d 1180576 4; d 1197476 4; d 120427 3; d 1221326 4;
  d 1232372 4; d 1252788 4; d 1266776 4; d 1277926 4; d 1291952 4; d 1299564 4;
  d 1316454 4; d 13387 2; d 1345428 4; d 1362 1; d 1370294 4; d 1386278 4;
  d 1396782 4; d 141792 3; d 1433516 4; d 1442832 4; d 1460394 4; d 1470748 4;
  d 1484912 4; d 150849 3; d 151696 3; d 1535404 4; d 154073 3; d 1563714 4;
  d 1577216 4; d 1587328 4; d 1604208 4; d 1614184 4; d 1639424 4; d 1652772 4;
  d 166411 3; d 1681308 4; d 168769 3; d 1709258 4; d 1726828 4; d 1737502 4;
  d 175706 3; d 1763886 4; d 1790186 4; d 1804518 4; d 181927 3; d 1834172 4;
  d 1844114 4; d 186033 3; d 1885124 4; d 1895564 4; d 1916008 4; d 1924172 4;
  d 1938044 4; d 194997 3; d 1974548 4; d 1988948 4; d 2002346 4; d 2023086 4;
  d 2031548 4; d 2048842 4; d 2066508 4; d 2066772 4; d 2097254 4; d 2104752 4;
  d 2127228 4; d 2146614 4; d 2151676 4; d 217793 3; d 2180006 4; d 2199052 4;
  d 22166 2; d 2235588 4; d 2251636 4; d 2256882 4; d 2277126 4; d 2294502 4;
  d 2311978 4; d 2329756 4; d 2331654 4; d 236727 3; d 2381974 4; d 2377474 4;
  d 2411346 4; d 2423048 4; d 2441948 4; d 2453134 4; d 246879 3; d 2491204 4;
  d 249853 3; d 2526792 4; d 253857 3; d 2544486 4; d 2572362 4; d 2579534 4;
  d 2600286 4; d 2605632 4; d 262663 3; d 264723 3; d 2657566 4; d 2672566 4;
  d 2671624 4; d 27062 2; d 2728216 4; d 2732166 4; d 2752056 4; d 2762202 4;
  d 2783726 4; d 2803344 4; d 2819284 4; d 2839728 4; d 2841924 4; d 2864872 4;
  d 287587 3; d 289807 3; d 2911206 4; d 292769 3; d 2948708 4; d 296665 3;
  d 2971182 4; d 2994012 4; d 3006352 4; d 3021354 4; d 3041756 4; d 3061606 4;
  d 3073462 4; d 3085214 4; d 3094134 4; d 3108352 4; d 3139684 4; d 315837 3;
  d 3167796 4; d 3189858 4
].

(** constants.rs:72-102: raw estimates, precision 7, 200 entries. *)
Definition raw_dec_7 : list (Z * N) := [
  d 92 0; d 934934 4; d 949758 4; d 964574 4; d 979718 4; d 994954 4;
  d 1015302 4; d 1030756 4; d 1046374 4; d 1061782 4; d 1077888 4; d 1099522 4;
  d 111592 3; d 1132532 4; d 1149086 4; d 1165938 4; d 1189474 4; d 1206796 4;
  d 1224394 4; d 1242176 4; d 1259768 4; d 1284214 4; d 1302528 4; d 1320102 4;
  d 1338658 4; d 1357278 4; d 1383044 4; d 1401316 4; d 142093 3; d 1440032 4;
  d 1459092 4; d 1486306 4; d 1505294 4; d 1525756 4; d 1546508 4; d 156662 3;
  d 159552 3; d 1613724 4; d 163617 3; d 1655754 4; d 1677872 4; d 1698444 4;
  d 1727988 4; d 1748606 4; d 1772118 4; d 1793566 4; d 1814476 4; d 1845882 4;
  d 1866816 4; d 1890824 4; d 1910258 4; d 1936048 4; d 1964436 4; d 1987274 4;
  d 200957 3; d 203147 3; d 2054364 4; d 2087592 4; d 2113386 4; d 213781 3;
  d 2158028 4; d 218656 3; d 2216544 4; d 223996 3; d 2264718 4; d 2291544 4;
  d 2316098 4; d 2345956 4; d 2370616 4; d 2395758 4; d 2424878 4; d 2445244 4;
  d 2482146 4; d 250724 3; d 2528722 4; d 2555198 4; d 2580414 4; d 261941 3;
  d 2649048 4; d 26687 2; d 2694304 4; d 272028 3; d 2744708 4; d 27837 2;
  d 2810624 4; d 2834668 4; d 2865532 4; d 2894352 4; d 2932564 4; d 2952744 4;
  d 2982118 4; d 3007472 4; d 3041456 4; d 3072928 4; d 3097504 4; d 3125528 4;
  d 315979 3; d 3182102 4; d 3221834 4; d 3243494 4; d 327325 3; d 3306614 4;
  d 332903 3; d 3372544 4; d 3399042 4; d 343215 3; d 3452864 4; d 3480814 4;
  d 3526764 4; d 355301 3; d 357139 3; d 360658 3; d 3631732 4; d 3665902 4;
  d 3699538 4; d 3730828 4; d 375922 3; d 3789902 4; d 3827328 4; d 3864538 4;
  d 3881136 4; d 3912234 4; d 3940878 4; d 396708 3; d 4011556 4; d 4041852 4;
  d 4066372 4; d 4096822 4; d 4127796 4; d 4166078 4; d 4184916 4; d 422131 3;
  d 4245376 4; d 4281988 4; d 432211 3; d 4344502 4; d 4385282 4; d 440912 3;
  d 4440448 4; d 4477432 4; d 4508524 4; d 4537988 4; d 4567858 4; d 4588868 4;
  d 4639886 4; d 4665064 4; d 4689124 4; d 4726616 4; d 4754682 4; d 478582 3;
  d 481304 3; d 4852738 4; d 4886894 4; d 490329 3; d 496106 3; d 4976908 4;
  d 5011374 4; d 5045322 4; d 5068848 4; d 5103324 4; d 5134512 4; d 516179 3;
  d 5204412 4; d 5226066 4; d 526167 3; d 5287794 4; d 533379 3; d 536067 3;
  d 53846 2; d 5429116 4; d 545692 3; d 5479546 4; d 552493 3; d 5552722 4;
  d 557335 3; d 562449 3; d 5642014 4; d 5690738 4; d 5710974 4; d 5748564 4;
  d 5782996 4; d 581409 3; d 5839704 4; d 5858098 4; d 5896528 4; d 5945998 4;
  d 595958 3; d 600068 3; d 6033278 4; d 6082016 4; d 6099632 4; d 612864 3;
  d 61543 2; d 6207794 4; d 621272 3; d 6258644 4; d 629206 3; d 633219 3;
  d 6345154 4; d 6386102 4
].

(** constants.rs:104-135: raw estimates, precision 8, 200 entries. *)
Definition raw_dec_8 : list (Z * N) := [
  d 1842152 4; d 1872454 4; d 1902096 4; d 1936652 4; d 1966312 4; d 1996822 4;
  d 203249 3; d 2063296 4; d 2100038 4; d 2132074 4; d 2164612 4; d 22027 2;
  d 2235178 4; d 2274412 4; d 2308032 4; d 2341634 4; d 2381688 4; d 2416074 4;
  d 2456946 4; d 2492664 4; d 2528228 4; d 2570432 4; d 2606824 4; d 2649464 4;
  d 2686268 4; d 2722626 4; d 2768376 4; d 2804034 4; d 2848956 4; d 2888522 4;
  d 2927638 4; d 2973552 4; d 3013556 4; d 3057526 4; d 3099292 4; d 3138954 4;
  d 3188198 4; d 3227668 4; d 327298 3; d 3316688 4; d 3359466 4; d 3409746 4;
  d 3451672 4; d 3493474 4; d 3543028 4; d 3588912 4; d 364114 3; d 3684646 4;
  d 3729744 4; d 3784092 4; d 3826022 4; d 387843 3; d 3925684 4; d 3971652 4;
  d 4025426 4; d 4074152 4; d 4125388 4; d 4173592 4; d 4221366 4; d 427486 3;
  d 4323918 4; d 4375076 4; d 442509 3; d 4473834 4; d 4533498 4; d 4580668 4;
  d 4637346 4; d 4691228 4; d 4734528 4; d 4797 1; d 484644 3; d 4910518 4;
  d 4955774 4; d 5009068 4; d 506432 3; d 5121666 4; d 517434 3; d 5226644 4;
  d 5274894 4; d 5336312 4; d 5383804 4; d 544292 3; d 5505496 4; d 5560234 4;
  d 5628206 4; d 5666146 4; d 5724188 4; d 579117 3; d 5836762 4; d 5906576 4;
  d 5957864 4; d 601509 3; d 6075334 4; d 6129204 4; d 619772 3; d 6242924 4;
  d 6308654 4; d 6361836 4; d 642745 3; d 6491316 4; d 6550386 4; d 6600136 4;
  d 6666342 4; d 6716196 4; d 6781866 4; d 6844282 4; d 6893324 4; d 6954794 4;
  d 7025038 4; d 708129 3; d 713528 3; d 7203204 4; d 726463 3; d 7327928 4;
  d 739123 3; d 7447418 4; d 7512192 4; d 7565102 4; d 7626066 4; d 7690184 4;
  d 7752224 4; d 7814014 4; d 7877618 4; d 7941436 4; d 7986506 4; d 8056378 4;
  d 811766 3; d 8197514 4; d 8245776 4; d 8287322 4; d 8378048 4; d 8436302 4;
  d 8499336 4; d 8544798 4; d 8613388 4; d 8679894 4; d 8738196 4; d 8803136 4;
  d 8862308 4; d 8924588 4; d 8990816 4; d 9054076 4; d 9120064 4; d 9173878 4;
  d 923619 3; d 929998 3; d 9373482 4; d 9439506 4; d 947991 3; d 9551144 4;
  d 962203 3; d 9688222 4; d 9757324 4; d 9817826 4; d 9887666 4; d 9942648 4;
  d 10003128 4; d 10074082 4; d 10137536 4; d 10203376 4; d 10267156 4; d 10317478 4;
  d 10374292 4; d 1045393 3; d 10512278 4; d 10583434 4; d 10628726 4; d 1071884 3;
  d 1076806 3; d 10829176 4; d 10891678 4; d 10955032 4; d 1102525 3; d 11072264 4;
  d 1115315 3; d 112093 2; d 1127252 3; d 11341496 4; d 11390408 4; d 11475448 4;
  d 11533296 4; d 11581974 4; d 11665262 4; d 11743328 4; d 1175657 3; d 11844222 4;
  d 11909172 4; d 11971292 4; d 12044606 4; d 12104578 4; d 12188728 4; d 12253336 4;
  d 12266592 4; d 12365768 4; d 1241363 3; d 12494074 4; d 12546566 4; d 12608014 4;
  d 12665454 4; d 12745192 4
].

(** constants.rs:137-170: raw estimates, precision 9, 201 entries. *)
Definition raw_dec_9 : list (Z * N) := [
  d 369 0; d 3748294 4; d 3812452 4; d 3876698 4; d 3941464 4; d 4002024 4;
  d 4068782 4; d 4136598 4; d 420462 3; d 4272826 4; d 4337102 4; d 4407416 4;
  d 4479366 4; d 4551046 4; d 462285 3; d 4690668 4; d 476306 3; d 4838448 4;
  d 491301 3; d 4989886 4; d 5062422 4; d 5138138 4; d 5217074 4; d 5297428 4;
  d 5378402 4; d 5451664 4; d 5533534 4; d 561594 3; d 5696886 4; d 5777876 4;
  d 58565 2; d 594228 3; d 6028036 4; d 6111666 4; d 6200818 4; d 6280824 4;
  d 6372574 4; d 646302 3; d 6551644 4; d 6640056 4; d 6723802 4; d 6817192 4;
  d 6905234 4; d 7002084 4; d 708831 3; d 718485 3; d 7281112 4; d 7374764 4;
  d 74676 2; d 7563368 4; d 7665538 4; d 7755058 4; d 7852646 4; d 7955902 4;
  d 8043818 4; d 8148998 4; d 8249532 4; d 8352062 4; d 8452798 4; d 8544728 4;
  d 8649582 4; d 8753292 4; d 886171 3; d 896781 3; d 9065716 4; d 9167048 4;
  d 9275322 4; d 937875 3; d 9493972 4; d 9583464 4; d 9697274 4; d 9802834 4;
  d 9921444 4; d 10034264 4; d 10130166 4; d 1024018 3; d 10350438 4; d 104634 2;
  d 10576856 4; d 10689836 4; d 10790312 4; d 1091677 3; d 11023188 4; d 11134846 4;
  d 11244424 4; d 1135739 3; d 11471488 4; d 11589202 4; d 1169406 3; d 11815342 4;
  d 11932834 4; d 12038954 4; d 12163286 4; d 12262146 4; d 12396684 4; d 12519946 4;
  d 1262123 3; d 12754338 4; d 12857378 4; d 1296076 3; d 13089692 4; d 13204964 4;
  d 13330998 4; d 13439864 4; d 13577754 4; d 13683208 4; d 13804838 4; d 13927388 4;
  d 14060758 4; d 14169098 4; d 14289728 4; d 14409228 4; d 14539292 4; d 1462617 3;
  d 147605 2; d 14902996 4; d 15006128 4; d 15137392 4; d 15245174 4; d 15366322 4;
  d 15482584 4; d 15623766 4; d 1572423 3; d 15871232 4; d 15965164 4; d 16105938 4;
  d 16225972 4; d 16331222 4; d 16477674 4; d 16585044 4; d 167157 2; d 16837044 4;
  d 16954142 4; d 17087102 4; d 17206094 4; d 17326522 4; d 1747841 3; d 17564072 4;
  d 17699786 4; d 17823276 4; d 17975216 4; d 18083186 4; d 18190694 4; d 1834354 3;
  d 1844575 3; d 18562808 4; d 18711288 4; d 18807852 4; d 18939622 4; d 19063418 4;
  d 19206548 4; d 19329302 4; d 19458584 4; d 1955473 3; d 19688248 4; d 19806446 4;
  d 19959598 4; d 2008349 3; d 20198556 4; d 20330334 4; d 20440206 4; d 20593956 4;
  d 20699174 4; d 20826084 4; d 20937036 4; d 21066108 4; d 21189124 4; d 2132301 3;
  d 21447628 4; d 21598422 4; d 21710212 4; d 2183101 3; d 21935112 4; d 2208052 3;
  d 22213194 4; d 22333282 4; d 2247295 3; d 22577222 4; d 2273342 3; d 22865638 4;
  d 22996786 4; d 23108114 4; d 23223312 4; d 2335516 3; d 2349874 3; d 23635968 4;
  d 2373865 3; d 23871918 4; d 24018328 4; d 24148496 4; d 2424544 3; d 24367592 4;
  d 24471682 4; d 24641958 4; d 24743438 4; d 24890006 4; d 24974526 4; d 25136586 4;
  d 252719 2; d 25407028 4; d 2553768 3
].

(** constants.rs:172-206: raw estimates, precision 10, 200 entries. *)
Definition raw_dec_10 : list (Z * N) := [
  d 7381256 4; d 7504234 4; d 7631064 4; d 7754732 4; d 7884636 4; d 8010644 4;
  d 814488 3; d 8279654 4; d 8410832 4; d 8547864 4; d 8681992 4; d 8822176 4;
  d 8965228 4; d 9101716 4; d 9247752 4; d 938899 3; d 9536126 4; d 9686492 4;
  d 9829474 4; d 9985214 4; d 10131064 4; d 10286364 4; d 10442468 4; d 10594588 4;
  d 10753832 4; d 10910584 4; d 11068606 4; d 11233868 4; d 11395062 4; d 11561862 4;
  d 1172463 3; d 1189339 3; d 12061936 4; d 12231292 4; d 12401854 4; d 12572908 4;
  d 12753324 4; d 12928518 4; d 13105204 4; d 13284854 4; d 13459318 4; d 1364552 3;
  d 13814658 4; d 14004256 4; d 1419849 3; d 1438152 3; d 14568956 4; d 14748792 4;
  d 1494118 3; d 151362 2; d 15325132 4; d 15519322 4; d 15707726 4; d 15906086 4;
  d 16105332 4; d 16305918 4; d 16504294 4; d 16697662 4; d 16904106 4; d 17107338 4;
  d 17309012 4; d 17504486 4; d 17701556 4; d 17916338 4; d 18127312 4; d 18336264 4;
  d 18539526 4; d 18748742 4; d 18968326 4; d 19181966 4; d 19395594 4; d 196107 2;
  d 1983037 3; d 20031804 4; d 2026071 3; d 20474884 4; d 20700848 4; d 20912944 4;
  d 2114333 3; d 21359626 4; d 21582902 4; d 21810814 4; d 22020334 4; d 22244832 4;
  d 224639 2; d 22697202 4; d 22921714 4; d 23142358 4; d 23389346 4; d 2360891 3;
  d 23840264 4; d 24083834 4; d 24301544 4; d 24548684 4; d 24769896 4; d 25014368 4;
  d 25228702 4; d 25480408 4; d 25706738 4; d 25935208 4; d 26170158 4; d 26402302 4;
  d 26640962 4; d 26874986 4; d 27142588 4; d 27353914 4; d 27596244 4; d 27818378 4;
  d 28080072 4; d 28306516 4; d 28562454 4; d 28772136 4; d 29034546 4; d 2926785 3;
  d 29512294 4; d 2976468 3; d 3000867 3; d 30236508 4; d 304991 2; d 30735984 4;
  d 3098162 3; d 31215564 4; d 31462328 4; d 31709484 4; d 31955902 4; d 32213346 4;
  d 32427032 4; d 32716112 4; d 32965546 4; d 33177376 4; d 3345072 3; d 33699518 4;
  d 3394326 3; d 34181818 4; d 34446926 4; d 3469086 3; d 34942754 4; d 35178698 4;
  d 3544248 3; d 35653768 4; d 35887234 4; d 3616979 3; d 36437504 4; d 36686812 4;
  d 369572 2; d 37197392 4; d 37426224 4; d 37704456 4; d 37956602 4; d 38199058 4;
  d 3844002 3; d 3869517 3; d 38956824 4; d 39208622 4; d 39471364 4; d 3973985 3;
  d 39954772 4; d 402162 2; d 4046628 3; d 407465 2; d 40962256 4; d 4121831 3;
  d 41466406 4; d 4173276 3; d 41950744 4; d 42239696 4; d 42513708 4; d 42729966 4;
  d 43008046 4; d 4326302 3; d 43531248 4; d 4374312 3; d 44030322 4; d 4426819 3;
  d 44500598 4; d 44785206 4; d 45048116 4; d 45288928 4; d 45539584 4; d 45788712 4;
  d 46038384 4; d 46323872 4; d 46555128 4; d 4675821 3; d 47046222 4; d 47319862 4;
  d 47554174 4; d 47812628 4; d 4804332 3; d 48323048 4; d 48628752 4; d 48834148 4;
  d 49069544 4; d 49353516 4; d 49543532 4; d 49840248 4; d 5011217 3; d 50353258 4;
  d 50573672 4; d 50841828 4
].

(** constants.rs:208-243: raw estimates, precision 11, 201 entries. *)
Definition raw_dec_11 : list (Z * N) := [
  d 1477 0; d 15016014 4; d 15265802 4; d 15517942 4; d 15773042 4; d 16032062 4;
  d 16298402 4; d 16562292 4; d 16829462 4; d 17099926 4; d 17373026 4; d 17654252 4;
  d 17930578 4; d 18216092 4; d 1849626 3; d 18785568 4; d 1908527 3; d 19375154 4;
  d 19671874 4; d 19973878 4; d 202737 2; d 20581972 4; d 20895728 4; d 21201012 4;
  d 21519668 4; d 2183292 3; d 22160772 4; d 22478578 4; d 22806562 4; d 2313041 3;
  d 2345714 3; d 23803112 4; d 24141806 4; d 24479854 4; d 2481656 3; d 2516346 3;
  d 25515154 4; d 25868378 4; d 26217448 4; d 26566722 4; d 26935722 4; d 27291462 4;
  d 27654124 4; d 28028728 4; d 2838898 3; d 2876408 3; d 29134926 4; d 29514938 4;
  d 29896776 4; d 3026282 3; d 30657704 4; d 31041012 4; d 31437388 4; d 31816876 4;
  d 32211872 4; d 32615048 4; d 33000214 4; d 3339806 3; d 3381409 3; d 34214144 4;
  d 34614294 4; d 35022286 4; d 3544651 3; d 35866156 4; d 3627337 3; d 3670083 3;
  d 37111538 4; d 37535094 4; d 379701 2; d 38386686 4; d 38821678 4; d 39228116 4;
  d 39679978 4; d 40099204 4; d 40543286 4; d 40975706 4; d 41406014 4; d 4185544 3;
  d 42295976 4; d 4274583 3; d 43169438 4; d 4361672 3; d 44062786 4; d 44518628 4;
  d 44961834 4; d 4543505 3; d 45891816 4; d 46325188 4; d 46782294 4; d 47248908 4;
  d 47690194 4; d 4817052 3; d 48614588 4; d 49101596 4; d 49564344 4; d 50025238 4;
  d 504813 2; d 50936374 4; d 51428162 4; d 51877894 4; d 52373984 4; d 52856078 4;
  d 53310858 4; d 53791036 4; d 54286258 4; d 54746018 4; d 55227618 4; d 55715822 4;
  d 561859 2; d 56679992 4; d 571488 2; d 5763454 3; d 58086982 4; d 58603644 4;
  d 59102914 4; d 5953571 3; d 60059232 4; d 60551914 4; d 61045882 4; d 61545702 4;
  d 61997036 4; d 62511764 4; d 62987596 4; d 63500302 4; d 6398061 3; d 64484694 4;
  d 6495933 3; d 65480474 4; d 65977166 4; d 66469416 4; d 66959208 4; d 67426328 4;
  d 67935276 4; d 68421934 4; d 68942372 4; d 69453864 4; d 69969228 4; d 70442372 4;
  d 70941374 4; d 71422272 4; d 71922942 4; d 72388338 4; d 72889006 4; d 73440908 4;
  d 73948544 4; d 74435176 4; d 74904148 4; d 75429314 4; d 75956738 4; d 76419878 4;
  d 76943688 4; d 77430448 4; d 7797522 3; d 784553 2; d 7899594 3; d 79503132 4;
  d 7996455 3; d 80509442 4; d 80929114 4; d 81531374 4; d 81974472 4; d 82528278 4;
  d 83018728 4; d 83486776 4; d 84014698 4; d 8453551 3; d 85046598 4; d 85538944 4;
  d 86041276 4; d 86576514 4; d 87103062 4; d 8758908 3; d 88078706 4; d 88621702 4;
  d 89104668 4; d 896077 2; d 90072766 4; d 9063164 3; d 91210534 4; d 91641354 4;
  d 92181594 4; d 9267767 3; d 93190594 4; d 9372155 3; d 94197126 4; d 94743722 4;
  d 95201338 4; d 9572368 3; d 96227702 4; d 96758448 4; d 97265396 4; d 97787378 4;
  d 98276554 4; d 98781922 4; d 99287782 4; d 99783984 4; d 10026578 3; d 100765626 4;
  d 101371618 4; d 101775244 4; d 102299176 4
].

(** constants.rs:245-280: raw estimates, precision 12, 201 entries. *)
Definition raw_dec_12 : list (Z * N) := [
  d 2954 0; d 30034782 4; d 30533568 4; d 31043666 4; d 3155324 3; d 32069598 4;
  d 3259648 3; d 3312539 3; d 33661474 4; d 34202576 4; d 34748376 4; d 35306076 4;
  d 3586451 3; d 364338 2; d 37004104 4; d 37575638 4; d 38159676 4; d 3875193 3;
  d 3934838 3; d 39948548 4; d 4055018 3; d 41171742 4; d 41784482 4; d 42411294 4;
  d 43044776 4; d 43674044 4; d 44318724 4; d 44963732 4; d 45614304 4; d 46275326 4;
  d 4693949 3; d 47615532 4; d 48287256 4; d 48976182 4; d 49655186 4; d 50344528 4;
  d 5104865 3; d 51747164 4; d 52446828 4; d 53166708 4; d 53878312 4; d 54599036 4;
  d 5532476 3; d 56048652 4; d 56796718 4; d 5753757 3; d 58302072 4; d 59052828 4;
  d 59800434 4; d 60566264 4; d 61343192 4; d 62115746 4; d 62900816 4; d 63671176 4;
  d 64479796 4; d 65265576 4; d 66061858 4; d 66869144 4; d 67661142 4; d 68470818 4;
  d 69279664 4; d 70109096 4; d 70910816 4; d 71753962 4; d 72603454 4; d 7344018 3;
  d 74264214 4; d 75113106 4; d 75960686 4; d 76798094 4; d 7765818 3; d 78524248 4;
  d 7936834 3; d 8022363 3; d 81095066 4; d 82004554 4; d 82885832 4; d 8373366 3;
  d 84634808 4; d 85497682 4; d 86420522 4; d 87283288 4; d 88209528 4; d 8907727 3;
  d 90010794 4; d 90912522 4; d 9179988 3; d 9269852 3; d 93626394 4; d 9453642 3;
  d 95469024 4; d 96406616 4; d 97326622 4; d 98243254 4; d 99177484 4; d 100079392 4;
  d 101067508 4; d 101962152 4; d 102898114 4; d 103835494 4; d 104823064 4; d 105768734 4;
  d 106687872 4; d 107647156 4; d 108620196 4; d 10952793 3; d 110499748 4; d 111460702 4;
  d 112414492 4; d 113392772 4; d 114342336 4; d 11530741 3; d 116276136 4; d 11726311 3;
  d 118215964 4; d 11918837 3; d 120153724 4; d 121130162 4; d 122130424 4; d 123069804 4;
  d 124084518 4; d 125048968 4; d 12604586 3; d 127009332 4; d 12798705 3; d 128985142 4;
  d 129970488 4; d 13094788 3; d 13198475 3; d 132927764 4; d 133929698 4; d 134868574 4;
  d 135901616 4; d 136865838 4; d 137836264 4; d 138872638 4; d 139920978 4; d 140810844 4;
  d 141899956 4; d 142800912 4; d 143824956 4; d 144864384 4; d 145881082 4; d 146862392 4;
  d 14782276 3; d 148880284 4; d 149851864 4; d 150888596 4; d 151870998 4; d 15285027 3;
  d 153836694 4; d 154958266 4; d 155913736 4; d 156942008 4; d 157903246 4; d 158984116 4;
  d 159974522 4; d 160955014 4; d 161988514 4; d 162917492 4; d 164026424 4; d 164991266 4;
  d 166062436 4; d 166977186 4; d 167963946 4; d 169023376 4; d 170057672 4; d 17100814 3;
  d 172068282 4; d 173058262 4; d 174160744 4; d 175084092 4; d 176170178 4; d 177154554 4;
  d 17816758 3; d 179201748 4; d 180129236 4; d 181197984 4; d 182232248 4; d 183242482 4;
  d 184266276 4; d 185250932 4; d 186298976 4; d 187332588 4; d 188310466 4; d 189401366 4;
  d 190322696 4; d 19131729 3; d 192434864 4; d 193496932 4; d 19442866 3; d 195479448 4;
  d 196532798 4; d 197544034 4; d 198540692 4; d 199651224 4; d 200651774 4; d 201582212 4;
  d 20253353 3; d 203663264 4; d 2046322 2
].

(** constants.rs:282-317: raw estimates, precision 13, 200 entries. *)
Definition raw_dec_13 : list (Z * N) := [
  d 59085052 4; d 60072672 4; d 6107347 3; d 62085794 4; d 63112622 4; d 64145514 4;
  d 65193376 4; d 66256952 4; d 67325988 4; d 68413552 4; d 69505972 4; d 70613082 4;
  d 71735646 4; d 7287109 3; d 74018216 4; d 75164344 4; d 76333802 4; d 77512962 4;
  d 78703784 4; d 7990292 3; d 811079 2; d 82334574 4; d 83566036 4; d 84822712 4;
  d 86077708 4; d 8735099 3; d 88631858 4; d 89934746 4; d 91238496 4; d 92556794 4;
  d 93885448 4; d 95227516 4; d 96573106 4; d 97926094 4; d 99305642 4; d 10068794 3;
  d 102067256 4; d 1034781 2; d 104903196 4; d 106320778 4; d 107759916 4; d 109204662 4;
  d 11066124 3; d 11213073 3; d 113580362 4; d 115081006 4; d 116591716 4; d 118087514 4;
  d 119594884 4; d 121121314 4; d 12265037 3; d 124203756 4; d 12578933 3; d 12734311 3;
  d 128900006 4; d 130472144 4; d 132073096 4; d 133685144 4; d 13528024 3; d 13689847 3;
  d 138527528 4; d 140183168 4; d 141805372 4; d 143469668 4; d 145135074 4; d 14677867 3;
  d 148462186 4; d 150174186 4; d 151849716 4; d 15356339 3; d 155292972 4; d 156973578 4;
  d 158718686 4; d 16042187 3; d 162164094 4; d 163894188 4; d 165659126 4; d 167423272 4;
  d 169190042 4; d 170947592 4; d 17273965 3; d 174518342 4; d 176344254 4; d 178105984 4;
  d 179889242 4; d 18171051 3; d 183547938 4; d 18539466 3; d 187210408 4; d 189049972 4;
  d 19081867 3; d 192719118 4; d 194518694 4; d 196379816 4; d 198212922 4; d 200131292 4;
  d 201993858 4; d 203878726 4; d 205729514 4; d 207707764 4; d 209551714 4; d 21144751 3;
  d 213299952 4; d 21520709 3; d 217127016 4; d 219063868 4; d 220962626 4; d 222860524 4;
  d 22475051 3; d 226655098 4; d 228628492 4; d 230555294 4; d 232496138 4; d 23437848 3;
  d 23636273 3; d 23826093 3; d 240203296 4; d 242133896 4; d 244117392 4; d 246029614 4;
  d 248057952 4; d 249981552 4; d 251939588 4; d 253890166 4; d 255858392 4; d 257806976 4;
  d 259812728 4; d 26175977 3; d 263765252 4; d 265701964 4; d 26773387 3; d 269629812 4;
  d 271630586 4; d 27368164 3; d 275650534 4; d 277587428 4; d 279611276 4; d 281632324 4;
  d 283623816 4; d 285657668 4; d 28758644 3; d 289569768 4; d 291634722 4; d 293547026 4;
  d 295611186 4; d 297679948 4; d 299599986 4; d 301640492 4; d 303669818 4; d 305625338 4;
  d 307629928 4; d 309761592 4; d 31166274 3; d 31376722 3; d 315703734 4; d 31770809 3;
  d 319748934 4; d 321795286 4; d 323875442 4; d 325823504 4; d 32794076 3; d 329899528 4;
  d 33191842 3; d 333924684 4; d 33595659 3; d 338018672 4; d 340003414 4; d 342000922 4;
  d 344026792 4; d 346100638 4; d 348040084 4; d 3501113 2; d 35218669 3; d 354186634 4;
  d 356190792 4; d 358306534 4; d 360284966 4; d 362297902 4; d 364386422 4; d 366307764 4;
  d 368333102 4; d 370486728 4; d 372473916 4; d 374535904 4; d 376693614 4; d 378545526 4;
  d 38059305 3; d 382680936 4; d 384702516 4; d 386747064 4; d 38876167 3; d 390683794 4;
  d 392819144 4; d 394928566 4; d 396848628 4; d 398984108 4; d 400931836 4; d 402976858 4;
  d 404897086 4; d 407172424 4
].

(** constants.rs:319-354: raw estimates, precision 14, 201 entries. *)
Definition raw_dec_14 : list (Z * N) := [
  d 11817475 3; d 120150046 4; d 122153792 4; d 124177504 4; d 126231814 4; d 128300086 4;
  d 130400072 4; d 13252503 3; d 13466178 3; d 136832738 4; d 139020344 4; d 141239798 4;
  d 14347394 3; d 145737784 4; d 148026894 4; d 150336824 4; d 152669134 4; d 155028624 4;
  d 157414944 4; d 159807956 4; d 162238916 4; d 164686316 4; d 16715733 3; d 169655726 4;
  d 17217204 3; d 17470666 3; d 177278516 4; d 179867886 4; d 182476902 4; d 185109632 4;
  d 18775304 3; d 190447486 4; d 193144408 4; d 19587202 3; d 198622576 4; d 20135924 3;
  d 204170324 4; d 206979788 4; d 209796112 4; d 212650274 4; d 21550723 3; d 218416906 4;
  d 22132162 3; d 224281406 4; d 22722127 3; d 230205606 4; d 233197394 4; d 236204014 4;
  d 239252728 4; d 242269224 4; d 24535581 3; d 24845505 3; d 251559618 4; d 254703828 4;
  d 257859702 4; d 261037764 4; d 264204132 4; d 267420186 4; d 270628852 4; d 27388415 3;
  d 277146024 4; d 28042296 3; d 283654494 4; d 287011526 4; d 290318008 4; d 293642156 4;
  d 29704497 3; d 300371458 4; d 30380111 3; d 307238168 4; d 310595114 4; d 314049498 4;
  d 317516752 4; d 320952686 4; d 324447792 4; d 32794767 3; d 33145204 3; d 334984226 4;
  d 338476502 4; d 34209006 3; d 34560849 3; d 349194838 4; d 352749778 4; d 356351322 4;
  d 359963266 4; d 363591394 4; d 367228266 4; d 370828516 4; d 374477354 4; d 378159606 4;
  d 381910692 4; d 385594106 4; d 389248112 4; d 392946726 4; d 39663973 3; d 40042261 3;
  d 404162036 4; d 407792036 4; d 411616436 4; d 415409014 4; d 419211998 4; d 422947698 4;
  d 426785264 4; d 430613464 4; d 43432375 3; d 43818432 3; d 441986598 4; d 445830138 4;
  d 449704794 4; d 45353924 3; d 45729858 3; d 461182224 4; d 465115724 4; d 469007386 4;
  d 472806964 4; d 476681472 4; d 480556796 4; d 484469436 4; d 488387146 4; d 492177296 4;
  d 496137796 4; d 500107508 4; d 504100208 4; d 507937886 4; d 511902456 4; d 515831882 4;
  d 519710796 4; d 523765338 4; d 52763319 3; d 531655534 4; d 535565594 4; d 539482702 4;
  d 54346352 3; d 547487914 4; d 55138577 3; d 555434824 4; d 559411748 4; d 563337746 4;
  d 567451552 4; d 571427944 4; d 575452236 4; d 579359956 4; d 583485268 4; d 587375474 4;
  d 591585962 4; d 595426896 4; d 599588004 4; d 603493788 4; d 607550212 4; d 611476144 4;
  d 61548194 3; d 619460696 4; d 623486042 4; d 62763603 3; d 63162781 3; d 63560635 3;
  d 639743482 4; d 643664908 4; d 647715876 4; d 651767346 4; d 655973916 4; d 65995915 3;
  d 663940384 4; d 668229396 4; d 672036336 4; d 676122032 4; d 680190078 4; d 684200388 4;
  d 6882122 2; d 692358388 4; d 696400724 4; d 70055155 3; d 70466357 3; d 708634266 4;
  d 712762482 4; d 716770306 4; d 720802006 4; d 724930214 4; d 728935952 4; d 733145856 4;
  d 737149852 4; d 741253022 4; d 745212122 4; d 749336814 4; d 753415904 4; d 757430244 4;
  d 761660278 4; d 765721322 4; d 769731028 4; d 773816284 4; d 778006092 4; d 78189328 3;
  d 786070962 4; d 790122508 4; d 794078358 4; d 79825725 3; d 80238701 3; d 80646891 3;
  d 810356436 4; d 814600448 4; d 818763884 4
].

(** constants.rs:356-558: raw estimates, precision 15, 201 entries. *)
Definition raw_dec_15 : list (Z * N) := [
  d 236350036 4; d 240308034 4; d 244314744 4; d 248371524 4; d 252467928 4; d 25661326 3;
  d 260813532 4; d 265052806 4; d 269339892 4; d 273677098 4; d 27805318 3; d 28248799 3;
  d 286964382 4; d 291488244 4; d 296055138 4; d 300668668 4; d 305342344 4; d 3100632 2;
  d 31480778 3; d 319622418 4; d 324473324 4; d 329380232 4; d 33432731 3; d 33930728 3;
  d 344339896 4; d 349441402 4; d 354575588 4; d 359745958 4; d 364973296 4; d 370219096 4;
  d 37554326 3; d 380880826 4; d 386288816 4; d 391713192 4; d 397232326 4; d 402745554 4;
  d 408323142 4; d 41390613 3; d 419595908 4; d 425325466 4; d 431020344 4; d 436835072 4;
  d 44266694 3; d 448512822 4; d 454407862 4; d 460380586 4; d 466403164 4; d 47241064 3;
  d 47846155 3; d 484547396 4; d 490769168 4; d 49692542 3; d 503174778 4; d 5093965 2;
  d 515725596 4; d 522102906 4; d 528437396 4; d 534813996 4; d 54127236 3; d 54770406 3;
  d 554226598 4; d 560787958 4; d 567367174 4; d 573976784 4; d 580645784 4; d 58730308 3;
  d 594049784 4; d 600770864 4; d 607519158 4; d 614441386 4; d 62115817 3; d 628087742 4;
  d 635014774 4; d 641875454 4; d 648836622 4; d 655827468 4; d 662745318 4; d 669769276 4;
  d 676887764 4; d 68402138 3; d 691096274 4; d 698229706 4; d 705436108 4; d 712655202 4;
  d 719833848 4; d 727084656 4; d 73433384 3; d 741584664 4; d 748964868 4; d 756209564 4;
  d 763621434 4; d 770983204 4; d 778357662 4; d 785826114 4; d 793239902 4; d 800678658 4;
  d 808149246 4; d 815670136 4; d 823108536 4; d 830619952 4; d 838214096 4; d 845808608 4;
  d 85335547 3; d 860925802 4; d 868516506 4; d 87612311 3; d 883812016 4; d 891463296 4;
  d 899078974 4; d 90676846 3; d 914514152 4; d 922245518 4; d 929958686 4; d 937635066 4;
  d 945512796 4; d 953151944 4; d 960961806 4; d 968810918 4; d 97665679 3; d 9844268 2;
  d 992293002 4; d 1000110994 4; d 1007906386 4; d 1015801564 4; d 1023777484 4; d 1031521392 4;
  d 1039442712 4; d 104730216 3; d 1055286336 4; d 1063249398 4; d 1071176706 4; d 1078903988 4;
  d 1086952266 4; d 109485238 3; d 1102947876 4; d 1110750958 4; d 1118780496 4; d 1126952864 4;
  d 1134645486 4; d 1142700474 4; d 115068608 3; d 1158843626 4; d 1166732588 4; d 1174833716 4;
  d 118275097 3; d 1190854092 4; d 1198792808 4; d 1206875868 4; d 1214999944 4; d 122284916 3;
  d 1230959254 4; d 1239125038 4; d 1247090454 4; d 1255037182 4; d 126323259 3; d 1271389412 4;
  d 1279438294 4; d 128755646 3; d 1295565354 4; d 1303753298 4; d 1311614734 4; d 1319711962 4;
  d 1327875458 4; d 1335881056 4; d 134431351 3; d 1352202906 4; d 136023398 3; d 1368466558 4;
  d 1376670004 4; d 138463663 3; d 1392837154 4; d 1400746146 4; d 1409013072 4; d 1417218548 4;
  d 1425432322 4; d 1433561096 4; d 1441737412 4; d 1449730948 4; d 1457943162 4; d 1466095714 4;
  d 147420003 3; d 1482379784 4; d 1490505696 4; d 149854761 3; d 1506631966 4; d 1514940754 4;
  d 1523131416 4; d 1531126902 4; d 1539357206 4; d 1547469262 4; d 155559547 3; d 1564019746 4;
  d 1572287036 4; d 1580087254 4; d 15882075 2; d 1596469184 4; d 1604704458 4; d 1612795348 4;
  d 1620933114 4; d 162918542 3; d 1637292842 4
].

(** constants.rs:560-761: raw estimates, precision 16, 200 entries. *)
Definition raw_dec_16 : list (Z * N) := [
  d 47271 0; d 480623584 4; d 488627074 4; d 49673152 3; d 504928416 4; d 513229514 4;
  d 5216103 2; d 53009407 3; d 538676348 4; d 54734206 3; d 556105144 4; d 564962096 4;
  d 57390795 3; d 58297268 3; d 592106448 4; d 60134665 3; d 610680248 4; d 620104472 4;
  d 629625204 4; d 639235742 4; d 648950194 4; d 658764182 4; d 668626136 4; d 678626968 4;
  d 688688908 4; d 698828544 4; d 70911271 3; d 719440924 4; d 729900326 4; d 74040692 3;
  d 751006336 4; d 761747826 4; d 772525998 4; d 783402974 4; d 794382572 4; d 805454976 4;
  d 816572796 4; d 827846336 4; d 83915515 3; d 850597362 4; d 862059368 4; d 873644424 4;
  d 885303358 4; d 897073744 4; d 908859638 4; d 92080197 3; d 932755738 4; d 94479391 3;
  d 95695918 3; d 969192236 4; d 981484602 4; d 993823474 4; d 1006256974 4; d 1018780284 4;
  d 1031416278 4; d 1044094588 4; d 1056862882 4; d 1069675402 4; d 1082616032 4; d 1095481578 4;
  d 1108520728 4; d 112162231 3; d 1134790072 4; d 1148062626 4; d 1161379072 4; d 1174695048 4;
  d 1188135186 4; d 1201654876 4; d 1215162556 4; d 122875766 3; d 1242505444 4; d 1256212222 4;
  d 1270032352 4; d 128387848 3; d 1297752644 4; d 1311817776 4; d 1325773086 4; d 1339799458 4;
  d 1353941132 4; d 1368009078 4; d 138233217 3; d 1396685308 4; d 141085212 3; d 1425352122 4;
  d 1439690684 4; d 1454202872 4; d 1468781542 4; d 1483327572 4; d 1498003202 4; d 15126966 2;
  d 1527436104 4; d 1542130948 4; d 155690288 3; d 1571694246 4; d 1586721756 4; d 160160059 3;
  d 1616506854 4; d 1631457772 4; d 1646456726 4; d 1661591952 4; d 1676821578 4; d 1691773328 4;
  d 1707000118 4; d 1722288964 4; d 1737326664 4; d 1752655556 4; d 176787799 3; d 178317111 3;
  d 1798566914 4; d 181400865 3; d 1829434612 4; d 184486742 3; d 1860334698 4; d 1875837886 4;
  d 1891481868 4; d 1906884526 4; d 1922501926 4; d 1938109042 4; d 1953542972 4; d 1969387682 4;
  d 1984935898 4; d 2000792824 4; d 201618912 3; d 2032055492 4; d 2047655798 4; d 2063561124 4;
  d 2079293064 4; d 2094987196 4; d 211086229 3; d 2126751324 4; d 2142567892 4; d 2158262392 4;
  d 2174128474 4; d 2189956724 4; d 2206186038 4; d 2222071166 4; d 2237810364 4; d 2253874332 4;
  d 2270057928 4; d 2285904336 4; d 2302178738 4; d 2318051054 4; d 2334089 1; d 2349953432 4;
  d 2366014956 4; d 2381907904 4; d 2398172548 4; d 2414112832 4; d 2430024066 4; d 2446401884 4;
  d 2462553128 4; d 2478493508 4; d 2494799734 4; d 2511068822 4; d 252705027 3; d 2543329242 4;
  d 255935129 3; d 2575269014 4; d 259154772 3; d 260777625 3; d 262390253 3; d 2640044906 4;
  d 26564359 2; d 2672554076 4; d 268873426 3; d 2704707252 4; d 2721064804 4; d 2737224456 4;
  d 275337794 3; d 2769457038 4; d 2785929154 4; d 2802043726 4; d 2818411606 4; d 283489171 3;
  d 2851301716 4; d 2867353362 4; d 2883647164 4; d 2899611814 4; d 2915955524 4; d 293285683 3;
  d 2948996668 4; d 2964993434 4; d 2981280462 4; d 2997618946 4; d 3013942424 4; d 3029976748 4;
  d 3046151478 4; d 3062697724 4; d 307886114 3; d 3095431028 4; d 3111532862 4; d 3127828546 4;
  d 3144212008 4; d 3160332438 4; d 3176929636 4; d 3193052648 4; d 3209487406 4; d 3225663364 4;
  d 3242284224 4; d 3258471542 4
].

(** constants.rs:763-965: raw estimates, precision 17, 201 entries. *)
Definition raw_dec_17 : list (Z * N) := [
  d 94542 0; d 96125811 3; d 97728019 3; d 99348558 3; d 1009879705 4; d 1026467565 4;
  d 1043245125 4; d 1060217435 4; d 1077367865 4; d 109469272 3; d 1112239465 4; d 112995219 3;
  d 114787432 3; d 116593152 3; d 11842271 2; d 1202672345 4; d 1221346765 4; d 124020937 3;
  d 1259272705 4; d 127851255 3; d 1297889485 4; d 131751016 3; d 1337268225 4; d 135722592 3;
  d 137736789 3; d 139770568 3; d 141821518 3; d 143891343 3; d 1459821415 4; d 148095387 3;
  d 150207526 3; d 152355649 3; d 1545156415 4; d 15669605 2; d 1588877575 4; d 161098159 3;
  d 163329852 3; d 165569053 3; d 1678374005 4; d 1701216165 4; d 1724204595 4; d 1747326265 4;
  d 17706277 2; d 179412502 3; d 181774035 3; d 184151939 3; d 1865516895 4; d 188965691 3;
  d 1914028095 4; d 193857949 3; d 1963050775 4; d 1987746715 4; d 2012712585 4; d 20376478 2;
  d 2062993695 4; d 2088181365 4; d 211373115 3; d 2139467465 4; d 216532076 3; d 219105541 3;
  d 2217145375 4; d 2243375135 4; d 2269775125 4; d 2296130655 4; d 2322702685 4; d 2349522065 4;
  d 2376453555 4; d 2403311925 4; d 243034517 3; d 2457560725 4; d 2485176865 4; d 251232737 3;
  d 2540113955 4; d 256785995 3; d 25955644 2; d 262368335 3; d 265156911 3; d 267965266 3;
  d 270785583 3; d 2736160495 4; d 2764874835 4; d 279346639 3; d 282202509 3; d 2850743885 4;
  d 2879422855 4; d 290856018 3; d 2937740345 4; d 2966785145 4; d 2996036355 4; d 3025526575 4;
  d 3054929785 4; d 3084668605 4; d 311392581 3; d 314347538 3; d 3173194295 4; d 3202859785 4;
  d 3233017325 4; d 3262983235 4; d 3293013105 4; d 332301987 3; d 335309791 3; d 338370762 3;
  d 341382923 3; d 3444311265 4; d 3474641545 4; d 35050728 2; d 3536192345 4; d 3566312005 4;
  d 359685203 3; d 3627767845 4; d 365886488 3; d 3689582255 4; d 3720606825 4; d 3751654335 4;
  d 378237935 3; d 381328311 3; d 3844305225 4; d 387576425 3; d 390683242 3; d 393839648 3;
  d 3969778425 4; d 4001019805 4; d 403271296 3; d 4064098425 4; d 4095295485 4; d 4126787 1;
  d 415847423 3; d 4190208035 4; d 422157081 3; d 425337749 3; d 4284796165 4; d 431700902 3;
  d 4348931915 4; d 438049582 3; d 4412105415 4; d 4443792545 4; d 447577356 3; d 450741931 3;
  d 453959548 3; d 4571370935 4; d 460329846 3; d 4635374815 4; d 4667323345 4; d 4699605615 4;
  d 473164681 3; d 4763476345 4; d 479496173 3; d 4828131645 4; d 4860256995 4; d 4892494885 4;
  d 4924601945 4; d 4956758805 4; d 4989080075 4; d 502131802 3; d 5053743855 4; d 5085509915 4;
  d 5118067305 4; d 515026776 3; d 5182170005 4; d 5215239855 4; d 5247059855 4; d 527950997 3;
  d 5312100265 4; d 534472497 3; d 5377507315 4; d 540926922 3; d 544207094 3; d 5474294345 4;
  d 5506663745 4; d 5539753475 4; d 5571507185 4; d 5603996165 4; d 563662697 3; d 5669167395 4;
  d 5701461215 4; d 573447425 3; d 5766896245 4; d 5798745745 4; d 583202337 3; d 5865030255 4;
  d 589715635 3; d 592910161 3; d 5962143885 4; d 599488035 3; d 60274092 2; d 6059830685 4;
  d 60924867 2; d 6124913605 4; d 615787912 3; d 6191075245 4; d 6223079555 4; d 625577333 3;
  d 6288404385 4; d 6320852155 4; d 6353176135 4; d 6386917195 4; d 641887467 3; d 6451399405 4;
  d 648441546 3; d 651666252 3; d 654941845 3
].

(** constants.rs:967-1168: raw estimates, precision 18, 200 entries. *)
Definition raw_dec_18 : list (Z * N) := [
  d 189084 0; d 192250913 3; d 195456774 3; d 198696946 3; d 201977762 3; d 205294444 3;
  d 208651754 3; d 212042099 3; d 215472269 3; d 21894191 2; d 222443912 3; d 225996845 3;
  d 229568199 3; d 233193568 3; d 236844457 3; d 240543233 3; d 244279475 3; d 24804427 2;
  d 251854588 3; d 2556932 1; d 259583619 3; d 263494621 3; d 267445385 3; d 271454061 3;
  d 275468769 3; d 279549456 3; d 283646446 3; d 287788198 3; d 291966099 3; d 296181164 3;
  d 300431469 3; d 304718618 3; d 309024004 3; d 313393508 3; d 317760803 3; d 322209731 3;
  d 326675061 3; d 331160627 3; d 33565447 2; d 340241442 3; d 344841833 3; d 349467132 3;
  d 354130629 3; d 358819432 3; d 363574626 3; d 368296587 3; d 373118482 3; d 37791493 2;
  d 382782301 3; d 387680669 3; d 392601981 3; d 397544323 3; d 402529115 3; d 407546018 3;
  d 412593658 3; d 417638657 3; d 422762865 3; d 427886169 3; d 433017167 3; d 438213273 3;
  d 443441254 3; d 448692421 3; d 453937533 3; d 459239049 3; d 464529569 3; d 469910083 3;
  d 47527403 2; d 480684473 3; d 48607026 2; d 491515237 3; d 496995651 3; d 502476617 3;
  d 507973609 3; d 51349719 2; d 519083233 3; d 524726509 3; d 530305505 3; d 535945728 3;
  d 541584404 3; d 547274055 3; d 552967236 3; d 558667862 3; d 564360216 3; d 570128148 3;
  d 57596508 2; d 581701952 3; d 587532523 3; d 593361144 3; d 599246128 3; d 605033418 3;
  d 610958779 3; d 616837117 3; d 622772818 3; d 62867204 2; d 634675369 3; d 640574831 3;
  d 646585739 3; d 652574547 3; d 658611217 3; d 664642684 3; d 670713914 3; d 676737681 3;
  d 682797313 3; d 688837897 3; d 694917874 3; d 701009882 3; d 707173648 3; d 713257254 3;
  d 719415392 3; d 725636761 3; d 731710697 3; d 737906209 3; d 744103074 3; d 75031339 2;
  d 756504185 3; d 762712579 3; d 768876985 3; d 775167859 3; d 781359 0; d 787615959 3;
  d 793863597 3; d 800245477 3; d 806464582 3; d 812785294 3; d 819005925 3; d 825403057 3;
  d 831676197 3; d 837936284 3; d 844266968 3; d 850642711 3; d 856959756 3; d 863322774 3;
  d 869699931 3; d 876102478 3; d 882355787 3; d 888694463 3; d 895159952 3; d 901536143 3;
  d 907872631 3; d 914293672 3; d 92061514 2; d 927130974 3; d 933409404 3; d 939922178 3;
  d 94633147 2; d 95274593 2; d 959209264 3; d 965590224 3; d 972077284 3; d 978501961 3;
  d 98495319 2; d 991413271 3; d 997817479 3; d 1004222658 3; d 1010725676 3; d 1017177138 3;
  d 1023612529 3; d 1030098236 3; d 1036493719 3; d 1043112207 3; d 1049537036 3; d 1056008096 3;
  d 1062476184 3; d 1068942337 3; d 107552495 2; d 1081932864 3; d 1088426025 3; d 1094776005 3;
  d 1101327448 3; d 1107901673 3; d 1114423639 3; d 1120884602 3; d 1127324923 3; d 113379424 2;
  d 1140328886 3; d 1146849376 3; d 1153346682 3; d 1159836502 3; d 1166478703 3; d 1172953304 3;
  d 1179391502 3; d 1185950982 3; d 1192544052 3; d 119891341 2; d 1205430994 3; d 1212015525 3;
  d 1218674042 3; d 1225121683 3; d 1231551101 3; d 1238126379 3; d 1244673795 3; d 1251260649 3;
  d 125769786 2; d 1264320983 3; d 1270736319 3; d 1277274694 3; d 128380495 2; d 1290211514 3;
  d 1296858568 3; d 1303455691 3
].

(** constants.rs:1174-1254: biases, precision 4, 79 entries. *)
Definition bias_dec_4 : list (Z * N) := [
  d 10 0; d 9717 3; d 9207 3; d 87896 4; d 82882 4; d 78204 4;
  d 73772 4; d 69342 4; d 65202 4; d 6161 3; d 57722 4; d 54636 4;
  d 50396 4; d 46766 4; d 43566 4; d 40454 4; d 37936 4; d 34856 4;
  d 32666 4; d 29946 4; d 2766 3; d 24692 4; d 23638 4; d 20764 4;
  d 17864 4; d 17602 4; d 14814 4; d 1433 3; d 12926 4; d 10664 4;
  d 999600000000001 15; d 7956 4; d 5366 4; d 589399999999998 15; d 573799999999999 15; d 269799999999996 15;
  d 368200000000002 15; d 544000000000011 16; d 234200000000001 15; d 108000000000033 16; d (-203400000000002) 15; d (-701999999999998) 16;
  d (-129600000000003) 15; d (-364199999999997) 15; d (-480600000000003) 15; d (-226999999999997) 15; d (-322800000000001) 15; d (-382599999999996) 15;
  d (-511200000000002) 15; d (-669600000000003) 15; d (-749400000000001) 15; d (-500399999999999) 15; d (-617600000000003) 15; d (-6922) 4;
  d (-601599999999998) 15; d (-416200000000003) 15; d (-338200000000001) 15; d (-782600000000002) 15; d (-648600000000002) 15; d (-919800000000002) 15;
  d (-851799999999997) 15; d (-962400000000002) 15; d (-6402) 4; d (-11922) 4; d (-10256) 4; d (-1086) 3;
  d (-121899999999999) 14; d (-819400000000002) 15; d (-940600000000003) 15; d (-11554) 4; d (-12072) 4; d (-11752) 4;
  d (-116759999999999) 14; d (-114019999999999) 14; d (-13754) 4; d (-129859999999999) 14; d (-1607) 3; d (-13292) 4;
  d (-17606) 4
].

(** constants.rs:1256-1416: biases, precision 5, 159 entries. *)
Definition bias_dec_5 : list (Z * N) := [
  d 22 0; d 211194 4; d 208208 4; d 202318 4; d 1977 2; d 192436 4;
  d 187774 4; d 182848 4; d 178224 4; d 173742 4; d 169336 4; d 16503 3;
  d 160494 4; d 156292 4; d 152124 4; d 14798 3; d 14367 3; d 139728 4;
  d 135944 4; d 13217 3; d 128438 4; d 123696 4; d 120956 4; d 117044 4;
  d 11324 3; d 110668 4; d 106698 4; d 103644 4; d 10049 3; d 96918 4;
  d 94146 4; d 9082 3; d 8687 3; d 85398 4; d 82462 4; d 7857 3;
  d 76606 4; d 74168 4; d 71248 4; d 69222 4; d 66804 4; d 6447 3;
  d 63454 4; d 59594 4; d 57636 4; d 55776 4; d 5331 3; d 519 2;
  d 49676 4; d 47564 4; d 45314 4; d 44442 4; d 43708 4; d 39774 4;
  d 39624 4; d 38796 4; d 3755 3; d 3472 3; d 32076 4; d 31024 4;
  d 28908 4; d 27338 4; d 27728 4; d 2629 3; d 2413 3; d 23266 4;
  d 21524 4; d 22642 4; d 21806 4; d 20566 4; d 19192 4; d 17598 4;
  d 13516 4; d 15802 4; d 143859999999999 14; d 149160000000001 14; d 11524 4; d 11892 4;
  d 841399999999993 15; d 879800000000003 15; d 837599999999995 15; d 469800000000006 15; d 765600000000006 15; d 331000000000003 15;
  d 591399999999993 15; d 601200000000006 15; d 701599999999999 15; d 558199999999999 15; d 339399999999998 15; d 354399999999998 15;
  d 491200000000006 15; d 308000000000007 15; d 355199999999996 15; d (-254000000000048) 16; d 205200000000005 15; d (-272999999999996) 15;
  d 132199999999997 15; d 394400000000005 15; d (-241200000000006) 15; d 242000000000004 15; d 191400000000002 15; d 253799999999998 15;
  d (-122399999999999) 15; d (-370800000000003) 15; d 193200000000004 15; d (-848000000000013) 16; d 867999999999967 16; d (-327200000000005) 15;
  d (-285600000000002) 15; d 311400000000006 15; d (-128399999999999) 15; d (-754999999999995) 15; d (-209199999999996) 15; d (-293599999999998) 15;
  d (-364000000000004) 15; d (-253600000000006) 15; d (-821200000000005) 15; d (-253600000000006) 15; d (-510400000000004) 15; d (-383399999999995) 15;
  d (-491799999999998) 15; d (-220200000000006) 15; d (-972000000000008) 16; d (-557400000000001) 15; d (-114599999999996) 15; d (-295000000000002) 15;
  d (-534800000000004) 15; d 346399999999988 15; d (-65379999999999) 14; d 398000000000138 16; d 341999999999985 16; d (-995800000000003) 15;
  d (-523400000000009) 15; d (-489000000000004) 15; d (-274799999999999) 15; d (-574999999999989) 15; d (-482799999999997) 15; d 571999999999946 16;
  d (-330600000000004) 15; d (-628800000000012) 15; d (-140199999999993) 15; d (-540600000000012) 15; d (-445999999999998) 15; d (-599400000000003) 15;
  d (-262599999999992) 15; d 163399999999996 15; d (-100599999999986) 15; d (-39500000000001) 14; d (-106960000000001) 14; d (-836399999999998) 15;
  d (-753199999999993) 15; d (-412399999999991) 15; d (-790400000000005) 15; d (-29679999999999) 14; d (-28540000000001) 14; d (-193000000000012) 15;
  d (-772000000000048) 16; d (-962799999999987) 15; d (-414800000000014) 15
].

(** constants.rs:1418-1619: biases, precision 6, 200 entries. *)
Definition bias_dec_6 : list (Z * N) := [
  d 45 0; d 441902 4; d 43271 3; d 428358 4; d 418142 4; d 412854 4;
  d 40317 3; d 39354 3; d 388924 4; d 379436 4; d 374596 4; d 365262 4;
  d 356248 4; d 351574 4; d 342822 4; d 33837 3; d 329636 4; d 32074 3;
  d 317042 4; d 307976 4; d 304772 4; d 296564 4; d 287942 4; d 285004 4;
  d 27686 3; d 27291 3; d 265672 4; d 258556 4; d 254982 4; d 248204 4;
  d 244252 4; d 237744 4; d 230786 4; d 228344 4; d 220294 4; d 218098 4;
  d 210794 4; d 205732 4; d 201878 4; d 195648 4; d 192902 4; d 186784 4;
  d 183352 4; d 178946 4; d 173712 4; d 170852 4; d 16499 3; d 162686 4;
  d 156844 4; d 152234 4; d 149732 4; d 143356 4; d 142286 4; d 137262 4;
  d 133284 4; d 131048 4; d 125962 4; d 123562 4; d 121272 4; d 114184 4;
  d 114974 4; d 110822 4; d 10856 3; d 1048 2; d 102834 4; d 100208 4;
  d 9637 3; d 951739999999999 14; d 905759999999999 14; d 874760000000001 14; d 842700000000001 14; d 81326 4;
  d 82372 4; d 82788 4; d 76776 4; d 779259999999999 14; d 71952 4; d 69564 4;
  d 66454 4; d 687 2; d 65428 4; d 619999999999999 14; d 602940000000001 14; d 562780000000001 14;
  d 56782 4; d 5792 3; d 535159999999999 14; d 528319999999999 14; d 50394 4; d 507480000000001 14;
  d 449119999999999 14; d 484899999999999 14; d 4696 3; d 454040000000001 14; d 407300000000001 14; d 437139999999999 14;
  d 37216 4; d 37328 4; d 342080000000001 14; d 341839999999999 14; d 394239999999999 14; d 327719999999999 14;
  d 3411 3; d 313079999999999 14; d 276900000000001 14; d 292580000000001 14; d 268279999999999 14; d 275020000000001 14;
  d 270599999999999 14; d 23886 4; d 301859999999999 14; d 245179999999999 14; d 292699999999999 14; d 241720000000001 14;
  d 241139999999999 14; d 203299999999999 14; d 251240000000001 14; d 25564 4; d 260079999999999 14; d 241720000000001 14;
  d 180439999999999 14; d 199700000000001 14; d 245480000000001 14; d 18948 4; d 22346 4; d 230860000000001 14;
  d 215479999999999 14; d 188419999999999 14; d 16508 4; d 677199999999999 15; d 172540000000001 14; d 14752 4;
  d 172280000000001 14; d 166139999999999 14; d 116759999999999 14; d 179300000000001 14; d 100059999999999 14; d 905200000000008 15;
  d 659999999999997 15; d 155879999999999 14; d 11636 4; d 688199999999995 15; d 712600000000009 15; d 450199999999995 15;
  d 11978 4; d 975599999999986 15; d 165400000000005 15; d 1727 3; d 119739999999999 14; d (-252600000000001) 15;
  d 113460000000001 14; d 13048 4; d 119479999999999 14; d 313400000000001 15; d 878999999999991 15; d 112039999999999 14;
  d 853000000000009 15; d 167920000000001 14; d 856999999999999 15; d 448599999999999 15; d 12362 4; d 953399999999988 15;
  d 102859999999998 14; d 563199999999995 15; d 663000000000011 15; d 723000000000013 15; d 756599999999992 15; d 256599999999992 15;
  d (-837600000000009) 15; d 620000000000005 15; d 821599999999989 15; d 216600000000028 15; d 205600000000004 15; d 220199999999977 15;
  d 372599999999977 15; d 334400000000016 15; d 928400000000011 15; d 972800000000007 15; d 192400000000021 15; d 487199999999973 15;
  d (-413000000000011) 15; d 807000000000016 15; d 120600000000024 15; d 769000000000005 15; d 870799999999974 15; d 66500000000002 14;
  d 118200000000002 15; d 401200000000017 15; d 635199999999998 15; d 135400000000004 15; d 175599999999974 15; d 116059999999999 14;
  d 34620000000001 14; d 521400000000028 15; d (-586599999999976) 15; d (-116480000000001) 14; d 968399999999974 15; d 836999999999989 15;
  d 779600000000016 15; d 985799999999983 15
].

(** constants.rs:1621-1822: biases, precision 7, 200 entries. *)
Definition bias_dec_7 : list (Z * N) := [
  d 91 0; d 894934 4; d 879758 4; d 864574 4; d 849718 4; d 834954 4;
  d 815302 4; d 800756 4; d 786374 4; d 771782 4; d 757888 4; d 739522 4;
  d 72592 3; d 712532 4; d 699086 4; d 685938 4; d 669474 4; d 656796 4;
  d 644394 4; d 632176 4; d 619768 4; d 604214 4; d 592528 4; d 580102 4;
  d 568658 4; d 557278 4; d 543044 4; d 531316 4; d 52093 3; d 510032 4;
  d 499092 4; d 486306 4; d 475294 4; d 465756 4; d 456508 4; d 44662 3;
  d 43552 3; d 423724 4; d 41617 3; d 405754 4; d 397872 4; d 388444 4;
  d 377988 4; d 368606 4; d 362118 4; d 353566 4; d 344476 4; d 335882 4;
  d 326816 4; d 320824 4; d 310258 4; d 306048 4; d 294436 4; d 287274 4;
  d 27957 3; d 27147 3; d 264364 4; d 257592 4; d 253386 4; d 24781 3;
  d 238028 4; d 23656 3; d 226544 4; d 21996 3; d 214718 4; d 211544 4;
  d 206098 4; d 195956 4; d 190616 4; d 185758 4; d 184878 4; d 175244 4;
  d 172146 4; d 16724 3; d 158722 4; d 155198 4; d 150414 4; d 14941 3;
  d 149048 4; d 1387 2; d 134304 4; d 13028 3; d 124708 4; d 1237 2;
  d 120624 4; d 114668 4; d 115532 4; d 114352 4; d 112564 4; d 102744 4;
  d 102118 4; d 974720000000002 14; d 101456 4; d 92928 4; d 875040000000001 14; d 855279999999999 14;
  d 897899999999998 14; d 821019999999999 14; d 818340000000001 14; d 73494 4; d 732499999999999 14; d 766140000000001 14;
  d 690300000000002 14; d 725439999999998 14; d 69042 4; d 721499999999997 14; d 628640000000001 14; d 608139999999997 14;
  d 66764 4; d 630099999999999 14; d 513900000000001 14; d 565800000000002 14; d 517320000000001 14; d 459019999999998 14;
  d 49538 4; d 508280000000002 14; d 492200000000003 14; d 499020000000002 14; d 47328 4; d 54538 4;
  d 411360000000002 14; d 422340000000003 14; d 408780000000002 14; d 370800000000003 14; d 415559999999999 14; d 418520000000001 14;
  d 363720000000001 14; d 368220000000002 14; d 377960000000002 14; d 36078 4; d 249160000000001 14; d 313099999999997 14;
  d 25376 4; d 319880000000001 14; d 321100000000001 14; d 24502 4; d 352820000000003 14; d 291199999999998 14;
  d 304480000000001 14; d 27432 4; d 285239999999999 14; d 279880000000003 14; d 278579999999999 14; d 188679999999999 14;
  d 298860000000002 14; d 250639999999999 14; d 191239999999999 14; d 266160000000002 14; d 246820000000002 14; d 158199999999999 14;
  d 130399999999997 14; d 227379999999999 14; d 268939999999998 14; d 132900000000001 14; d 310599999999999 14; d 169080000000002 14;
  d 213740000000001 14; d 253219999999999 14; d 188479999999998 14; d 133240000000001 14; d 145119999999997 14; d 117899999999997 14;
  d 244119999999998 14; d 160659999999996 14; d 216700000000003 14; d 77940000000001 14; d 237900000000002 14; d 206700000000001 14;
  d 146000000000004 14; d 291160000000002 14; d 169200000000001 14; d 954600000000028 15; d 249300000000005 14; d 22722 4;
  d 133500000000004 14; d 244899999999996 14; d 120140000000004 14; d 307380000000001 14; d 209739999999999 14; d 285640000000001 14;
  d 229960000000005 14; d 240899999999999 14; d 197040000000004 14; d 809799999999996 15; d 165279999999996 14; d 259979999999996 14;
  d 95799999999997 14; d 206799999999998 14; d 232780000000002 14; d 420159999999998 14; d 196320000000003 14; d 186400000000003 14;
  d 142999999999995 14; d 377940000000001 14; d 127200000000005 14; d 186440000000005 14; d 220600000000002 14; d 321900000000005 14;
  d 15154 4; d 261019999999996 14
].

(** constants.rs:1824-2025: biases, precision 8, 200 entries. *)
Definition bias_dec_8 : list (Z * N) := [
  d 1832152 4; d 1802454 4; d 1772096 4; d 1736652 4; d 1706312 4; d 1676822 4;
  d 164249 3; d 1613296 4; d 1580038 4; d 1552074 4; d 1524612 4; d 14927 2;
  d 1465178 4; d 1434412 4; d 1408032 4; d 1381634 4; d 1351688 4; d 1326074 4;
  d 1296946 4; d 1272664 4; d 1248228 4; d 1220432 4; d 1196824 4; d 1169464 4;
  d 1146268 4; d 1122626 4; d 1098376 4; d 1074034 4; d 1048956 4; d 1028522 4;
  d 1007638 4; d 983552 4; d 963556 4; d 937526 4; d 919292 4; d 898954 4;
  d 878198 4; d 857668 4; d 83298 3; d 816688 4; d 799466 4; d 779746 4;
  d 761672 4; d 743474 4; d 723028 4; d 708912 4; d 69114 3; d 674646 4;
  d 659744 4; d 644092 4; d 626022 4; d 60843 3; d 595684 4; d 581652 4;
  d 565426 4; d 554152 4; d 535388 4; d 523592 4; d 511366 4; d 49486 3;
  d 483918 4; d 465076 4; d 45509 3; d 443834 4; d 433498 4; d 420668 4;
  d 407346 4; d 401228 4; d 384528 4; d 377 1; d 36644 3; d 360518 4;
  d 345774 4; d 339068 4; d 32432 3; d 321666 4; d 30434 3; d 296644 4;
  d 284894 4; d 276312 4; d 263804 4; d 26292 3; d 255496000000001 13; d 250234 4;
  d 248206 4; d 226146 4; d 224188 4; d 22117 3; d 206762 4; d 206576 4;
  d 197864 4; d 19509 3; d 185334 4; d 179204 4; d 17772 3; d 162924 4;
  d 168654 4; d 151836 4; d 15745 3; d 151316 4; d 150386 4; d 140136 4;
  d 136342 4; d 126196 4; d 121866 4; d 124281999999999 13; d 113324 4; d 104794000000001 13;
  d 115038 4; d 10129 3; d 952800000000002 14; d 103203999999999 13; d 946299999999997 14; d 979280000000006 14;
  d 912300000000005 14; d 874180000000001 14; d 92192 4; d 751020000000005 14; d 760659999999996 14; d 701840000000004 14;
  d 722239999999999 14; d 740139999999997 14; d 676179999999999 14; d 714359999999999 14; d 565060000000005 14; d 563779999999997 14;
  d 576599999999996 14; d 675139999999999 14; d 557759999999996 14; d 373220000000003 14; d 58048 4; d 563019999999995 14;
  d 493359999999996 14; d 347979999999995 14; d 433879999999999 14; d 398940000000005 14; d 381960000000004 14; d 331359999999995 14;
  d 323080000000004 14; d 34588 4; d 308159999999998 14; d 34076 4; d 300639999999999 14; d 238779999999997 14;
  d 261900000000003 14; d 199800000000005 14; d 334820000000002 14; d 295060000000001 14; d 990999999999985 15; d 211440000000005 14;
  d 220299999999997 14; d 282219999999995 14; d 273239999999998 14; d 27826 4; d 376660000000004 14; d 226480000000004 14;
  d 231280000000004 14; d 240819999999997 14; d 275360000000001 14; d 333759999999995 14; d 271559999999999 14; d 17478000000001 13;
  d 142920000000004 14; d 239300000000003 14; d 222779999999989 14; d 234339999999997 14; d 87259999999992 14; d 388400000000001 14;
  d 180600000000004 14; d 191759999999999 14; d 116779999999994 14; d 150320000000011 14; d 252500000000009 14; d 226400000000012 15;
  d 231500000000005 14; d 930000000000064 15; d 125199999999995 14; d 214959999999996 14; d 407999999999902 16; d 25447999999999 13;
  d 132960000000003 14; d 197400000000016 15; d 252620000000002 14; d 333279999999991 14; d (-134300000000007) 14; d 422199999999975 15;
  d 917200000000093 15; d 112920000000008 14; d 146060000000011 14; d 145779999999991 14; d 28728000000001 13; d 333359999999993 14;
  d (-134079999999994) 14; d 157680000000005 14; d 363000000000056 15; d 140740000000005 14; d 656600000000026 15; d 801400000000058 15;
  d (-454600000000028) 15; d 151919999999996 14
].

(** constants.rs:2027-2229: biases, precision 9, 201 entries. *)
Definition bias_dec_9 : list (Z * N) := [
  d 368 0; d 3618294 4; d 3552452 4; d 3486698 4; d 3421464 4; d 3362024 4;
  d 3298782 4; d 3236598 4; d 317462 3; d 3112826 4; d 3057102 4; d 2997416 4;
  d 2939366 4; d 2881046 4; d 282285 3; d 2770668 4; d 271306 3; d 2658448 4;
  d 260301 3; d 2549886 4; d 2502422 4; d 2448138 4; d 2397074 4; d 2347428 4;
  d 2298402 4; d 2251664 4; d 2203534 4; d 215594 3; d 2106886 4; d 2057876 4;
  d 20165 2; d 197228 3; d 1928036 4; d 1881666 4; d 1840818 4; d 1800824 4;
  d 1762574 4; d 172302 3; d 1681644 4; d 1640056 4; d 1603802 4; d 1567192 4;
  d 1525234 4; d 1492084 4; d 145831 3; d 142485 3; d 1391112 4; d 1354764 4;
  d 13176 2; d 1293368 4; d 1265538 4; d 1225058 4; d 1192646 4; d 1165902 4;
  d 1133818 4; d 1108998 4; d 1079532 4; d 1052062 4; d 1022798 4; d 994728 4;
  d 969582 4; d 943292 4; d 92171 3; d 897809999999999 13; d 875716 4; d 847048 4;
  d 825322 4; d 79875 3; d 783972 4; d 753464 4; d 737274 4; d 712834 4;
  d 701444 4; d 684263999999999 13; d 660166 4; d 64018 3; d 620437999999999 13; d 603399999999999 13;
  d 586856 4; d 579836 4; d 550311999999999 13; d 546769999999999 13; d 523188 4; d 514846 4;
  d 494423999999999 13; d 47739 3; d 461487999999999 13; d 449202 4; d 434059999999999 13; d 425342000000001 13;
  d 412834 4; d 388954000000001 13; d 383286000000001 13; d 362146 4; d 366684 4; d 359946 4;
  d 33123 3; d 334338 4; d 317378000000001 13; d 29076 3; d 289692 4; d 274964 4;
  d 270998 4; d 259864 4; d 267754 4; d 243208 4; d 234838 4; d 227388000000001 13;
  d 240758000000001 13; d 219097999999999 13; d 209728 4; d 199228000000001 13; d 199292 4; d 16617 3;
  d 1705 2; d 182996000000001 13; d 156128000000001 13; d 157392 4; d 145174 4; d 136322 4;
  d 122583999999999 13; d 133766000000001 13; d 11423 3; d 131232 4; d 951639999999998 14; d 105938000000001 13;
  d 959719999999993 14; d 812220000000002 14; d 976739999999995 14; d 750440000000003 14; d 756999999999994 14; d 670440000000008 14;
  d 641419999999994 14; d 671019999999999 14; d 560940000000005 14; d 465219999999999 14; d 684099999999989 14; d 34072000000001 13;
  d 397859999999991 14; d 332760000000007 14; d 552160000000003 14; d 331860000000006 14; d 206940000000009 14; d 435400000000004 14;
  d 157500000000005 14; d 280799999999999 15; d 212879999999996 14; d (-214799999999968) 15; d (-378000000000611) 16; d (-658200000000079) 15;
  d 654800000000023 15; d (-697999999999865) 16; d 858400000000074 15; d (-252700000000004) 14; d (-21751999999999) 13; d (-335539999999992) 14;
  d (-104019999999991) 14; d (-651000000000067) 15; d (-214439999999991) 14; d (-196659999999997) 14; d (-397939999999994) 14; d (-604400000000169) 15;
  d (-308260000000018) 14; d (-339159999999993) 14; d (-529640000000018) 14; d (-538920000000007) 14; d (-508759999999984) 14; d (-469900000000007) 14;
  d (-523720000000003) 14; d (-315779999999995) 14; d (-497879999999986) 14; d (-489899999999989) 14; d (-748880000000008) 14; d (-594799999999987) 14;
  d (-568060000000014) 14; d (-667180000000008) 14; d (-470499999999993) 14; d (-727779999999984) 14; d (-46579999999999) 13; d (-44362000000001) 13;
  d (-432139999999981) 14; d (-518859999999995) 14; d (-666879999999992) 14; d (-648399999999992) 14; d (-51260000000002) 13; d (-44032000000002) 13;
  d (-613500000000022) 14; d (-580819999999994) 14; d (-416719999999987) 14; d (-415039999999999) 14; d (-745600000000013) 14; d (-724080000000004) 14;
  d (-983179999999993) 14; d (-580420000000004) 14; d (-86561999999999) 13; d (-699940000000015) 14; d (-105473999999999) 13; d (-734139999999979) 14;
  d (-680999999999995) 14; d (-629719999999998) 14; d (-623199999999997) 14
].

(** constants.rs:2231-2432: biases, precision 10, 200 entries. *)
Definition bias_dec_10 : list (Z * N) := [
  d 7371256 4; d 7244234 4; d 7111064 4; d 6984732 4; d 6854636 4; d 6730644 4;
  d 660488 3; d 6479654 4; d 6360832 4; d 6237864 4; d 6121992 4; d 6002176 4;
  d 5885228 4; d 5771716 4; d 5657752 4; d 554899 3; d 5436126 4; d 5326492 4;
  d 5219474 4; d 5115214 4; d 5011064 4; d 4906364 4; d 4802468 4; d 4704588 4;
  d 4603832 4; d 4510584 4; d 4408606 4; d 4313868 4; d 4225062 4; d 4131862 4;
  d 404463 3; d 395339 3; d 3861936 4; d 3781292 4; d 3691854 4; d 3612908 4;
  d 3533324 4; d 3448518 4; d 3375204 4; d 3294854 4; d 3219318 4; d 314552 3;
  d 3064658 4; d 2994256 4; d 292849 3; d 286152 3; d 2788956 4; d 2718792 4;
  d 265118 3; d 25862 2; d 2525132 4; d 2459322 4; d 2397726 4; d 2336086 4;
  d 2275332 4; d 2225918 4; d 2164294 4; d 2107662 4; d 2054106 4; d 1997338 4;
  d 1949012 4; d 1884486 4; d 1831556 4; d 1786338 4; d 1737312 4; d 1696264 4;
  d 1639526 4; d 1598742 4; d 1558326 4; d 1511966 4; d 1475594 4; d 14307 2;
  d 140037 3; d 1341804 4; d 131071 3; d 1274884 4; d 1240848 4; d 1202944 4;
  d 117333 3; d 1129626 4; d 1102902 4; d 1070814 4; d 1030334 4; d 994832000000001 13;
  d 963899999999999 13; d 937202000000002 13; d 901714000000002 13; d 872357999999999 13; d 859346 4; d 828910000000001 13;
  d 800264000000002 13; d 783834000000002 13; d 751543999999999 13; d 738683999999998 13; d 709895999999999 13; d 694367999999999 13;
  d 648701999999998 13; d 650408000000002 13; d 616738 4; d 595207999999998 13; d 570158000000001 13; d 542302 4;
  d 530962 4; d 504985999999999 13; d 522588000000001 13; d 473914 4; d 456244000000002 13; d 428377999999998 13;
  d 430072 4; d 406516000000001 13; d 402453999999998 13; d 352136 4; d 364546 4; d 337849999999999 13;
  d 332294000000002 13; d 324679999999998 13; d 308670000000002 13; d 286507999999999 13; d 289099999999999 13; d 275983999999999 13;
  d 261619999999998 13; d 245563999999999 13; d 232328000000002 13; d 219484000000002 13; d 215902000000001 13; d 213346000000001 13;
  d 177031999999999 13; d 206111999999998 13; d 195545999999999 13; d 157375999999999 13; d 170720000000001 13; d 169517999999998 13;
  d 15326 3; d 131817999999998 13; d 146925999999999 13; d 130859999999998 13; d 132754 4; d 108697999999999 13;
  d 11248 3; d 73768 4; d 472339999999986 14; d 797899999999981 14; d 87503999999999 13; d 768119999999999 14;
  d 97199999999998 13; d 773919999999998 14; d 56224000000002 13; d 744560000000001 14; d 66601999999998 13; d 59058 4;
  d 400199999999995 14; d 451699999999983 14; d 468240000000014 14; d 386220000000003 14; d 513639999999987 14; d 598500000000013 14;
  d 247719999999981 14; d 261999999999989 14; d 162800000000016 14; d 465000000000009 14; d 225599999999758 15; d 831000000000131 15;
  d (-359400000000278) 15; d 127599999999984 14; d (-292559999999958) 14; d (-303999999996449) 16; d 237079999999969 14; d (-20033999999996) 13;
  d 804600000000391 15; d 30199999999968 14; d 11247999999996 13; d (-26880000000001) 13; d 321999999996478 16; d (-118099999999959) 14;
  d (-39402) 4; d (-147940000000017) 14; d (-188400000000001) 15; d (-210720000000038) 14; d (-204159999999956) 14; d (-312880000000041) 14;
  d (-416160000000036) 14; d (-612799999999879) 15; d (-348719999999958) 14; d (-817900000000009) 14; d (-537780000000021) 14; d (-401379999999972) 14;
  d (-558259999999973) 14; d (-573719999999958) 14; d (-766799999999967) 14; d (-569520000000011) 14; d (-11247999999996) 13; d (-558520000000044) 14;
  d (-804560000000038) 14; d (-464840000000004) 14; d (-116468000000004) 13; d (-797519999999986) 14; d (-578300000000036) 14; d (-767420000000038) 14;
  d (-106328000000003) 13; d (-981720000000041) 14
].

(** constants.rs:2434-2636: biases, precision 11, 201 entries. *)
Definition bias_dec_11 : list (Z * N) := [
  d 1476 0; d 14496014 4; d 14235802 4; d 13977942 4; d 13723042 4; d 13472062 4;
  d 13218402 4; d 12972292 4; d 12729462 4; d 12489926 4; d 12253026 4; d 12014252 4;
  d 11780578 4; d 11556092 4; d 1132626 3; d 11105568 4; d 1088527 3; d 10665154 4;
  d 10451874 4; d 10243878 4; d 100337 2; d 9821972 4; d 9625728 4; d 9421012 4;
  d 9229668 4; d 903292 3; d 8840772 4; d 8648578 4; d 8466562 4; d 828041 3;
  d 809714 3; d 7923112 4; d 7751806 4; d 7579854 4; d 740656 3; d 724346 3;
  d 7075154 4; d 6918378 4; d 6757448 4; d 6596722 4; d 6455722 4; d 6301462 4;
  d 6144124 4; d 6008728 4; d 585898 3; d 572408 3; d 5584926 4; d 5444938 4;
  d 5316776 4; d 517282 3; d 5057704 4; d 4931012 4; d 4807388 4; d 4676876 4;
  d 4561872 4; d 4455048 4; d 4330214 4; d 420806 3; d 411409 3; d 4004144 4;
  d 3894294 4; d 3792286 4; d 369651 3; d 3606156 4; d 350337 3; d 342083 3;
  d 3321538 4; d 3225094 4; d 31501 2; d 3056686 4; d 2981678 4; d 2878116 4;
  d 2809978 4; d 2719204 4; d 2653286 4; d 2575706 4; d 2496014 4; d 242544 3;
  d 2355976 4; d 229583 3; d 2209438 4; d 214672 3; d 2082786 4; d 2018628 4;
  d 1951834 4; d 191505 3; d 1861816 4; d 1785188 4; d 1722294 4; d 1678908 4;
  d 1610194 4; d 158052 3; d 1514588 4; d 1481596 4; d 1434344 4; d 1385238 4;
  d 13313 2; d 1276374 4; d 1248162 4; d 1187894 4; d 1173984 4; d 1146078 4;
  d 1090858 4; d 1051036 4; d 1036258 4; d 986018000000004 13; d 957618000000002 13; d 935821999999998 13;
  d 885900000000001 13; d 869992000000002 13; d 828800000000001 13; d 804539999999997 13; d 746981999999998 13; d 743644000000004 13;
  d 732914000000001 13; d 655709999999999 13; d 669232000000002 13; d 651913999999997 13; d 625882000000001 13; d 615702000000001 13;
  d 557035999999998 13; d 561764000000003 13; d 527596000000003 13; d 530302000000001 13; d 490609999999997 13; d 484694 4;
  d 44933 3; d 460474000000004 13; d 447165999999997 13; d 419416000000001 13; d 399207999999999 13; d 356328000000003 13;
  d 355276000000003 13; d 331934000000001 13; d 332371999999996 13; d 333864000000003 13; d 339228000000003 13; d 302371999999996 13;
  d 291373999999996 13; d 252272000000003 13; d 242942000000003 13; d 198338000000003 13; d 189005999999999 13; d 230907999999999 13;
  d 218544000000002 13; d 195176000000001 13; d 154147999999996 13; d 169314000000004 13; d 186737999999996 13; d 129877999999999 13;
  d 143688000000002 13; d 120447999999997 13; d 155219999999999 13; d 125299999999997 13; d 145940000000001 13; d 143131999999996 13;
  d 945499999999993 14; d 129441999999999 13; d 391139999999996 14; d 131373999999996 13; d 544720000000052 14; d 982779999999912 14;
  d 787279999999919 14; d 367760000000089 14; d 546980000000076 14; d 555099999999948 14; d 565979999999945 14; d 389439999999922 14;
  d 31275999999998 13; d 565140000000065 14; d 63062000000009 13; d 390799999999945 14; d 187060000000019 14; d 517020000000048 14;
  d 246680000000015 14; d 770000000000437 15; d (-372340000000077) 14; d 116400000000067 14; d 805340000000069 14; d 135399999999208 15;
  d 215940000000046 14; d 766999999999825 15; d 10594000000001 13; d 315500000000065 14; d (-287399999999252) 15; d 237219999999979 14;
  d (-286620000000039) 14; d (-163199999999961) 14; d (-222979999999916) 14; d (-15519999999924) 14; d (-146039999999994) 14; d (-262199999999211) 15;
  d (-234460000000036) 14; d (-28078000000005) 13; d (-322179999999935) 14; d (-560159999999996) 14; d (-842200000000048) 14; d (-943740000000071) 14;
  d 161799999999857 15; d (-104755999999998) 13; d (-100823999999993) 13
].

(** constants.rs:2638-2840: biases, precision 12, 201 entries. *)
Definition bias_dec_12 : list (Z * N) := [
  d 2953 0; d 29004782 4; d 28483568 4; d 27963666 4; d 2745324 3; d 26949598 4;
  d 2644648 3; d 2595539 3; d 25461474 4; d 24982576 4; d 24508376 4; d 24036076 4;
  d 2357451 3; d 231138 2; d 22664104 4; d 22215638 4; d 21769676 4; d 2134193 3;
  d 2090838 3; d 20488548 4; d 2007018 3; d 19661742 4; d 19254482 4; d 18851294 4;
  d 18464776 4; d 18074044 4; d 17688724 4; d 17313732 4; d 16934304 4; d 16575326 4;
  d 1621949 3; d 15865532 4; d 15517256 4; d 15176182 4; d 14835186 4; d 14504528 4;
  d 1417865 3; d 13857164 4; d 13526828 4; d 13226708 4; d 12918312 4; d 12609036 4;
  d 1231476 3; d 12018652 4; d 11736718 4; d 1145757 3; d 11192072 4; d 10922828 4;
  d 10650434 4; d 10386264 4; d 10143192 4; d 9885746 4; d 9650816 4; d 9401176 4;
  d 9179796 4; d 8945576 4; d 8711858 4; d 8499144 4; d 8271142 4; d 8050818 4;
  d 7839664 4; d 7639096 4; d 7420816 4; d 7243962 4; d 7063454 4; d 688018 3;
  d 6674214 4; d 6503106 4; d 6330686 4; d 6138094 4; d 597818 3; d 5814248 4;
  d 563834 3; d 547363 3; d 5315066 4; d 520455400000001 12; d 505583199999999 12; d 488366 3;
  d 476480799999999 12; d 4597682 4; d 4500522 4; d 434328799999999 12; d 423952799999999 12; d 408727000000001 12;
  d 399079400000001 12; d 387252200000001 12; d 373987999999999 12; d 360852000000001 12; d 3516394 4; d 339642 3;
  d 330902400000001 12; d 322661599999999 12; d 311662200000001 12; d 3013254 4; d 2917484 4; d 279939200000001 12;
  d 2767508 4; d 263215200000001 12; d 254811400000001 12; d 2455494 4; d 242306399999999 12; d 2348734 4;
  d 223787200000001 12; d 2177156 4; d 2120196 4; d 200793 3; d 1959748 4; d 1890702 4;
  d 182449199999999 12; d 1772772 4; d 1702336 4; d 164741 3; d 158613600000001 12; d 155311 3;
  d 1475964 4; d 142837 3; d 1373724 4; d 1320162 4; d 1300424 4; d 1219804 4;
  d 120451800000001 12; d 1148968 4; d 111585999999999 12; d 105933199999999 12; d 101705 3; d 985141999999996 13;
  d 950488000000005 13; d 897880000000005 13; d 914750000000004 13; d 837764000000006 13; d 809698000000008 13; d 728574000000008 13;
  d 731615999999995 13; d 675838000000003 13; d 626263999999992 13; d 632638000000006 13; d 660977999999996 13; d 520843999999997 13;
  d 589956000000002 13; d 470912000000008 13; d 464956000000002 13; d 484383999999991 13; d 471082000000006 13; d 432392 4;
  d 372759999999998 13; d 400283999999992 13; d 351864000000005 13; d 358595999999998 13; d 320998 4; d 28027 3;
  d 236694000000007 13; d 338266000000003 13; d 263736000000008 13; d 272008000000005 13; d 213245999999999 13; d 264115999999995 13;
  d 234521999999997 13; d 195013999999992 13; d 198513999999996 13; d 107492000000002 13; d 186424000000006 13; d 131265999999996 13;
  d 182436000000016 13; d 671860000000015 14; d 339459999999963 14; d 633759999999893 14; d 776719999999841 14; d 813999999998487 15;
  d 382819999999992 14; d 826199999999517 15; d 807440000000133 14; d (-159080000000176) 14; d 501780000000144 14; d 455399999998917 15;
  d (-24199999999837) 14; d 174800000000687 15; d (-907640000000174) 14; d (-420160000000033) 14; d (-377520000000004) 14; d (-475179999999818) 14;
  d (-53724000000002) 13; d (-890680000000066) 14; d (-610239999999976) 14; d (-574120000000039) 14; d (-995339999999851) 14; d (-386339999999836) 14;
  d (-137304000000004) 13; d (-162710000000006) 13; d (-751359999999841) 14; d (-330679999999847) 14; d (-131339999999982) 13; d (-100551999999989) 13;
  d (-672019999999975) 14; d (-859660000000076) 14; d (-109307999999983) 13; d (-18775999999998) 13; d (-482259999999951) 14; d (-137788) 4;
  d (-216470000000008) 13; d (-106735999999983) 13; d (-157799999999988) 13
].

(** constants.rs:2842-3043: biases, precision 13, 200 entries. *)
Definition bias_dec_13 : list (Z * N) := [
  d 59075052 4; d 58022672 4; d 5697347 3; d 55935794 4; d 54912622 4; d 53905514 4;
  d 52903376 4; d 51916952 4; d 50935988 4; d 49973552 4; d 49025972 4; d 48083082 4;
  d 47155646 4; d 4624109 3; d 45338216 4; d 44444344 4; d 43563802 4; d 42692962 4;
  d 41833784 4; d 4098292 3; d 401479 2; d 39324574 4; d 38506036 4; d 37712712 4;
  d 36917708 4; d 3615099 3; d 35381858 4; d 34634746 4; d 33888496 4; d 33156794 4;
  d 32445448 4; d 31737516 4; d 31033106 4; d 30336094 4; d 29665642 4; d 2900794 3;
  d 28337256 4; d 276981 2; d 27073196 4; d 26440778 4; d 25839916 4; d 25234662 4;
  d 2464124 3; d 2406073 3; d 23470362 4; d 22921006 4; d 22381716 4; d 21827514 4;
  d 21284884 4; d 20771314 4; d 2025037 3; d 19753756 4; d 1928933 3; d 1879311 3;
  d 18310006 4; d 17832144 4; d 17383096 4; d 16945144 4; d 1649024 3; d 1606847 3;
  d 15647528 4; d 15253168 4; d 14825372 4; d 14439668 4; d 14065074 4; d 1365867 3;
  d 13292186 4; d 12954186 4; d 12579716 4; d 1225339 3; d 11932972 4; d 11563578 4;
  d 11258686 4; d 1091187 3; d 10614094 4; d 10294188 4; d 10009126 4; d 9723272 4;
  d 944004199999999 12; d 9157592 4; d 889965 3; d 862834200000001 12; d 8404254 4; d 812598399999999 12;
  d 785924200000001 12; d 763050999999999 12; d 741793799999999 12; d 721466 3; d 699040799999999 12; d 677997200000002 12;
  d 649866999999998 12; d 634911800000002 12; d 6098694 4; d 591981599999999 12; d 5702922 4; d 557129199999999 12;
  d 5383858 4; d 521872599999999 12; d 502951400000002 12; d 495776399999999 12; d 475171399999999 12; d 459751 3;
  d 439995200000001 12; d 426708999999999 12; d 4137016 4; d 4023868 4; d 387262599999998 12; d 3720524 4;
  d 357050999999999 12; d 3425098 4; d 334849200000001 12; d 322529399999999 12; d 311613799999999 12; d 295848000000002 12;
  d 289273000000001 12; d 274093000000001 12; d 263329600000001 12; d 251389599999999 12; d 2457392 4; d 2319614 4;
  d 2297952 4; d 217155200000001 12; d 2089588 4; d 199016599999999 12; d 190839199999999 12; d 1806976 4;
  d 176272799999999 12; d 166976999999999 12; d 1625252 4; d 151196400000001 12; d 149386999999999 12; d 133981199999998 12;
  d 1300586 4; d 130164000000001 12; d 122053400000001 12; d 1107428 4; d 1081276 4; d 106232400000001 12;
  d 100381600000001 12; d 987668000000012 13; d 866440000000002 13; d 799768000000004 13; d 824722000000002 13; d 687026000000005 13;
  d 701186000000016 13; d 719948000000004 13; d 58998599999999 12; d 590492000000013 13; d 569818000000014 13; d 475338000000011 13;
  d 429928 4; d 511591999999982 13; d 372740000000013 13; d 427220000000016 13; d 313734000000004 13; d 268090000000011 13;
  d 258934000000008 13; d 265286000000015 13; d 295442000000003 13; d 193503999999994 13; d 260760000000009 13; d 179527999999991 13;
  d 148419999999969 13; d 104683999999979 13; d 865899999999965 14; d 986720000000059 14; d 434139999999752 14; d (-907800000000861) 15;
  d (-332080000000133) 14; d (-936199999996461) 15; d (-119916000000012) 13; d (-887000000000262) 14; d (-633099999999831) 14; d (-113366000000024) 13;
  d (-159207999999999) 13; d (-934659999999712) 14; d (-155034000000014) 13; d (-192097999999969) 13; d (-15357799999998) 12; d (-282235999999975) 13;
  d (-306898000000001) 13; d (-193271999999997) 13; d (-256083999999973) 13; d (-24409599999999) 12; d (-136385999999984) 13; d (-334473999999973) 13;
  d (-326949999999997) 13; d (-289063999999998) 13; d (-317483999999968) 13; d (-322935999999972) 13; d (-358329999999987) 13; d (-47620600000002) 12;
  d (-390855999999985) 13; d (-331434000000008) 13; d (-461371999999974) 13; d (-375892000000022) 13; d (-468164000000033) 13; d (-473142000000007) 13;
  d (-602914000000019) 13; d (-377575999999972) 13
].

(** constants.rs:3045-3247: biases, precision 14, 201 entries. *)
Definition bias_dec_14 : list (Z * N) := [
  d 11816475 3; d 116050046 4; d 113953792 4; d 111887504 4; d 109841814 4; d 107820086 4;
  d 105820072 4; d 10384503 3; d 10189178 3; d 99962738 4; d 98060344 4; d 96179798 4;
  d 9431394 3; d 92487784 4; d 90676894 4; d 88896824 4; d 87129134 4; d 85388624 4;
  d 83684944 4; d 81977956 4; d 80318916 4; d 78666316 4; d 7703733 3; d 75445726 4;
  d 7386204 3; d 7230666 3; d 70778516 4; d 69267886 4; d 67786902 4; d 66319632 4;
  d 6487304 3; d 63467486 4; d 62064408 4; d 6070202 3; d 59352576 4; d 5799924 3;
  d 56710324 4; d 55419788 4; d 54146112 4; d 52900274 4; d 5166723 3; d 50476906 4;
  d 4929162 3; d 48151406 4; d 4699127 3; d 45885606 4; d 44777394 4; d 43694014 4;
  d 42642728 4; d 41559224 4; d 4055581 3; d 3955505 3; d 38569618 4; d 37613828 4;
  d 36669702 4; d 35757764 4; d 34824132 4; d 33950186 4; d 33058852 4; d 3221415 3;
  d 31386024 4; d 3056296 3; d 29704494 4; d 28961526 4; d 28168008 4; d 27402156 4;
  d 2670497 3; d 25941458 4; d 2527111 3; d 24608168 4; d 23875114 4; d 23229498 4;
  d 22606752 4; d 21942686 4; d 21337792 4; d 2074767 3; d 2015204 3; d 19594226 4;
  d 18986502 4; d 1850006 3; d 1792849 3; d 17414838 4; d 16879778 4; d 16381322 4;
  d 15893266 4; d 15431394 4; d 14968266 4; d 14478516 4; d 14027354 4; d 13619606 4;
  d 13270692 4; d 12854106 4; d 12418112 4; d 12016726 4; d 1161973 3; d 1130261 3;
  d 10942036 4; d 10482036 4; d 10206436 4; d 990901400000002 12; d 961199800000002 12; d 924769800000002 12;
  d 899526400000002 12; d 872346400000002 12; d 834375 3; d 810432000000001 12; d 780659800000001 12; d 756013800000001 12;
  d 733479399999997 12; d 707923999999999 12; d 673858 3; d 652222399999999 12; d 636572399999997 12; d 615738599999997 12;
  d 586696400000001 12; d 564147199999999 12; d 541679600000003 12; d 523943599999999 12; d 505714599999999 12; d 475729599999999 12;
  d 461779600000002 12; d 449750800000002 12; d 439020799999998 12; d 4127886 4; d 400245600000002 12; d 383188199999997 12;
  d 362079599999997 12; d 357533799999997 12; d 334319000000003 12; d 327553399999997 12; d 308559399999998 12; d 291270199999999 12;
  d 279351999999999 12; d 271791400000002 12; d 252576999999997 12; d 247482400000001 12; d 236174800000001 12; d 218774599999997 12;
  d 220155200000001 12; d 208794399999999 12; d 201223599999998 12; d 182995600000002 12; d 1855268 4; d 164547400000003 12;
  d 1765962 4; d 150689599999998 12; d 1578004 4; d 138378799999999 12; d 134021200000003 12; d 117614399999999 12;
  d 108194000000003 12; d 970696000000025 13; d 896042000000016 13; d 956030000000028 13; d 847810000000027 13; d 72635000000002 12;
  d 773482000000004 13; d 594907999999996 13; d 555875999999989 13; d 507346000000034 13; d 613916000000027 13; d 509149999999936 13;
  d 390384000000049 13; d 589395999999979 13; d 29633600000001 12; d 282032000000036 13; d 260078000000067 13; d 170387999999948 13;
  d 922000000000116 14; d 138387999999977 13; d 807240000000456 14; d 141549999999988 13; d 153570000000036 13; d 342660000000615 14;
  d 624820000000182 14; d (-296940000000177) 14; d (-879940000000352) 14; d (-597860000000219) 14; d (-144048000000039) 13; d (-34143999999942) 13;
  d (-130148000000045) 13; d (-116977999999945) 13; d (-257878000000055) 13; d (-223185999999987) 13; d (-24409599999999) 12; d (-319756000000052) 13;
  d (-189722000000038) 13; d (-228678000000073) 13; d (-308972000000067) 13; d (-323715999999986) 13; d (-223907999999938) 13; d (-436720000000059) 13;
  d (-359038) 4; d (-397492000000057) 13; d (-541641999999993) 13; d (-452749999999942) 13; d (-422989999999991) 13; d (-441089999999967) 13;
  d (-643564000000042) 13; d (-499551999999967) 13; d (-426116000000038) 13
].

(** constants.rs:3249-3451: biases, precision 15, 201 entries. *)
Definition bias_dec_15 : list (Z * N) := [
  d 236340036 4; d 232108034 4; d 227924744 4; d 223791524 4; d 219697928 4; d 21565326 3;
  d 211653532 4; d 207702806 4; d 203799892 4; d 199947098 4; d 19613318 3; d 19236799 3;
  d 188654382 4; d 184988244 4; d 181365138 4; d 177788668 4; d 174262344 4; d 1707932 2;
  d 16734778 3; d 163972418 4; d 160633324 4; d 157340232 4; d 15409731 3; d 15088728 3;
  d 147729896 4; d 144641402 4; d 141575588 4; d 138555958 4; d 135593296 4; d 132649096 4;
  d 12978326 3; d 126920826 4; d 124138816 4; d 121373192 4; d 118702326 4; d 116025554 4;
  d 113403142 4; d 11079613 3; d 108295908 4; d 105835466 4; d 103340344 4; d 100955072 4;
  d 9859694 3; d 96252822 4; d 93957862 4; d 91740586 4; d 89573164 4; d 8738064 3;
  d 8524155 3; d 83137396 4; d 81169168 4; d 7913542 3; d 77184778 4; d 752165 2;
  d 73355596 4; d 71542906 4; d 69687396 4; d 67863996 4; d 6613236 3; d 6437406 3;
  d 62706598 4; d 61077958 4; d 59457174 4; d 57876784 4; d 56355784 4; d 5482308 3;
  d 53379784 4; d 51900864 4; d 50459158 4; d 49191386 4; d 4771817 3; d 46457742 4;
  d 45184774 4; d 43855454 4; d 42626622 4; d 414274679999999 11; d 40155318 4; d 38979276 4;
  d 37907764 4; d 368513800000001 11; d 35736274 4; d 34679706 4; d 336861079999999 11; d 32715202 4;
  d 31703848 4; d 30764656 4; d 298238400000001 11; d 28884664 4; d 28064868 4; d 27119564 4;
  d 26341434 4; d 25513204 4; d 24697662 4; d 239661139999999 11; d 23189902 4; d 22438658 4;
  d 21719246 4; d 210501360000001 11; d 20288536 4; d 19609952 4; d 19014096 4; d 184186079999999 11;
  d 177754700000001 11; d 17145802 4; d 165465059999999 11; d 1596311 3; d 15462016 4; d 14923296 4;
  d 14338974 4; d 138384600000001 11; d 13394152 4; d 12935518 4; d 12458686 4; d 119350659999999 11;
  d 116227959999999 11; d 110719439999999 11; d 106918060000001 11; d 103509179999999 11; d 999679000000004 12; d 957679999999993 12;
  d 925300199999998 12; d 888099400000006 12; d 848638600000006 12; d 818156400000007 12; d 796748399999997 12; d 752139200000005 12;
  d 725271200000003 12; d 692216 3; d 671633600000001 12; d 647939799999993 12; d 621670599999998 12; d 575398799999995 12;
  d 561226599999995 12; d 532237999999998 12; d 521787599999996 12; d 483095799999996 12; d 467049599999998 12; d 465286399999997 12;
  d 415548599999995 12; d 401047399999996 12; d 380607999999993 12; d 377362599999993 12; d 347258799999996 12; d 338371599999999 12;
  d 310096999999994 12; d 301409199999995 12; d 276280799999993 12; d 265586800000005 12; d 258994399999996 12; d 223915999999997 12;
  d 215925399999993 12; d 213503800000006 12; d 191045400000003 12; d 166718200000003 12; d 166259000000005 12; d 162941200000001 12;
  d 148829400000002 12; d 141645999999993 12; d 123535399999993 12; d 122329800000007 12; d 89473399999988 12; d 801962000000058 13;
  d 775457999999926 13; d 591056000000099 13; d 833509999999951 13; d 522906000000075 13; d 363979999999865 13; d 406558000000077 13;
  d 420003999999899 13; d 196630000000005 13; d 197153999999864 13; d (-838539999999921) 14; d (-692799999989802) 15; d 854800000000978 15;
  d 323219999999856 14; d (-389040000000386) 14; d (-525880000001052) 14; d (-249052000000083) 13; d (-226837999999989) 13; d (-264286000000138) 13;
  d (-34997000000003) 12; d (-370216000000073) 13; d (-43430400000012) 12; d (-582390000000014) 13; d (-688034000000043) 13; d (-569245999999985) 13;
  d (-578583999999973) 13; d (-773097999999882) 13; d (-732793999999994) 13; d (-810738000000129) 13; d (-874530000000086) 13; d (-650254000000132) 13;
  d (-57296399999992) 12; d (-962746000000043) 13; d (-10325) 2; d (-96081600000005) 12; d (-915542000000132) 13; d (-102465200000006) 12;
  d (-107688599999994) 12; d (-101458000000013) 12; d (-109715800000005) 12
].

(** constants.rs:3453-3654: biases, precision 16, 200 entries. *)
Definition bias_dec_16 : list (Z * N) := [
  d 47270 0; d 464233584 4; d 455857074 4; d 44757152 3; d 439388416 4; d 431309514 4;
  d 4233003 2; d 41540407 3; d 407596348 4; d 39988206 3; d 392265144 4; d 384732096 4;
  d 37729795 3; d 36997268 3; d 362726448 4; d 35558665 3; d 348530248 4; d 341574472 4;
  d 334705204 4; d 327935742 4; d 321270194 4; d 314694182 4; d 308176136 4; d 301786968 4;
  d 295468908 4; d 289228544 4; d 28312271 3; d 277070924 4; d 271140326 4; d 26526692 3;
  d 259486336 4; d 253837826 4; d 248235998 4; d 242722974 4; d 237322572 4; d 232014976 4;
  d 226742796 4; d 221636336 4; d 21656515 3; d 211617362 4; d 206699368 4; d 201894424 4;
  d 197173358 4; d 192563744 4; d 187959638 4; d 18352197 3; d 179085738 4; d 17474391 3;
  d 17052918 3; d 166372236 4; d 162284602 4; d 158233474 4; d 154286974 4; d 150430284 4;
  d 146676278 4; d 142974588 4; d 139352882 4; d 135785402 4; d 132346032 4; d 128821578 4;
  d 125480728 4; d 12219231 3; d 118980072 4; d 115872626 4; d 112799072 4; d 109735048 4;
  d 106785186 4; d 103924876 4; d 101052556 4; d 9825766 3; d 95625444 4; d 92942222 4;
  d 90382352 4; d 8784848 3; d 85332644 4; d 83017776 4; d 805830859999999 11; d 782294579999999 11;
  d 759911319999999 11; d 736690779999999 11; d 7161217 3; d 695753080000001 11; d 6736212 3; d 654821220000001 11;
  d 634306839999999 11; d 615628719999999 11; d 597515419999999 11; d 579175719999999 11; d 562132019999999 11; d 545166 2;
  d 528761040000001 11; d 511809479999999 11; d 4957288 3; d 47984246 4; d 466217559999999 11; d 451205900000001 11;
  d 436468539999999 11; d 422077720000001 11; d 408267259999999 11; d 395719519999999 11; d 384215779999999 11; d 36993328 4;
  d 358301180000001 11; d 34738964 4; d 333866639999999 11; d 323355559999999 11; d 3117799 3; d 3008111 3;
  d 290969140000001 11; d 281486499999999 11; d 271946119999999 11; d 2624742 3; d 253246979999999 11; d 24447886 4;
  d 23701868 4; d 227245259999999 11; d 219619260000001 11; d 211790419999999 11; d 20232972 4; d 196976819999999 11;
  d 188558979999999 11; d 18332824 4; d 173391200000001 11; d 168254920000001 11; d 160457980000001 11; d 155611240000001 11;
  d 14913064 4; d 142171960000001 11; d 137122899999999 11; d 13221324 4; d 12647892 4; d 119623920000001 11;
  d 11438474 4; d 108867240000001 11; d 107360380000001 11; d 102311660000001 11; d 959036400000012 12; d 927433199999999 12;
  d 906792799999996 12; d 853433599999989 12; d 841873800000001 12; d 7911054 4; d 756899999999994 12; d 704343200000003 12;
  d 672495599999995 12; d 622790399999998 12; d 611254799999995 12; d 567283200000005 12; d 519406599999988 12; d 519188400000014 12;
  d 495312800000014 12; d 451350799999986 12; d 443973399999988 12; d 431882199999993 12; d 392027000000002 12; d 380924200000009 12;
  d 345128999999986 12; d 298901400000002 12; d 287771999999997 12; d 272625 3; d 247253000000026 12; d 222490600000019 12;
  d 223590000000026 12; d 196407599999977 12; d 176425999999978 12; d 134725199999986 12; d 1324804 4; d 110445599999977 12;
  d 867939999999944 13; d 567038000000175 13; d 64915399999998 12; d 383726000000024 13; d 371606000000029 13; d 46170999999973 12;
  d 491716000000015 13; d 153362000000197 13; d 671639999997569 14; d (-348185999999987) 13; d (-394476000000141) 13; d 126830000000191 13;
  d (-123331999999937) 13; d (-506565999999875) 13; d (-599538000000175) 13; d (-651054000000004) 13; d (-707576000000117) 13; d (-106325200000021) 12;
  d (-126852200000023) 12; d (-110227599999984) 12; d (-132885999999999) 12; d (-113897200000007) 12; d (-142713800000027) 12; d (-151145399999979) 12;
  d (-150799200000009) 12; d (-177756200000003) 12; d (-156036399999983) 12; d (-182735199999996) 12; d (-177259399999981) 12; d (-198663600000029) 12;
  d (-174577600000019) 12; d (-19384580000001) 11
].

(** constants.rs:3656-3858: biases, precision 17, 201 entries. *)
Definition bias_dec_17 : list (Z * N) := [
  d 94541 0; d 92848811 3; d 91174019 3; d 89517558 3; d 878799705 4; d 862627565 4;
  d 846635125 4; d 830837435 4; d 815217865 4; d 79977272 3; d 784559465 4; d 76950219 3;
  d 75465432 3; d 73994152 3; d 7254671 2; d 711152345 4; d 697056765 4; d 68314937 3;
  d 669442705 4; d 65591255 3; d 642529485 4; d 62938016 3; d 616368225 4; d 60355592 3;
  d 59092789 3; d 57850568 3; d 56624518 3; d 55417343 3; d 542311415 4; d 53067387 3;
  d 51903526 3; d 50774649 3; d 496576415 4; d 4856105 2; d 474757575 4; d 46410159 3;
  d 45364852 3; d 44327053 3; d 433184005 4; d 423256165 4; d 413484595 4; d 403836265 4;
  d 3943677 2; d 38509502 3; d 37594035 3; d 36695939 3; d 358186895 4; d 34955691 3;
  d 341158095 4; d 33293949 3; d 324650775 4; d 316576715 4; d 308772585 4; d 3009378 2;
  d 293513695 4; d 285941365 4; d 27872115 3; d 271687465 4; d 26477076 3; d 25774541 3;
  d 251065375 4; d 244525135 4; d 238155125 4; d 231740655 4; d 225552685 4; d 219602065 4;
  d 213763555 4; d 207851925 4; d 20211517 3; d 196570725 4; d 191416865 4; d 18579737 3;
  d 180813955 4; d 17578995 3; d 1707344 2; d 16608335 3; d 16119911 3; d 15651266 3;
  d 15194583 3; d 147490495 4; d 143434835 4; d 13925639 3; d 13504509 3; d 130993885 4;
  d 126912855 4; d 12328018 3; d 119690345 4; d 115965145 4; d 112456355 4; d 109176575 4;
  d 105809785 4; d 102778605 4; d 992658100000001 11; d 9605538 3; d 930042950000003 11; d 898997850000003 11;
  d 872873249999998 11; d 84483235 4; d 817531050000002 11; d 789898700000002 11; d 762979100000003 11; d 741376199999999 11;
  d 714992300000001 11; d 692112650000001 11; d 66771545 4; d 644328000000003 11; d 627823450000002 11; d 601420049999998 11;
  d 579120299999998 11; d 560578450000001 11; d 543848800000001 11; d 52342255 4; d 50596825 4; d 488743349999998 11;
  d 4682935 3; d 449631099999999 11; d 432252250000002 11; d 419142499999999 11; d 402124200000003 11; d 390064799999999 11;
  d 376284250000003 11; d 360998050000001 11; d 350229599999997 11; d 336384250000003 11; d 320654849999998 11; d 307970000000001 11;
  d 297142300000001 11; d 286780349999998 11; d 272708100000001 11; d 263074900000001 11; d 24966165 4; d 2440902 3;
  d 235619150000002 11; d 223558199999999 11; d 212054149999999 11; d 201225449999998 11; d 193335600000003 11; d 182093099999998 11;
  d 176154800000001 11; d 166309350000002 11; d 157884600000002 11; d 150948149999999 11; d 14273345 4; d 137956150000001 11;
  d 130668099999998 11; d 121263449999999 11; d 108417300000001 11; d 112416450000001 11; d 106069949999999 11; d 100748849999998 11;
  d 941194499999983 12; d 879880500000028 12; d 836007500000007 12; d 782802000000025 12; d 748385499999975 12; d 647991500000004 12;
  d 626730500000005 12; d 570776000000013 12; d 484000500000024 12; d 51398550000001 11; d 418985499999952 12; d 386996999999974 12;
  d 370026500000036 12; d 355496999999974 12; d 356731499999994 12; d 25592200000002 11; d 259094000000041 12; d 205434499999974 12;
  d 165374500000034 12; d 197347500000033 12; d 95718499999959 12; d 676165000000037 13; d 546970000000438 13; d 317395000000251 13;
  d (-158784999999916) 13; d 842500000004657 14; d (-263754999999655) 13; d (-118425500000012) 12; d (-666629999999423) 13; d (-429745000000112) 13;
  d (-107364999999991) 12; d (-189839000000036) 12; d (-162611499999999) 12; d (-164964999999967) 12; d (-189079999999958) 12; d (-223931499999948) 12;
  d (-235329999999958) 12; d (-269639500000048) 12; d (-249087999999989) 12; d (-206475499999942) 12; d (-28304449999996) 11; d (-290667000000016) 12;
  d (-304561499999953) 12; d (-336784499999951) 12; d (-380386500000022) 12; d (-283280499999993) 12; d (-364533000000054) 12; d (-389059499999974) 12;
  d (-364454000000027) 12; d (-415748000000021) 12; d (-417155000000028) 12
].

(** constants.rs:3860-4061: biases, precision 18, 200 entries. *)
Definition bias_dec_18 : list (Z * N) := [
  d 189083 0; d 185696913 3; d 182348774 3; d 179035946 3; d 175762762 3; d 172526444 3;
  d 169329754 3; d 166166099 3; d 163043269 3; d 15995891 2; d 156907912 3; d 153906845 3;
  d 150924199 3; d 147996568 3; d 145093457 3; d 142239233 3; d 139421475 3; d 13663227 2;
  d 133889588 3; d 1311742 1; d 128511619 3; d 125868621 3; d 123265385 3; d 120721061 3;
  d 118181769 3; d 115709456 3; d 113252446 3; d 110840198 3; d 108465099 3; d 106126164 3;
  d 103823469 3; d 101556618 3; d 99308004 3; d 97124508 3; d 94937803 3; d 92833731 3;
  d 90745061 3; d 88677627 3; d 8661747 2; d 84650442 3; d 82697833 3; d 80769132 3;
  d 78879629 3; d 77014432 3; d 75215626 3; d 73384587 3; d 71652482 3; d 6989593 2;
  d 68209301 3; d 66553669 3; d 64921981 3; d 63310323 3; d 61742115 3; d 60205018 3;
  d 58698658 3; d 57190657 3; d 55760865 3; d 54331169 3; d 52908167 3; d 51550273 3;
  d 50225254 3; d 48922421 3; d 47614533 3; d 46362049 3; d 45098569 3; d 43926083 3;
  d 4273603 2; d 41593473 3; d 4042526 2; d 39316237 3; d 38243651 3; d 37170617 3;
  d 36114609 3; d 3508419 2; d 34117233 3; d 33206509 3; d 32231505 3; d 31318728 3;
  d 30403404 3; d 295400550000001 10; d 28679236 3; d 27825862 3; d 26965216 3; d 26179148 3;
  d 2546208 2; d 24645952 3; d 23922523 3; d 23198144 3; d 22529128 3; d 217624179999999 10;
  d 21134779 3; d 20459117 3; d 19840818 3; d 1918704 2; d 186363689999999 10; d 17982831 3;
  d 174397389999999 10; d 16874547 3; d 163582169999999 10; d 15835684 3; d 15352914 3; d 14823681 3;
  d 14329313 3; d 13816897 3; d 13342874 3; d 12880882 3; d 12491648 3; d 12021254 3;
  d 11625392 3; d 112937610000001 10; d 10813697 3; d 10456209 3; d 10099074 3; d 975539000000001 11;
  d 939318500000006 11; d 904757900000003 11; d 865798499999999 11; d 839585900000005 11; d 8033 0; d 773695900000003 11;
  d 743059699999995 11; d 725847699999996 11; d 692458200000005 11; d 669129399999999 11; d 635792500000005 11; d 620205700000003 11;
  d 592119700000004 11; d 562828399999999 11; d 540496799999999 11; d 522671100000001 11; d 499075600000005 11; d 479977399999998 11;
  d 462293099999998 11; d 4472478 3; d 417178700000001 11; d 395746299999999 11; d 386895200000005 11; d 369114300000004 11;
  d 347463100000005 11; d 334167200000002 11; d 310914000000001 11; d 307197400000005 11; d 279640399999998 11; d 275617799999996 11;
  d 261146999999997 11; d 247193000000005 11; d 238226399999997 11; d 220922400000005 11; d 214228399999999 11; d 201396100000001 11;
  d 191118999999994 11; d 181827099999995 11; d 166847900000005 11; d 151965800000005 11; d 146967599999998 11; d 136713800000004 11;
  d 124852899999998 11; d 118123600000003 11; d 102271900000004 11; d 108820700000005 11; d 95903600000008 11; d 876095999999903 12;
  d 791183999999892 12; d 703337000000058 12; d 731949999999953 12; d 58686400000006 11; d 526024999999907 12; d 323004999999888 12;
  d 320448000000091 12; d 340672999999952 12; d 309638999999966 12; d 216601999999955 12; d 102922999999952 12; d 192399999999907 13;
  d (-114000000059605) 15; d (-326240000000689) 13; d (-893179999999702) 13; d (-153497999999905) 12; d (-642970000000205) 13; d (-143695999999996) 12;
  d (-259497999999905) 12; d (-253017999999924) 12; d (-213948000000091) 12; d (-397590000000084) 12; d (-434006000000052) 12; d (-403475000000093) 12;
  d (-297958000000101) 12; d (-404317000000039) 12; d (-528898999999976) 12; d (-506621000000043) 12; d (-513205000000075) 12; d (-479351000000024) 12;
  d (-596139999999898) 12; d (-527016999999993) 12; d (-664681000000099) 12; d (-680306000000099) 12; d (-704050000000047) 12; d (-850486000000034) 12;
  d (-75743200000003) 11; d (-713308999999892) 12
].

(** The decimal tables, indexed by precision - 4. *)
Definition raw_dec : list (list (Z * N)) := [raw_dec_4; raw_dec_5; raw_dec_6; raw_dec_7; raw_dec_8; raw_dec_9; raw_dec_10; raw_dec_11; raw_dec_12; raw_dec_13; raw_dec_14; raw_dec_15; raw_dec_16; raw_dec_17; raw_dec_18].
Definition bias_dec : list (list (Z * N)) := [bias_dec_4; bias_dec_5; bias_dec_6; bias_dec_7; bias_dec_8; bias_dec_9; bias_dec_10; bias_dec_11; bias_dec_12; bias_dec_13; bias_dec_14; bias_dec_15; bias_dec_16; bias_dec_17; bias_dec_18].

(** constants.rs:2-1169 and 1172-4062. *)
Definition RAW_ESTIMATE_DATA : list (list f64) := map decimals raw_dec.
Definition BIAS_DATA : list (list f64) := map decimals bias_dec.
