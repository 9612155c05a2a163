(** The cumulative binomial distribution, /repo/src/sclite/statdist.c.  Doubles are exact rational
    numbers here: rounding is not modelled. *)
From Coq Require Import List Arith ZArith QArith.
Import ListNotations.
Local Open Scope Q_scope.

(** statdist.c:804-811 [seq_mult]: the product of the numbers from [f] to [t], 1 if there are none *)
Fixpoint mult_loop (k : nat) (i : Z) : Z :=
  match k with O => 1%Z | S k' => (i * mult_loop k' (i + 1))%Z end.
Definition seq_mult (f t : Z) : Z := mult_loop (Z.to_nat (t - f + 1)) f.

(** statdist.c:816-819 [n_CHOOSE_r] *)
Definition n_choose_r (n r : Z) : Q :=
  inject_Z (seq_mult (r + 1) n) / inject_Z (seq_mult 1 (n - r)).

(** statdist.c:840-944 [znorm] and 947-1051 [Fnorm], in units of 10^-9 *)
Definition znorm : list Z :=
  [
   0; 10000000; 20000000; 30000000; 40000000; 50000000; 60000000; 70000000; 80000000; 90000000;
   99999990; 110000000; 120000000; 130000000; 140000000; 150000000; 160000000; 170000000; 180000000; 190000000;
   200000000; 210000000; 220000000; 230000000; 240000000; 250000000; 260000000; 270000000; 280000000; 290000000;
   300000000; 310000000; 320000000; 330000000; 340000000; 350000000; 360000000; 370000000; 380000000; 390000000;
   400000000; 410000000; 420000000; 430000000; 440000000; 450000000; 460000000; 470000000; 480000000; 490000000;
   500000000; 510000000; 520000000; 530000000; 540000000; 550000000; 560000000; 570000000; 580000000; 590000000;
   600000000; 610000000; 620000000; 630000000; 640000000; 650000000; 660000000; 670000000; 680000000; 690000000;
   700000000; 710000000; 720000000; 730000000; 740000000; 750000000; 760000000; 770000000; 780000000; 790000000;
   800000000; 810000000; 820000000; 830000000; 840000000; 850000000; 860000000; 870000000; 880000000; 890000000;
   900000000; 910000000; 920000000; 930000000; 940000000; 950000000; 960000000; 970000000; 980000000; 989999900;
   1000000000; 1010000000; 1020000000; 1030000000; 1040000000; 1050000000; 1060000000; 1070000000; 1080000000; 1090000000;
   1100000000; 1110000000; 1120000000; 1130000000; 1140000000; 1150000000; 1160000000; 1170000000; 1180000000; 1190000000;
   1200000000; 1210000000; 1220000000; 1230000000; 1240000000; 1250000000; 1260000000; 1270000000; 1280000000; 1290000000;
   1300000000; 1310000000; 1320000000; 1330000000; 1340000000; 1350000000; 1360000000; 1370000000; 1380000000; 1390000000;
   1400000000; 1410000000; 1420000000; 1430000000; 1440000000; 1450000000; 1460000000; 1470000000; 1480000000; 1490000000;
   1500000000; 1510000000; 1520000000; 1530000000; 1540000000; 1550000000; 1560000000; 1570000000; 1580000000; 1590000000;
   1600000000; 1610000000; 1620000000; 1630000000; 1640000000; 1650000000; 1660000000; 1670000000; 1680000000; 1690000000;
   1700000000; 1710000000; 1720000000; 1730000000; 1740000000; 1750000000; 1760000000; 1770000000; 1780000000; 1790000000;
   1800000000; 1810000000; 1820000000; 1830000000; 1840000000; 1850000000; 1860000000; 1870000000; 1880000000; 1890000000;
   1900000000; 1910000000; 1920000000; 1930000000; 1940000000; 1950000000; 1960000000; 1970000000; 1980000000; 1990000000;
   2000000000; 2010000000; 2020000000; 2030000000; 2040000000; 2050000000; 2060000000; 2070000000; 2080000000; 2090000000;
   2100000000; 2110000000; 2120000000; 2130000000; 2140000000; 2150000000; 2160000000; 2170000000; 2180000000; 2190000000;
   2200000000; 2210000000; 2220000000; 2230000000; 2240000000; 2250000000; 2260000000; 2270000000; 2280000000; 2290000000;
   2300000000; 2310000000; 2320000000; 2330000000; 2340000000; 2350000000; 2360000000; 2370000000; 2380000000; 2390000000;
   2400000000; 2410000000; 2420000000; 2430000000; 2440000000; 2450000000; 2460000000; 2470000000; 2480000000; 2490000000;
   2500000000; 2510000000; 2520000000; 2530000000; 2540000000; 2550000000; 2560000000; 2570000000; 2580000000; 2590000000;
   2600000000; 2610000000; 2620000000; 2630000000; 2640000000; 2650000000; 2660000000; 2670000000; 2680000000; 2690000000;
   2700000000; 2710000000; 2720000000; 2730000000; 2740000000; 2750000000; 2760000000; 2770000000; 2780000000; 2790000000;
   2800000000; 2810000000; 2820000000; 2830000000; 2840000000; 2850000000; 2860000000; 2870000000; 2880000000; 2890000000;
   2900000000; 2910000000; 2920000000; 2930000000; 2940000000; 2950000000; 2960000000; 2970000000; 2980000000; 2990000000;
   3000000000; 3010000000; 3020000000; 3030000000; 3040000000; 3050000000; 3060000000; 3070000000; 3080000000; 3090000000;
   3100000000; 3110000000; 3120000000; 3130000000; 3140000000; 3150000000; 3160000000; 3170000000; 3180000000; 3190000000;
   3200000000; 3210000000; 3220000000; 3230000000; 3240000000; 3250000000; 3260000000; 3270000000; 3280000000; 3290000000;
   3300000000; 3310000000; 3320000000; 3330000000; 3340000000; 3350000000; 3360000000; 3370000000; 3380000000; 3390000000;
   3400000000; 3410000000; 3420000000; 3430000000; 3440000000; 3450000000; 3460000000; 3470000000; 3480000000; 3490000000;
   3500000000; 3510000000; 3520000000; 3530000000; 3540000000; 3550000000; 3560000000; 3570000000; 3580000000; 3590000000;
   3600000000; 3610000000; 3620000000; 3630000000; 3640000000; 3650000000; 3660000000; 3670000000; 3680000000; 3690000000;
   3700000000; 3710000000; 3720000000; 3730000000; 3740000000; 3750000000; 3760000000; 3770000000; 3780000000; 3790000000;
   3800000000; 3810000000; 3820000000; 3830000000; 3840000000; 3850000000; 3860000000; 3870000000; 3880000000; 3890000000;
   3900000000; 3910000000; 3920000000; 3930000000; 3940000000; 3950000000; 3960000000; 3970000000; 3980000000; 3990000000;
   4000000000; 4010000000; 4020000000; 4030000000; 4040000000; 4050000000; 4060000000; 4070000000; 4080000000; 4090000000;
   4100000000; 4110000000; 4120000000; 4130000000; 4140000000; 4150000000; 4160000000; 4170000000; 4180000000; 4190000000;
   4200000000; 4210000000; 4220000000; 4230000000; 4240000000; 4250000000; 4260000000; 4270000000; 4280000000; 4290000000;
   4300000000; 4310000000; 4320000000; 4330000000; 4340000000; 4350000000; 4360000000; 4370000000; 4380000000; 4390000000;
   4400000000; 4410000000; 4420000000; 4430000000; 4440000000; 4450000000; 4460000000; 4470000000; 4480000000; 4490000000;
   4500000000; 4510000000; 4520000000; 4530000000; 4540000000; 4550000000; 4560000000; 4570000000; 4580000000; 4590000000;
   4600000000; 4610000000; 4620000000; 4630000000; 4640000000; 4650000000; 4660000000; 4670000000; 4680000000; 4690000000;
   4700000000; 4710000000; 4720000000; 4730000000; 4740000000; 4750000000; 4760000000; 4770000000; 4780000000; 4790000000;
   4800000000; 4810000000; 4820000000; 4830000000; 4840000000; 4850000000; 4860000000; 4870000000; 4880000000; 4890000000;
   4900000000; 4910000000; 4920000000; 4930000000; 4940000000; 4950000000; 4960000000; 4970000000; 4980000000; 4990000000;
   5000000000; 5010000000; 5020000000; 5030000000; 5040000000; 5050000000; 5060000000; 5070000000; 5080000000; 5090000000;
   5100000000; 5110000000; 5120000000; 5130000000; 5140000000]%Z.
Definition fnorm : list Z :=
  [
   500000000; 503989500; 507978300; 511966500; 515953400; 519938900; 523922200; 527903300; 531881300; 535856400;
   539827800; 543795300; 547758300; 551716800; 555669900; 559617600; 563559400; 567494900; 571423800; 575345400;
   579259800; 583166000; 587064400; 590954100; 594834900; 598706200; 602568000; 606419700; 610261100; 614091600;
   617911300; 621719500; 625515700; 629299900; 633071700; 636830600; 640576300; 644308700; 648027100; 651731700;
   655421700; 659097000; 662757200; 666402100; 670031400; 673644700; 677241800; 680822500; 684386400; 687933000;
   691462500; 694974200; 698468200; 701944100; 705401500; 708840400; 712260300; 715661200; 719042800; 722404700;
   725746900; 729069100; 732371200; 735652700; 738913800; 742153900; 745373100; 748571200; 751747800; 754903000;
   758036400; 761148000; 764237500; 767305000; 770350100; 773372700; 776372700; 779350100; 782304500; 785236100;
   788144600; 791030000; 793892000; 796730600; 799545900; 802337500; 805105600; 807849900; 810570400; 813267100;
   815939900; 818588700; 821213600; 823814500; 826391200; 828943800; 831472300; 833976700; 836456900; 838912900;
   841344700; 843752400; 846135700; 848494900; 850830000; 853140900; 855427600; 857690300; 859928800; 862143400;
   864333900; 866500400; 868643100; 870761800; 872856700; 874928000; 876975500; 878999500; 880999800; 882976800;
   884930300; 886860500; 888767500; 890651300; 892512300; 894350200; 896165300; 897957600; 899727300; 901474600;
   903199400; 904902000; 906582400; 908240800; 909877200; 911491900; 913085000; 914656500; 916206600; 917735500;
   919243300; 920730100; 922196100; 923641400; 925066200; 926470700; 927854900; 929219100; 930563300; 931887900;
   933192800; 934478200; 935744500; 936991600; 938219800; 939429200; 940620000; 941792400; 942946600; 944082600;
   945200700; 946301000; 947383900; 948449300; 949497400; 950528500; 951542800; 952540300; 953521400; 954486100;
   955434600; 956367100; 957283800; 958184900; 959070500; 959940900; 960796100; 961636500; 962462100; 963273100;
   964069700; 964852200; 965620500; 966375100; 967115900; 967843300; 968557300; 969258100; 969946000; 970621100;
   971283500; 971933400; 972571100; 973196600; 973810200; 974412000; 975002200; 975580900; 976148300; 976704600;
   977249900; 977784500; 978308400; 978821800; 979324900; 979817900; 980300800; 980773900; 981237300; 981691200;
   982135700; 982570900; 982997100; 983414200; 983822600; 984222500; 984613700; 984996600; 985371400; 985737900;
   986096600; 986447500; 986790700; 987126300; 987454600; 987775600; 988089400; 988396200; 988696200; 988989400;
   989275900; 989556000; 989829600; 990096900; 990358200; 990613300; 990862500; 991106000; 991343700; 991575800;
   991802500; 992023800; 992239800; 992450600; 992656400; 992857200; 993053100; 993244300; 993430900; 993612800;
   993790300; 993963400; 994132200; 994296800; 994457400; 994613800; 994766400; 994915100; 995060000; 995201200;
   995338800; 995472800; 995603500; 995730700; 995854700; 995975400; 996092900; 996207400; 996318800; 996427400;
   996533000; 996635800; 996735900; 996833200; 996928000; 997020200; 997109900; 997197200; 997282000; 997364500;
   997444800; 997522900; 997598800; 997672600; 997744300; 997814000; 997881700; 997947600; 998011500; 998073700;
   998134100; 998192800; 998249800; 998305100; 998358800; 998411100; 998461700; 998511000; 998558700; 998605100;
   998650000; 998693700; 998736100; 998777200; 998817000; 998855700; 998893300; 998929600; 998964900; 998999200;
   999032300; 999064500; 999095700; 999125900; 999155200; 999183600; 999211100; 999237700; 999263600; 999288600;
   999312800; 999336200; 999359000; 999381000; 999402300; 999422900; 999442900; 999462200; 999480900; 999499000;
   999516500; 999533500; 999549900; 999565700; 999581000; 999595900; 999610200; 999624100; 999637500; 999650500;
   999663000; 999675200; 999686800; 999698200; 999709100; 999719700; 999729900; 999739700; 999749200; 999758400;
   999767300; 999775900; 999784200; 999792200; 999799900; 999807400; 999814500; 999821500; 999828200; 999834600;
   999840900; 999846900; 999852700; 999858300; 999863600; 999868900; 999873900; 999878700; 999883400; 999887800;
   999892200; 999896300; 999900300; 999904200; 999908000; 999911500; 999915000; 999918300; 999921600; 999924700;
   999927600; 999930500; 999933200; 999935900; 999938500; 999940900; 999943300; 999945600; 999947700; 999949900;
   999951900; 999953800; 999955700; 999957500; 999959200; 999960900; 999962500; 999964100; 999965500; 999966900;
   999968300; 999969600; 999970900; 999972100; 999973200; 999974400; 999975400; 999976500; 999977500; 999978400;
   999979300; 999980200; 999981000; 999981900; 999982600; 999983400; 999984100; 999984700; 999985400; 999986100;
   999986600; 999987200; 999987800; 999988300; 999988800; 999989300; 999989700; 999990200; 999990600; 999991100;
   999991500; 999991800; 999992200; 999992500; 999992800; 999993200; 999993500; 999993800; 999994000; 999994300;
   999994600; 999994800; 999995100; 999995300; 999995500; 999995700; 999995900; 999996100; 999996200; 999996400;
   999996600; 999996800; 999996900; 999997000; 999997200; 999997300; 999997400; 999997600; 999997700; 999997800;
   999997900; 999998000; 999998100; 999998200; 999998300; 999998300; 999998400; 999998500; 999998600; 999998600;
   999998700; 999998700; 999998800; 999998900; 999998900; 999999000; 999999000; 999999100; 999999100; 999999200;
   999999200; 999999200; 999999300; 999999300; 999999300; 999999400; 999999400; 999999500; 999999500; 999999500;
   999999500; 999999500; 999999600; 999999600; 999999600; 999999600; 999999600; 999999600; 999999700; 999999700;
   999999700; 999999700; 999999800; 999999800; 999999800; 999999800; 999999800; 999999800; 999999800; 999999800;
   999999800; 999999800; 999999800; 999999900; 999999900]%Z.
Definition unit9 (z : Z) : Q := z # 1000000000.

(** statdist.c:1068-1081 [normprob].  The argument |z| is the quotient of a number and the square root
    of a variance; it is given by the square [d2] of the number and the variance [v], and compared
    with the table by squares: for v > 0, |z| < t if and only if d2 < t^2 v.  The walk starts at entry
    1, with entry 0 before it; past the end the last entry is the answer. *)
Fixpoint normprob_walk (d2 v : Q) (prev : Z) (zs fs : list Z) : Z :=
  match zs, fs with
  | z :: zs', f :: fs' =>
      let t2v := unit9 z * unit9 z * v in
      if Qle_bool t2v d2 then
        (if Qle_bool d2 t2v then f else normprob_walk d2 v f zs' fs')
      else prev
  | _, _ => prev
  end.
Definition normprob (d2 v : Q) : Q :=
  unit9 (normprob_walk d2 v (hd 0%Z fnorm) (tl znorm) (tl fnorm)).

(** statdist.c:774-784: the sum of the first [k] terms *)
Fixpoint acc_loop (k : nat) (n : Z) (p : Q) : Q :=
  match k with
  | O => 0
  | S k' =>
      let r := Z.of_nat k' in
      acc_loop k' n p + n_choose_r n r * Qpower p r * Qpower (1 - p) (n - r)
  end.

(** statdist.c:786-792: the normal approximation *)
Definition normal_tail (R n : Z) (p : Q) : Q :=
  let mean := inject_Z n * p in
  let var := inject_Z n * p * (1 - p) in
  let flip := inject_Z R * (1 # 2) in
  let d := flip - mean in
  let sum := normprob (d * d) var in
  if Qle_bool 0 d then sum else 1 - sum.

(** statdist.c:766-797 [compute_acc_binomial] *)
Definition acc_binomial (R n : Z) (p : Q) : Q :=
  if Qle_bool (inject_Z n * p * (1 - p)) 5
  then acc_loop (Z.to_nat (R + 1)) n p
  else normal_tail R n p.
