(** The numeric tables of src/colorimetry, generated from its text by
    tools/tables.py.  Entry m of a table with e decimals is m * 10^-e. *)
From Coq Require Import List ZArith.
Import ListNotations.

(** colour matching functions, 360 nm to 830 nm in steps of 5 nm, src/colorimetry/observers.c:24-124 *)
Definition obs2_tab : list (Z * Z * Z) :=
  [(12990, 392, 60610);
   (23210, 697, 108600);
   (41490, 1239, 194600);
   (74160, 2202, 348600);
   (136800, 4000, 64500);
   (223600, 6000, 1055000);
   (424300, 12000, 2005000);
   (765000, 21700, 3621000);
   (1431000, 40000, 6785000);
   (2319000, 64000, 11020000);
   (4351000, 121000, 20740000);
   (7763000, 218000, 37130000);
   (13438000, 400000, 64560000);
   (21477000, 730000, 103905000);
   (28390000, 1160000, 138560000);
   (32850000, 1684000, 162296000);
   (34828000, 2300000, 174706000);
   (34806000, 2980000, 178260000);
   (33620000, 3800000, 177211000);
   (31870000, 4800000, 174410000);
   (29080000, 6000000, 166920000);
   (25110000, 7390000, 152810000);
   (19536000, 9098000, 128764000);
   (14210000, 11260000, 104190000);
   (9564000, 13902000, 81295000);
   (5795000, 16930000, 61620000);
   (3201000, 20802000, 46518000);
   (1470000, 25860000, 35330000);
   (490000, 32300000, 27200000);
   (240000, 40730000, 21230000);
   (930000, 50300000, 15820000);
   (2910000, 60820000, 11170000);
   (6327000, 71000000, 7825000);
   (10960000, 79320000, 5725000);
   (16550000, 86200000, 4216000);
   (22575000, 91485000, 2984000);
   (29040000, 95400000, 2030000);
   (35970000, 98030000, 1340000);
   (43345000, 99495000, 875000);
   (51205000, 100000000, 575000);
   (59450000, 99500000, 390000);
   (67840000, 97860000, 275000);
   (76210000, 95200000, 210000);
   (84250000, 91540000, 180000);
   (91630000, 87000000, 165000);
   (97860000, 81630000, 140000);
   (102630000, 75700000, 110000);
   (105670000, 69490000, 100000);
   (106220000, 63100000, 80000);
   (104560000, 56680000, 60000);
   (100260000, 50300000, 34000);
   (93840000, 44120000, 24000);
   (85450000, 38100000, 19000);
   (75140000, 32100000, 10000);
   (64240000, 26500000, 50000);
   (54190000, 21700000, 30000);
   (44790000, 17500000, 20000);
   (36080000, 13800000, 10000);
   (28350000, 10700000, 0);
   (21870000, 8160000, 0);
   (16490000, 6100000, 0);
   (12120000, 4458000, 0);
   (8740000, 3200000, 0);
   (6360000, 2320000, 0);
   (4677000, 1700000, 0);
   (3290000, 1192000, 0);
   (2270000, 821000, 0);
   (1584000, 572300, 0);
   (1135900, 410200, 0);
   (811100, 292900, 0);
   (579000, 209100, 0);
   (410900, 148400, 0);
   (289900, 104700, 0);
   (204900, 74000, 0);
   (144000, 52000, 0);
   (100000, 36100, 0);
   (69000, 24900, 0);
   (47600, 17190, 0);
   (33200, 12000, 0);
   (23500, 8480, 0);
   (16600, 6000, 0);
   (17700, 4240, 0);
   (8300, 3000, 0);
   (5900, 2100, 0);
   (4200, 1500, 0);
   (2935, 1060, 0);
   (2067, 747, 0);
   (1456, 526, 0);
   (1025, 370, 0);
   (722, 261, 0);
   (509, 184, 0);
   (358, 129, 0);
   (252, 91, 0);
   (178, 64, 0);
   (125, 45, 0)]%Z.
Definition obs2_tab_e : Z := 8%Z.

(** colour matching functions, 360 nm to 830 nm in steps of 5 nm, src/colorimetry/observers.c:130-230 *)
Definition obs10_tab : list (Z * Z * Z) :=
  [(122200, 13398, 535027);
   (919270, 100650, 4028300);
   (5958600, 651100, 26143700);
   (33266000, 3625000, 146220000);
   (159952000, 17364000, 704776000);
   (662440000, 71560000, 2927800000);
   (2361600000, 253400000, 10482200000);
   (7242300000, 768500000, 32344000000);
   (19109700000, 2004400000, 86010900000);
   (43400000000, 4509000000, 197120000000);
   (84736000000, 8756000000, 389366000000);
   (140638000000, 14456000000, 656760000000);
   (204492000000, 21391000000, 972542000000);
   (264737000000, 29497000000, 1282500000000);
   (314679000000, 38676000000, 1553480000000);
   (357719000000, 49602000000, 1798500000000);
   (383734000000, 62077000000, 1967280000000);
   (386726000000, 74704000000, 2027300000000);
   (370702000000, 89456000000, 1994800000000);
   (342957000000, 106256000000, 1900700000000);
   (302273000000, 128201000000, 1745370000000);
   (254085000000, 152761000000, 1554900000000);
   (195618000000, 185190000000, 1317560000000);
   (132349000000, 219940000000, 1030200000000);
   (80507000000, 253589000000, 772125000000);
   (41072000000, 297665000000, 570060000000);
   (16172000000, 339133000000, 415254000000);
   (5132000000, 395379000000, 302356000000);
   (3816000000, 460777000000, 218502000000);
   (15444000000, 531360000000, 159249000000);
   (37465000000, 606741000000, 112044000000);
   (71358000000, 685660000000, 82248000000);
   (117749000000, 761757000000, 60709000000);
   (172953000000, 823330000000, 43050000000);
   (236491000000, 875211000000, 30451000000);
   (304213000000, 923810000000, 20584000000);
   (376772000000, 961988000000, 13676000000);
   (451584000000, 982200000000, 7918000000);
   (529826000000, 991761000000, 3988000000);
   (616053000000, 999110000000, 1091000000);
   (705224000000, 997340000000, 0);
   (793832000000, 982380000000, 0);
   (878655000000, 955552000000, 0);
   (951162000000, 915175000000, 0);
   (1014160000000, 868934000000, 0);
   (1074300000000, 825623000000, 0);
   (1118520000000, 777405000000, 0);
   (1134300000000, 720353000000, 0);
   (1123990000000, 658341000000, 0);
   (1089100000000, 593878000000, 0);
   (1030480000000, 527963000000, 0);
   (950740000000, 461834000000, 0);
   (856297000000, 398057000000, 0);
   (754930000000, 339554000000, 0);
   (647467000000, 283493000000, 0);
   (535110000000, 228254000000, 0);
   (431567000000, 179828000000, 0);
   (343690000000, 140211000000, 0);
   (268329000000, 107633000000, 0);
   (204300000000, 81187000000, 0);
   (152568000000, 60281000000, 0);
   (112210000000, 44096000000, 0);
   (81260600000, 31800400000, 0);
   (57930000000, 22601700000, 0);
   (40850800000, 15905100000, 0);
   (28623000000, 11130300000, 0);
   (19941300000, 7748800000, 0);
   (13842000000, 5375100000, 0);
   (9576880000, 3717740000, 0);
   (6605200000, 2564560000, 0);
   (4552630000, 1768470000, 0);
   (3144700000, 1222390000, 0);
   (2174960000, 846190000, 0);
   (1505700000, 586440000, 0);
   (1044760000, 407410000, 0);
   (727450000, 284041000, 0);
   (508258000, 198730000, 0);
   (356380000, 139550000, 0);
   (250969000, 98428000, 0);
   (177730000, 69819000, 0);
   (126390000, 49737000, 0);
   (90151000, 35540500, 0);
   (64525800, 25486000, 0);
   (46339000, 18338400, 0);
   (33411700, 13249000, 0);
   (24209000, 9619600, 0);
   (17611500, 7012800, 0);
   (12855000, 5129800, 0);
   (9413630, 3764730, 0);
   (6913000, 2770810, 0);
   (5093470, 2046130, 0);
   (3767100, 1516770, 0);
   (2795310, 1128090, 0);
   (2082000, 842160, 0);
   (1553140, 629700, 0)]%Z.
Definition obs10_tab_e : Z := 12%Z.

(** luminous efficiency (nm, value), src/colorimetry/lumeff.c:13-99 *)
Definition photopic_tab : list (Z * Z) :=
  [(380, 2000);
   (385, 3960);
   (390, 8000);
   (395, 15500);
   (400, 28000);
   (405, 46600);
   (410, 74000);
   (415, 118000);
   (420, 175000);
   (425, 227000);
   (430, 273000);
   (435, 326000);
   (440, 379000);
   (445, 424000);
   (450, 468000);
   (455, 521000);
   (460, 600000);
   (465, 739000);
   (470, 910000);
   (475, 1130000);
   (480, 1390000);
   (485, 1690000);
   (490, 2080000);
   (495, 2590000);
   (500, 3230000);
   (505, 4073000);
   (510, 5030000);
   (515, 6082000);
   (520, 7100000);
   (525, 7932000);
   (530, 8620000);
   (535, 9148500);
   (540, 9540000);
   (545, 9803000);
   (550, 9949500);
   (555, 10000000);
   (560, 9950000);
   (565, 9786000);
   (570, 9520000);
   (575, 9154000);
   (580, 8700000);
   (585, 8163000);
   (590, 7570000);
   (595, 6949000);
   (600, 6310000);
   (605, 5668000);
   (610, 5030000);
   (615, 4412000);
   (620, 3810000);
   (625, 3200000);
   (630, 2650000);
   (635, 2170000);
   (640, 1750000);
   (645, 1382000);
   (650, 1070000);
   (655, 816000);
   (660, 610000);
   (665, 446000);
   (670, 320000);
   (675, 232000);
   (680, 170000);
   (685, 119000);
   (690, 82100);
   (695, 57200);
   (700, 41000);
   (705, 29300);
   (710, 20900);
   (715, 14800);
   (720, 10500);
   (725, 7400);
   (730, 5200);
   (735, 3610);
   (740, 2490);
   (745, 1720);
   (750, 1200);
   (755, 848);
   (760, 600);
   (765, 424);
   (770, 300);
   (775, 212);
   (780, 150)]%Z.
Definition photopic_tab_e0 : Z := 0%Z.
Definition photopic_tab_e1 : Z := 7%Z.

(** luminous efficiency (nm, value), src/colorimetry/lumeff.c:105-191 *)
Definition scotopic_tab : list (Z * Z) :=
  [(380, 5890000);
   (385, 11080000);
   (390, 22090000);
   (395, 45300000);
   (400, 92900000);
   (405, 185200000);
   (410, 348400000);
   (415, 604000000);
   (420, 966000000);
   (425, 1436000000);
   (430, 1998000000);
   (435, 2625000000);
   (440, 3281000000);
   (445, 3931000000);
   (450, 4550000000);
   (455, 5130000000);
   (460, 5670000000);
   (465, 6200000000);
   (470, 6760000000);
   (475, 7340000000);
   (480, 7930000000);
   (485, 8510000000);
   (490, 9040000000);
   (495, 9490000000);
   (500, 9820000000);
   (505, 9980000000);
   (510, 9970000000);
   (515, 9750000000);
   (520, 9350000000);
   (525, 8800000000);
   (530, 8110000000);
   (535, 7330000000);
   (540, 6500000000);
   (545, 5640000000);
   (550, 4810000000);
   (555, 4020000000);
   (560, 3288000000);
   (565, 2639000000);
   (570, 2076000000);
   (575, 1602000000);
   (580, 1212000000);
   (585, 899000000);
   (590, 655000000);
   (595, 469000000);
   (600, 331500000);
   (605, 231200000);
   (610, 159300000);
   (615, 108800000);
   (620, 73700000);
   (625, 49700000);
   (630, 33350000);
   (635, 22350000);
   (640, 14970000);
   (645, 10050000);
   (650, 6770000);
   (655, 4590000);
   (660, 3129000);
   (665, 2146000);
   (670, 1480000);
   (675, 1026000);
   (680, 715000);
   (685, 501000);
   (690, 353300);
   (695, 250100);
   (700, 178000);
   (705, 127300);
   (710, 91400);
   (715, 66000);
   (720, 47800);
   (725, 34820);
   (730, 25460);
   (735, 18700);
   (740, 13790);
   (745, 10220);
   (750, 7600);
   (755, 5670);
   (760, 4250);
   (765, 3196);
   (770, 2413);
   (775, 1829);
   (780, 1390)]%Z.
Definition scotopic_tab_e0 : Z := 0%Z.
Definition scotopic_tab_e1 : Z := 7%Z.

(** white points, src/colorimetry/illuminants.c:14-86 *)
Definition illum_tab : list (Z * Z * Z) :=
  [(109850, 100000, 35580);
   (99093, 100000, 85313);
   (98070, 100000, 118220);
   (96422, 100000, 82521);
   (95680, 100000, 92140);
   (95047, 100000, 108883);
   (100000, 100000, 100000);
   (96420, 100000, 82490)]%Z.
Definition illum_tab_e : Z := 5%Z.

(** their identifiers, (illuminant, observer), src/colorimetry/illuminants.c:14-86 *)
Definition illum_ids : list (Z * Z) :=
  [(0, 0); (1, 0); (2, 0); (3, 0); (4, 0); (5, 0); (6, 0); (7, 0)]%Z.

(** XYZ to RGB matrices, row by row, src/colorimetry/rgbccms.c:13-137 *)
Definition ccm_tab : list (list Z) :=
  [[3240454200000; (-1537138500000); (-498531400000); (-969266000000); 1876010800000; 41556000000; 55643400000; (-204025900000); 1057225200000];
   [3133856100000; (-1616866700000); (-490614600000); (-978768400000); 1916141500000; 33454000000; 71945300000; (-228991400000); 1405242700000];
   [2041369000000; (-564946400000); (-344694400000); (-969266000000); 1876010800000; 41556000000; 13447400000; (-118389700000); 1015409600000];
   [1846642430000; (-525947230000); (-210529640000); (-444171150000); 1259493630000; 149405990000; 40863480000; 15643970000; 868378460000];
   [1910081430000; (-532477940000); (-288222010000); (-984631350000); 1999100010000; (-28307190000); 58309450000; (-118385840000); 897612080000];
   [3063388640000; (-1393402710000); (-475828020000); (-969224250000); 1875929980000; 41554230000; 67872590000; (-228838200000); 1069271510000];
   [3241003260000; (-1537398990000); (-498615870000); (-969224260000); 1875929990000; 41554220000; 55639420000; (-204011200000); 1057148970000];
   [1716663430000; (-355673320000); (-253368090000); (-666673840000); 1616455740000; 15768300000; 17642480000; (-42776980000); 942243280000];
   [1049811020000; 0; (-97484541); (-495903023000); 1373313050000; 98240036500; 0; 0; 991252022000];
   [1641023380000; (-324803290000); (-236424700000); (-663662860000); 1615331590000; 16756350000; 11721890000; (-8284440000); 988394860000];
   [2725394030000; (-1018003010000); (-440163200000); (-795168030000); 1689732050000; 22647190000; 41241890000; (-87639020000); 1100929380000];
   [1990403490000; (-561395860000); (-229661940000); (-458492790000); 1262346000000; 154875490000; 15632070000; (-4409040000); 1037728670000];
   [2370674010000; (-900040300000); (-470633710000); (-513884790000); 1425303480000; 88581300000; 5298160000; (-14694900000); 1009396740000]]%Z.
Definition ccm_tab_e : Z := 12%Z.

(** polynomial coefficients of Ohno 2011, src/colorimetry/conv.c:22-85 *)
Definition ohno2011_tab : list (list Z) :=
  [[(-1773480000); 11155590000; (-15008606000); 9750013000; (-3307009000); 560614000; (-37146000)];
   [5308409; 21595434; (-43534788); 36196568; (-15897470); 3570016; (-323255)];
   [(-8583089270); 19649802510; (-18739075840); 9535708880; (-2731720220); 417781315; (-26653835)];
   [(-2327502700000); 14928413600000; (-27966888000000); 25117013600000; (-11785121000000); 2718336500000; (-235249500000)];
   [(-5926850606000000000); 13448816061400000000; (-12714129095600000000); 6409763569450000000; (-1817499635070000000); 274827329350000000; (-17313649090000000)];
   [(-23758158000000000); 38956174200000000; (-26529913800000000); 9605329350000000; (-1950006100000000); 210468274000000; (-9435308300000)];
   [28151771000000000; (-41143695800000000); 24852695400000000; (-7934060050000000); 1410153800000000; (-132100700000000); 5085795600000]]%Z.
Definition ohno2011_tab_e : Z := 10%Z.

(** polynomial coefficients of Ohno 2014, src/colorimetry/conv.c:94-103 *)
Definition ohno2014_tab : list (Z) :=
  [(-47110600); 192586500; (-242437870); 153174030; (-51797220); 8939440; (-616793)]%Z.
Definition ohno2014_tab_e : Z := 8%Z.

(** colour temperature to (u, v), src/colorimetry/conv.c:113-418 *)
Definition ct_uv_tab : list (Z * Z * Z) :=
  [(990000000, 45042258, 35439942);
   (1000000000, 44806562, 35460468);
   (1010000000, 44573364, 35480622);
   (1020100000, 44340355, 35500602);
   (1030301000, 44107575, 35520396);
   (1040604010, 43875059, 35539995);
   (1051010050, 43642845, 35559388);
   (1061520151, 43410968, 35578566);
   (1072135352, 43179464, 35597519);
   (1082856706, 42948368, 35616235);
   (1093685273, 42717713, 35634706);
   (1104622125, 42487534, 35652920);
   (1115668347, 42257863, 35670867);
   (1126825030, 42028732, 35688537);
   (1138093280, 41800174, 35705919);
   (1149474213, 41572219, 35723003);
   (1160968955, 41344897, 35739778);
   (1172578645, 41118239, 35756233);
   (1184304431, 40892273, 35772358);
   (1196147476, 40667028, 35788143);
   (1208108950, 40442532, 35803576);
   (1220190040, 40218812, 35818647);
   (1232391940, 39995895, 35833346);
   (1244715860, 39773806, 35847662);
   (1257163018, 39552571, 35861583);
   (1269734649, 39332214, 35875101);
   (1282431995, 39112759, 35888203);
   (1295256315, 38894231, 35900881);
   (1308208878, 38676651, 35913122);
   (1321290967, 38460041, 35924918);
   (1334503877, 38244424, 35936257);
   (1347848915, 38029821, 35947130);
   (1361327404, 37816251, 35957526);
   (1374940679, 37603734, 35967435);
   (1388690085, 37392290, 35976848);
   (1402576986, 37181937, 35985754);
   (1416602756, 36972693, 35994144);
   (1430768784, 36764576, 36002008);
   (1445076471, 36557603, 36009337);
   (1459527236, 36351789, 36016121);
   (1474122509, 36147152, 36022352);
   (1488863734, 35943705, 36028020);
   (1503752371, 35741464, 36033117);
   (1518789895, 35540443, 36037634);
   (1533977794, 35340656, 36041562);
   (1549317572, 35142115, 36044894);
   (1564810747, 34944835, 36047620);
   (1580458855, 34748826, 36049735);
   (1596263443, 34554101, 36051229);
   (1612226078, 34360671, 36052096);
   (1628348338, 34168547, 36052328);
   (1644631822, 33977738, 36051918);
   (1661078140, 33788256, 36050861);
   (1677688921, 33600109, 36049149);
   (1694465811, 33413306, 36046777);
   (1711410469, 33227857, 36043738);
   (1728524573, 33043768, 36040027);
   (1745809819, 32861049, 36035639);
   (1763267917, 32679705, 36030570);
   (1780900597, 32499745, 36024813);
   (1798709603, 32321174, 36018365);
   (1816696699, 32143998, 36011222);
   (1834863666, 31968225, 36003381);
   (1853212302, 31793857, 35994837);
   (1871744425, 31620902, 35985588);
   (1890461869, 31449363, 35975630);
   (1909366488, 31279244, 35964963);
   (1928460153, 31110549, 35953583);
   (1947744755, 30943283, 35941488);
   (1967222202, 30777447, 35928678);
   (1986894424, 30613045, 35915151);
   (2006763368, 30450080, 35900906);
   (2026831002, 30288553, 35885943);
   (2047099312, 30128466, 35870263);
   (2067570305, 29969821, 35853865);
   (2088246008, 29812618, 35836750);
   (2109128468, 29656860, 35818918);
   (2130219753, 29502545, 35800373);
   (2151521951, 29349675, 35781114);
   (2173037170, 29198250, 35761144);
   (2194767542, 29048268, 35740465);
   (2216715217, 28899730, 35719081);
   (2238882369, 28752635, 35696993);
   (2261271193, 28606980, 35674206);
   (2283883905, 28462765, 35650723);
   (2306722744, 28319988, 35626548);
   (2329789971, 28178646, 35601685);
   (2353087871, 28038738, 35576139);
   (2376618750, 27900261, 35549915);
   (2400384937, 27763212, 35523019);
   (2424388787, 27627588, 35495455);
   (2448632675, 27493385, 35467229);
   (2473119001, 27360600, 35438348);
   (2497850191, 27229230, 35408818);
   (2522828693, 27099269, 35378646);
   (2548056980, 26970714, 35347839);
   (2573537550, 26843560, 35316403);
   (2599272926, 26717802, 35284347);
   (2625265655, 26593436, 35251678);
   (2651518311, 26470457, 35218403);
   (2678033494, 26348858, 35184532);
   (2704813829, 26228634, 35150073);
   (2731861968, 26109779, 35115034);
   (2759180587, 25992289, 35079423);
   (2786772393, 25876155, 35043251);
   (2814640117, 25761372, 35006527);
   (2842786518, 25647934, 34969259);
   (2871214384, 25535833, 34931457);
   (2899926527, 25425063, 34893132);
   (2928925793, 25315617, 34854293);
   (2958215051, 25207487, 34814950);
   (2987797201, 25100666, 34775114);
   (3017675173, 24995147, 34734794);
   (3047851925, 24890922, 34694002);
   (3078330444, 24787982, 34652748);
   (3109113749, 24686321, 34611043);
   (3140204886, 24585929, 34568897);
   (3171606935, 24486800, 34526322);
   (3203323004, 24388923, 34483329);
   (3235356234, 24292292, 34439929);
   (3267709797, 24196897, 34396133);
   (3300386895, 24102729, 34351952);
   (3333390764, 24009781, 34307398);
   (3366724671, 23918042, 34262482);
   (3400391918, 23827504, 34217215);
   (3434395837, 23738158, 34171610);
   (3468739795, 23649995, 34125677);
   (3503427193, 23563005, 34079429);
   (3538461465, 23477179, 34032876);
   (3573846080, 23392507, 33986030);
   (3609584541, 23308981, 33938903);
   (3645680386, 23226590, 33891506);
   (3682137190, 23145325, 33843851);
   (3718958562, 23065176, 33795950);
   (3756148148, 22986134, 33747814);
   (3793709629, 22908188, 33699454);
   (3831646725, 22831329, 33650882);
   (3869963193, 22755546, 33602110);
   (3908662824, 22680831, 33553148);
   (3947749453, 22607172, 33504009);
   (3987226947, 22534561, 33454702);
   (4027099217, 22462986, 33405241);
   (4067370209, 22392438, 33355635);
   (4108043911, 22322907, 33305896);
   (4149124350, 22254382, 33256035);
   (4190615594, 22186854, 33206062);
   (4232521750, 22120312, 33155989);
   (4274846967, 22054746, 33105826);
   (4317595437, 21990146, 33055584);
   (4360771391, 21926502, 33005274);
   (4404379105, 21863804, 32954906);
   (4448422896, 21802040, 32904489);
   (4492907125, 21741202, 32854036);
   (4537836196, 21681280, 32803555);
   (4583214558, 21622261, 32753057);
   (4629046704, 21564138, 32702551);
   (4675337171, 21506899, 32652048);
   (4722090543, 21450535, 32601557);
   (4769311448, 21395035, 32551087);
   (4817004562, 21340389, 32500648);
   (4865174608, 21286588, 32450249);
   (4913826354, 21233620, 32399900);
   (4962964618, 21181477, 32349609);
   (5012594264, 21130147, 32299385);
   (5062720206, 21079622, 32249236);
   (5113347409, 21029892, 32199172);
   (5164480883, 20980945, 32149201);
   (5216125691, 20932773, 32099330);
   (5268286948, 20885366, 32049569);
   (5320969818, 20838714, 31999925);
   (5374179516, 20792807, 31950405);
   (5427921311, 20747636, 31901018);
   (5482200524, 20703191, 31851771);
   (5537022530, 20659462, 31802671);
   (5592392755, 20616440, 31753726);
   (5648316682, 20574115, 31704942);
   (5704799849, 20532479, 31656326);
   (5761847848, 20491521, 31607885);
   (5819466326, 20451232, 31559626);
   (5877660989, 20411603, 31511555);
   (5936437599, 20372626, 31463678);
   (5995801975, 20334290, 31416000);
   (6055759995, 20296587, 31368529);
   (6116317595, 20259507, 31321269);
   (6177480771, 20223043, 31274227);
   (6239255579, 20187184, 31227407);
   (6301648135, 20151923, 31180815);
   (6364664616, 20117250, 31134456);
   (6428311262, 20083156, 31088335);
   (6492594375, 20049635, 31042456);
   (6557520318, 20016675, 30996824);
   (6623095522, 19984270, 30951444);
   (6689326477, 19952411, 30906320);
   (6756219742, 19921090, 30861455);
   (6823781939, 19890298, 30816854);
   (6892019758, 19860028, 30772521);
   (6960939956, 19830271, 30728459);
   (7030549355, 19801019, 30684672);
   (7100854849, 19772265, 30641163);
   (7171863398, 19744000, 30597935);
   (7243582032, 19716217, 30554991);
   (7316017852, 19688909, 30512334);
   (7389178030, 19662067, 30469967);
   (7463069811, 19635685, 30427892);
   (7537700509, 19609754, 30386113);
   (7613077514, 19584268, 30344630);
   (7689208289, 19559220, 30303447);
   (7766100372, 19534601, 30262565);
   (7843761376, 19510406, 30221986);
   (7922198989, 19486627, 30181712);
   (8001420979, 19463257, 30141745);
   (8081435189, 19440289, 30102086);
   (8162249541, 19417718, 30062736);
   (8243872036, 19395535, 30023697);
   (8326310757, 19373735, 29984970);
   (8409573864, 19352312, 29946555);
   (8493669603, 19331258, 29908454);
   (8578606299, 19310567, 29870668);
   (8664392362, 19290234, 29833196);
   (8751036286, 19270251, 29796040);
   (8838546648, 19250614, 29759200);
   (8926932115, 19231316, 29722677);
   (9016201436, 19212352, 29686470);
   (9106363450, 19193714, 29650580);
   (9197427085, 19175399, 29615006);
   (9289401356, 19157400, 29579749);
   (9382295369, 19139711, 29544808);
   (9476118323, 19122327, 29510184);
   (9570879506, 19105243, 29475875);
   (9666588301, 19088454, 29441882);
   (9763254184, 19071954, 29408203);
   (9860886726, 19055738, 29374839);
   (9959495593, 19039801, 29341788);
   (10059090549, 19024139, 29309050);
   (10159681455, 19008745, 29276624);
   (10261278269, 18993616, 29244509);
   (10363891052, 18978747, 29212704);
   (10467529963, 18964133, 29181207);
   (10572205262, 18949769, 29150019);
   (10677927315, 18935650, 29119137);
   (10784706588, 18921774, 29088560);
   (10892553654, 18908134, 29058288);
   (11001479190, 18894728, 29028318);
   (11111493982, 18881549, 28998650);
   (11222608922, 18868596, 28969281);
   (11334835011, 18855862, 28940211);
   (11448183361, 18843345, 28911437);
   (11562665195, 18831040, 28882959);
   (11678291847, 18818944, 28854774);
   (11795074766, 18807052, 28826881);
   (11913025513, 18795362, 28799277);
   (12032155768, 18783868, 28771962);
   (12152477326, 18772569, 28744934);
   (12274002099, 18761459, 28718190);
   (12396742120, 18750536, 28691728);
   (12520709541, 18739797, 28665548);
   (12645916637, 18729237, 28639646);
   (12772375803, 18718854, 28614022);
   (12900099561, 18708644, 28588672);
   (13029100557, 18698604, 28563595);
   (13159391562, 18688731, 28538789);
   (13290985478, 18679022, 28514251);
   (13423895333, 18669474, 28489980);
   (13558134286, 18660084, 28465974);
   (13693715629, 18650850, 28442231);
   (13830652785, 18641767, 28418747);
   (13968959313, 18632834, 28395522);
   (14108648906, 18624047, 28372553);
   (14249735395, 18615405, 28349838);
   (14392232749, 18606904, 28327375);
   (14536155077, 18598542, 28305161);
   (14681516628, 18590316, 28283194);
   (14828331794, 18582223, 28261473);
   (14976615112, 18574262, 28239994);
   (15126381263, 18566430, 28218756);
   (15277645076, 18558725, 28197757);
   (15430421526, 18551143, 28176994);
   (15584725742, 18543684, 28156465);
   (15740572999, 18536344, 28136168);
   (15897978729, 18529122, 28116100);
   (16056958516, 18522016, 28096260);
   (16217528101, 18515022, 28076646);
   (16379703382, 18508140, 28057254);
   (16543500416, 18501368, 28038083);
   (16708935420, 18494702, 28019131);
   (16876024775, 18488142, 28000395);
   (17044785022, 18481685, 27981873);
   (17215232873, 18475330, 27963564);
   (17387385201, 18469075, 27945464);
   (17561259053, 18462918, 27927573);
   (17736871644, 18456856, 27909886);
   (17914240360, 18450890, 27892404);
   (18093382764, 18445015, 27875122);
   (18274316592, 18439233, 27858040);
   (18457059757, 18433539, 27841154);
   (18641630355, 18427934, 27824464);
   (18828046659, 18422414, 27807967);
   (19016327125, 18416980, 27791660);
   (19206490396, 18411629, 27775542);
   (19398555300, 18406359, 27759611);
   (19592540853, 18401170, 27743864);
   (19788466262, 18396060, 27728300);
   (19986350925, 18391028, 27712917);
   (20186214434, 18386072, 27697712)]%Z.
Definition ct_uv_tab_e0 : Z := 6%Z.
Definition ct_uv_tab_e1 : Z := 8%Z.
Definition ct_uv_tab_e2 : Z := 8%Z.

