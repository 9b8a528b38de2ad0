(** General categories of Unicode.  The rows marked [V14] were written by listing
    [unicodedata.category] of Python 3.11 (Unicode 14.0.0) for all code points; the
    rows marked [V15] are the 4489 code points without character in Unicode 14.0 to
    which the table of /repo gives one (Unicode 15.0 added 4489 characters). *)
From Verif Require Import Base.
Local Open Scope Z_scope.

Inductive gc := Cn | Lu | Ll | Lt | Lm | Lo | Mn | Me | Mc | Nd | Nl | No | Zs | Zl | Zp | Cc | Cf | Co | Cs
  | Pd | Ps | Pe | Pc | Po | Sm | Sc | Sk | So | Pi | Pf.
Inductive version := V14 | V15.
Definition uni_0 : list ((Z * Z) * (gc * version)) := [
((0, 31), (Cc, V14)); ((32, 32), (Zs, V14)); ((33, 35), (Po, V14)); ((36, 36), (Sc, V14)); ((37, 39), (Po, V14));
((40, 40), (Ps, V14)); ((41, 41), (Pe, V14)); ((42, 42), (Po, V14)); ((43, 43), (Sm, V14)); ((44, 44), (Po, V14));
((45, 45), (Pd, V14)); ((46, 47), (Po, V14)); ((48, 57), (Nd, V14)); ((58, 59), (Po, V14)); ((60, 62), (Sm, V14));
((63, 64), (Po, V14)); ((65, 90), (Lu, V14)); ((91, 91), (Ps, V14)); ((92, 92), (Po, V14)); ((93, 93), (Pe, V14));
((94, 94), (Sk, V14)); ((95, 95), (Pc, V14)); ((96, 96), (Sk, V14)); ((97, 122), (Ll, V14)); ((123, 123), (Ps, V14));
((124, 124), (Sm, V14)); ((125, 125), (Pe, V14)); ((126, 126), (Sm, V14)); ((127, 159), (Cc, V14)); ((160, 160), (Zs, V14));
((161, 161), (Po, V14)); ((162, 165), (Sc, V14)); ((166, 166), (So, V14)); ((167, 167), (Po, V14)); ((168, 168), (Sk, V14));
((169, 169), (So, V14)); ((170, 170), (Lo, V14)); ((171, 171), (Pi, V14)); ((172, 172), (Sm, V14)); ((173, 173), (Cf, V14));
((174, 174), (So, V14)); ((175, 175), (Sk, V14)); ((176, 176), (So, V14)); ((177, 177), (Sm, V14)); ((178, 179), (No, V14));
((180, 180), (Sk, V14)); ((181, 181), (Ll, V14)); ((182, 183), (Po, V14)); ((184, 184), (Sk, V14)); ((185, 185), (No, V14));
((186, 186), (Lo, V14)); ((187, 187), (Pf, V14)); ((188, 190), (No, V14)); ((191, 191), (Po, V14)); ((192, 214), (Lu, V14));
((215, 215), (Sm, V14)); ((216, 222), (Lu, V14)); ((223, 246), (Ll, V14)); ((247, 247), (Sm, V14)); ((248, 255), (Ll, V14));
((256, 256), (Lu, V14)); ((257, 257), (Ll, V14)); ((258, 258), (Lu, V14)); ((259, 259), (Ll, V14)); ((260, 260), (Lu, V14));
((261, 261), (Ll, V14)); ((262, 262), (Lu, V14)); ((263, 263), (Ll, V14)); ((264, 264), (Lu, V14)); ((265, 265), (Ll, V14));
((266, 266), (Lu, V14)); ((267, 267), (Ll, V14)); ((268, 268), (Lu, V14)); ((269, 269), (Ll, V14)); ((270, 270), (Lu, V14));
((271, 271), (Ll, V14)); ((272, 272), (Lu, V14)); ((273, 273), (Ll, V14)); ((274, 274), (Lu, V14)); ((275, 275), (Ll, V14));
((276, 276), (Lu, V14)); ((277, 277), (Ll, V14)); ((278, 278), (Lu, V14)); ((279, 279), (Ll, V14)); ((280, 280), (Lu, V14));
((281, 281), (Ll, V14)); ((282, 282), (Lu, V14)); ((283, 283), (Ll, V14)); ((284, 284), (Lu, V14)); ((285, 285), (Ll, V14));
((286, 286), (Lu, V14)); ((287, 287), (Ll, V14)); ((288, 288), (Lu, V14)); ((289, 289), (Ll, V14)); ((290, 290), (Lu, V14));
((291, 291), (Ll, V14)); ((292, 292), (Lu, V14)); ((293, 293), (Ll, V14)); ((294, 294), (Lu, V14)); ((295, 295), (Ll, V14));
((296, 296), (Lu, V14)); ((297, 297), (Ll, V14)); ((298, 298), (Lu, V14)); ((299, 299), (Ll, V14)); ((300, 300), (Lu, V14));
((301, 301), (Ll, V14)); ((302, 302), (Lu, V14)); ((303, 303), (Ll, V14)); ((304, 304), (Lu, V14)); ((305, 305), (Ll, V14));
((306, 306), (Lu, V14)); ((307, 307), (Ll, V14)); ((308, 308), (Lu, V14)); ((309, 309), (Ll, V14)); ((310, 310), (Lu, V14));
((311, 312), (Ll, V14)); ((313, 313), (Lu, V14)); ((314, 314), (Ll, V14)); ((315, 315), (Lu, V14)); ((316, 316), (Ll, V14));
((317, 317), (Lu, V14)); ((318, 318), (Ll, V14)); ((319, 319), (Lu, V14)); ((320, 320), (Ll, V14)); ((321, 321), (Lu, V14));
((322, 322), (Ll, V14)); ((323, 323), (Lu, V14)); ((324, 324), (Ll, V14)); ((325, 325), (Lu, V14)); ((326, 326), (Ll, V14));
((327, 327), (Lu, V14)); ((328, 329), (Ll, V14)); ((330, 330), (Lu, V14)); ((331, 331), (Ll, V14)); ((332, 332), (Lu, V14));
((333, 333), (Ll, V14)); ((334, 334), (Lu, V14)); ((335, 335), (Ll, V14)); ((336, 336), (Lu, V14)); ((337, 337), (Ll, V14));
((338, 338), (Lu, V14)); ((339, 339), (Ll, V14)); ((340, 340), (Lu, V14)); ((341, 341), (Ll, V14)); ((342, 342), (Lu, V14));
((343, 343), (Ll, V14)); ((344, 344), (Lu, V14)); ((345, 345), (Ll, V14)); ((346, 346), (Lu, V14)); ((347, 347), (Ll, V14));
((348, 348), (Lu, V14)); ((349, 349), (Ll, V14)); ((350, 350), (Lu, V14)); ((351, 351), (Ll, V14)); ((352, 352), (Lu, V14));
((353, 353), (Ll, V14)); ((354, 354), (Lu, V14)); ((355, 355), (Ll, V14)); ((356, 356), (Lu, V14)); ((357, 357), (Ll, V14));
((358, 358), (Lu, V14)); ((359, 359), (Ll, V14)); ((360, 360), (Lu, V14)); ((361, 361), (Ll, V14)); ((362, 362), (Lu, V14));
((363, 363), (Ll, V14)); ((364, 364), (Lu, V14)); ((365, 365), (Ll, V14)); ((366, 366), (Lu, V14)); ((367, 367), (Ll, V14));
((368, 368), (Lu, V14)); ((369, 369), (Ll, V14)); ((370, 370), (Lu, V14)); ((371, 371), (Ll, V14)); ((372, 372), (Lu, V14));
((373, 373), (Ll, V14)); ((374, 374), (Lu, V14)); ((375, 375), (Ll, V14)); ((376, 377), (Lu, V14)); ((378, 378), (Ll, V14));
((379, 379), (Lu, V14)); ((380, 380), (Ll, V14)); ((381, 381), (Lu, V14)); ((382, 384), (Ll, V14)); ((385, 386), (Lu, V14));
((387, 387), (Ll, V14)); ((388, 388), (Lu, V14)); ((389, 389), (Ll, V14)); ((390, 391), (Lu, V14)); ((392, 392), (Ll, V14));
((393, 395), (Lu, V14)); ((396, 397), (Ll, V14)); ((398, 401), (Lu, V14)); ((402, 402), (Ll, V14)); ((403, 404), (Lu, V14));
((405, 405), (Ll, V14)); ((406, 408), (Lu, V14)); ((409, 411), (Ll, V14)); ((412, 413), (Lu, V14)); ((414, 414), (Ll, V14));
((415, 416), (Lu, V14)); ((417, 417), (Ll, V14)); ((418, 418), (Lu, V14)); ((419, 419), (Ll, V14)); ((420, 420), (Lu, V14));
((421, 421), (Ll, V14)); ((422, 423), (Lu, V14)); ((424, 424), (Ll, V14)); ((425, 425), (Lu, V14)); ((426, 427), (Ll, V14));
((428, 428), (Lu, V14)); ((429, 429), (Ll, V14)); ((430, 431), (Lu, V14)); ((432, 432), (Ll, V14)); ((433, 435), (Lu, V14));
((436, 436), (Ll, V14)); ((437, 437), (Lu, V14)); ((438, 438), (Ll, V14)); ((439, 440), (Lu, V14)); ((441, 442), (Ll, V14));
((443, 443), (Lo, V14)); ((444, 444), (Lu, V14)); ((445, 447), (Ll, V14)); ((448, 451), (Lo, V14)); ((452, 452), (Lu, V14));
((453, 453), (Lt, V14)); ((454, 454), (Ll, V14)); ((455, 455), (Lu, V14)); ((456, 456), (Lt, V14)); ((457, 457), (Ll, V14));
((458, 458), (Lu, V14)); ((459, 459), (Lt, V14)); ((460, 460), (Ll, V14)); ((461, 461), (Lu, V14)); ((462, 462), (Ll, V14));
((463, 463), (Lu, V14)); ((464, 464), (Ll, V14)); ((465, 465), (Lu, V14)); ((466, 466), (Ll, V14)); ((467, 467), (Lu, V14));
((468, 468), (Ll, V14)); ((469, 469), (Lu, V14)); ((470, 470), (Ll, V14)); ((471, 471), (Lu, V14)); ((472, 472), (Ll, V14));
((473, 473), (Lu, V14)); ((474, 474), (Ll, V14)); ((475, 475), (Lu, V14)); ((476, 477), (Ll, V14)); ((478, 478), (Lu, V14));
((479, 479), (Ll, V14)); ((480, 480), (Lu, V14)); ((481, 481), (Ll, V14)); ((482, 482), (Lu, V14)); ((483, 483), (Ll, V14));
((484, 484), (Lu, V14))].
Definition uni_1 : list ((Z * Z) * (gc * version)) := [
((485, 485), (Ll, V14)); ((486, 486), (Lu, V14)); ((487, 487), (Ll, V14)); ((488, 488), (Lu, V14)); ((489, 489), (Ll, V14));
((490, 490), (Lu, V14)); ((491, 491), (Ll, V14)); ((492, 492), (Lu, V14)); ((493, 493), (Ll, V14)); ((494, 494), (Lu, V14));
((495, 496), (Ll, V14)); ((497, 497), (Lu, V14)); ((498, 498), (Lt, V14)); ((499, 499), (Ll, V14)); ((500, 500), (Lu, V14));
((501, 501), (Ll, V14)); ((502, 504), (Lu, V14)); ((505, 505), (Ll, V14)); ((506, 506), (Lu, V14)); ((507, 507), (Ll, V14));
((508, 508), (Lu, V14)); ((509, 509), (Ll, V14)); ((510, 510), (Lu, V14)); ((511, 511), (Ll, V14)); ((512, 512), (Lu, V14));
((513, 513), (Ll, V14)); ((514, 514), (Lu, V14)); ((515, 515), (Ll, V14)); ((516, 516), (Lu, V14)); ((517, 517), (Ll, V14));
((518, 518), (Lu, V14)); ((519, 519), (Ll, V14)); ((520, 520), (Lu, V14)); ((521, 521), (Ll, V14)); ((522, 522), (Lu, V14));
((523, 523), (Ll, V14)); ((524, 524), (Lu, V14)); ((525, 525), (Ll, V14)); ((526, 526), (Lu, V14)); ((527, 527), (Ll, V14));
((528, 528), (Lu, V14)); ((529, 529), (Ll, V14)); ((530, 530), (Lu, V14)); ((531, 531), (Ll, V14)); ((532, 532), (Lu, V14));
((533, 533), (Ll, V14)); ((534, 534), (Lu, V14)); ((535, 535), (Ll, V14)); ((536, 536), (Lu, V14)); ((537, 537), (Ll, V14));
((538, 538), (Lu, V14)); ((539, 539), (Ll, V14)); ((540, 540), (Lu, V14)); ((541, 541), (Ll, V14)); ((542, 542), (Lu, V14));
((543, 543), (Ll, V14)); ((544, 544), (Lu, V14)); ((545, 545), (Ll, V14)); ((546, 546), (Lu, V14)); ((547, 547), (Ll, V14));
((548, 548), (Lu, V14)); ((549, 549), (Ll, V14)); ((550, 550), (Lu, V14)); ((551, 551), (Ll, V14)); ((552, 552), (Lu, V14));
((553, 553), (Ll, V14)); ((554, 554), (Lu, V14)); ((555, 555), (Ll, V14)); ((556, 556), (Lu, V14)); ((557, 557), (Ll, V14));
((558, 558), (Lu, V14)); ((559, 559), (Ll, V14)); ((560, 560), (Lu, V14)); ((561, 561), (Ll, V14)); ((562, 562), (Lu, V14));
((563, 569), (Ll, V14)); ((570, 571), (Lu, V14)); ((572, 572), (Ll, V14)); ((573, 574), (Lu, V14)); ((575, 576), (Ll, V14));
((577, 577), (Lu, V14)); ((578, 578), (Ll, V14)); ((579, 582), (Lu, V14)); ((583, 583), (Ll, V14)); ((584, 584), (Lu, V14));
((585, 585), (Ll, V14)); ((586, 586), (Lu, V14)); ((587, 587), (Ll, V14)); ((588, 588), (Lu, V14)); ((589, 589), (Ll, V14));
((590, 590), (Lu, V14)); ((591, 659), (Ll, V14)); ((660, 660), (Lo, V14)); ((661, 687), (Ll, V14)); ((688, 705), (Lm, V14));
((706, 709), (Sk, V14)); ((710, 721), (Lm, V14)); ((722, 735), (Sk, V14)); ((736, 740), (Lm, V14)); ((741, 747), (Sk, V14));
((748, 748), (Lm, V14)); ((749, 749), (Sk, V14)); ((750, 750), (Lm, V14)); ((751, 767), (Sk, V14)); ((768, 879), (Mn, V14));
((880, 880), (Lu, V14)); ((881, 881), (Ll, V14)); ((882, 882), (Lu, V14)); ((883, 883), (Ll, V14)); ((884, 884), (Lm, V14));
((885, 885), (Sk, V14)); ((886, 886), (Lu, V14)); ((887, 887), (Ll, V14)); ((890, 890), (Lm, V14)); ((891, 893), (Ll, V14));
((894, 894), (Po, V14)); ((895, 895), (Lu, V14)); ((900, 901), (Sk, V14)); ((902, 902), (Lu, V14)); ((903, 903), (Po, V14));
((904, 906), (Lu, V14)); ((908, 908), (Lu, V14)); ((910, 911), (Lu, V14)); ((912, 912), (Ll, V14)); ((913, 929), (Lu, V14));
((931, 939), (Lu, V14)); ((940, 974), (Ll, V14)); ((975, 975), (Lu, V14)); ((976, 977), (Ll, V14)); ((978, 980), (Lu, V14));
((981, 983), (Ll, V14)); ((984, 984), (Lu, V14)); ((985, 985), (Ll, V14)); ((986, 986), (Lu, V14)); ((987, 987), (Ll, V14));
((988, 988), (Lu, V14)); ((989, 989), (Ll, V14)); ((990, 990), (Lu, V14)); ((991, 991), (Ll, V14)); ((992, 992), (Lu, V14));
((993, 993), (Ll, V14)); ((994, 994), (Lu, V14)); ((995, 995), (Ll, V14)); ((996, 996), (Lu, V14)); ((997, 997), (Ll, V14));
((998, 998), (Lu, V14)); ((999, 999), (Ll, V14)); ((1000, 1000), (Lu, V14)); ((1001, 1001), (Ll, V14)); ((1002, 1002), (Lu, V14));
((1003, 1003), (Ll, V14)); ((1004, 1004), (Lu, V14)); ((1005, 1005), (Ll, V14)); ((1006, 1006), (Lu, V14)); ((1007, 1011), (Ll, V14));
((1012, 1012), (Lu, V14)); ((1013, 1013), (Ll, V14)); ((1014, 1014), (Sm, V14)); ((1015, 1015), (Lu, V14)); ((1016, 1016), (Ll, V14));
((1017, 1018), (Lu, V14)); ((1019, 1020), (Ll, V14)); ((1021, 1071), (Lu, V14)); ((1072, 1119), (Ll, V14)); ((1120, 1120), (Lu, V14));
((1121, 1121), (Ll, V14)); ((1122, 1122), (Lu, V14)); ((1123, 1123), (Ll, V14)); ((1124, 1124), (Lu, V14)); ((1125, 1125), (Ll, V14));
((1126, 1126), (Lu, V14)); ((1127, 1127), (Ll, V14)); ((1128, 1128), (Lu, V14)); ((1129, 1129), (Ll, V14)); ((1130, 1130), (Lu, V14));
((1131, 1131), (Ll, V14)); ((1132, 1132), (Lu, V14)); ((1133, 1133), (Ll, V14)); ((1134, 1134), (Lu, V14)); ((1135, 1135), (Ll, V14));
((1136, 1136), (Lu, V14)); ((1137, 1137), (Ll, V14)); ((1138, 1138), (Lu, V14)); ((1139, 1139), (Ll, V14)); ((1140, 1140), (Lu, V14));
((1141, 1141), (Ll, V14)); ((1142, 1142), (Lu, V14)); ((1143, 1143), (Ll, V14)); ((1144, 1144), (Lu, V14)); ((1145, 1145), (Ll, V14));
((1146, 1146), (Lu, V14)); ((1147, 1147), (Ll, V14)); ((1148, 1148), (Lu, V14)); ((1149, 1149), (Ll, V14)); ((1150, 1150), (Lu, V14));
((1151, 1151), (Ll, V14)); ((1152, 1152), (Lu, V14)); ((1153, 1153), (Ll, V14)); ((1154, 1154), (So, V14)); ((1155, 1159), (Mn, V14));
((1160, 1161), (Me, V14)); ((1162, 1162), (Lu, V14)); ((1163, 1163), (Ll, V14)); ((1164, 1164), (Lu, V14)); ((1165, 1165), (Ll, V14));
((1166, 1166), (Lu, V14)); ((1167, 1167), (Ll, V14)); ((1168, 1168), (Lu, V14)); ((1169, 1169), (Ll, V14)); ((1170, 1170), (Lu, V14));
((1171, 1171), (Ll, V14)); ((1172, 1172), (Lu, V14)); ((1173, 1173), (Ll, V14)); ((1174, 1174), (Lu, V14)); ((1175, 1175), (Ll, V14));
((1176, 1176), (Lu, V14)); ((1177, 1177), (Ll, V14)); ((1178, 1178), (Lu, V14)); ((1179, 1179), (Ll, V14)); ((1180, 1180), (Lu, V14));
((1181, 1181), (Ll, V14)); ((1182, 1182), (Lu, V14)); ((1183, 1183), (Ll, V14)); ((1184, 1184), (Lu, V14)); ((1185, 1185), (Ll, V14));
((1186, 1186), (Lu, V14)); ((1187, 1187), (Ll, V14)); ((1188, 1188), (Lu, V14)); ((1189, 1189), (Ll, V14)); ((1190, 1190), (Lu, V14));
((1191, 1191), (Ll, V14)); ((1192, 1192), (Lu, V14)); ((1193, 1193), (Ll, V14)); ((1194, 1194), (Lu, V14)); ((1195, 1195), (Ll, V14));
((1196, 1196), (Lu, V14)); ((1197, 1197), (Ll, V14)); ((1198, 1198), (Lu, V14)); ((1199, 1199), (Ll, V14)); ((1200, 1200), (Lu, V14));
((1201, 1201), (Ll, V14)); ((1202, 1202), (Lu, V14)); ((1203, 1203), (Ll, V14)); ((1204, 1204), (Lu, V14)); ((1205, 1205), (Ll, V14));
((1206, 1206), (Lu, V14)); ((1207, 1207), (Ll, V14)); ((1208, 1208), (Lu, V14)); ((1209, 1209), (Ll, V14)); ((1210, 1210), (Lu, V14));
((1211, 1211), (Ll, V14)); ((1212, 1212), (Lu, V14)); ((1213, 1213), (Ll, V14)); ((1214, 1214), (Lu, V14)); ((1215, 1215), (Ll, V14));
((1216, 1217), (Lu, V14))].
Definition uni_2 : list ((Z * Z) * (gc * version)) := [
((1218, 1218), (Ll, V14)); ((1219, 1219), (Lu, V14)); ((1220, 1220), (Ll, V14)); ((1221, 1221), (Lu, V14)); ((1222, 1222), (Ll, V14));
((1223, 1223), (Lu, V14)); ((1224, 1224), (Ll, V14)); ((1225, 1225), (Lu, V14)); ((1226, 1226), (Ll, V14)); ((1227, 1227), (Lu, V14));
((1228, 1228), (Ll, V14)); ((1229, 1229), (Lu, V14)); ((1230, 1231), (Ll, V14)); ((1232, 1232), (Lu, V14)); ((1233, 1233), (Ll, V14));
((1234, 1234), (Lu, V14)); ((1235, 1235), (Ll, V14)); ((1236, 1236), (Lu, V14)); ((1237, 1237), (Ll, V14)); ((1238, 1238), (Lu, V14));
((1239, 1239), (Ll, V14)); ((1240, 1240), (Lu, V14)); ((1241, 1241), (Ll, V14)); ((1242, 1242), (Lu, V14)); ((1243, 1243), (Ll, V14));
((1244, 1244), (Lu, V14)); ((1245, 1245), (Ll, V14)); ((1246, 1246), (Lu, V14)); ((1247, 1247), (Ll, V14)); ((1248, 1248), (Lu, V14));
((1249, 1249), (Ll, V14)); ((1250, 1250), (Lu, V14)); ((1251, 1251), (Ll, V14)); ((1252, 1252), (Lu, V14)); ((1253, 1253), (Ll, V14));
((1254, 1254), (Lu, V14)); ((1255, 1255), (Ll, V14)); ((1256, 1256), (Lu, V14)); ((1257, 1257), (Ll, V14)); ((1258, 1258), (Lu, V14));
((1259, 1259), (Ll, V14)); ((1260, 1260), (Lu, V14)); ((1261, 1261), (Ll, V14)); ((1262, 1262), (Lu, V14)); ((1263, 1263), (Ll, V14));
((1264, 1264), (Lu, V14)); ((1265, 1265), (Ll, V14)); ((1266, 1266), (Lu, V14)); ((1267, 1267), (Ll, V14)); ((1268, 1268), (Lu, V14));
((1269, 1269), (Ll, V14)); ((1270, 1270), (Lu, V14)); ((1271, 1271), (Ll, V14)); ((1272, 1272), (Lu, V14)); ((1273, 1273), (Ll, V14));
((1274, 1274), (Lu, V14)); ((1275, 1275), (Ll, V14)); ((1276, 1276), (Lu, V14)); ((1277, 1277), (Ll, V14)); ((1278, 1278), (Lu, V14));
((1279, 1279), (Ll, V14)); ((1280, 1280), (Lu, V14)); ((1281, 1281), (Ll, V14)); ((1282, 1282), (Lu, V14)); ((1283, 1283), (Ll, V14));
((1284, 1284), (Lu, V14)); ((1285, 1285), (Ll, V14)); ((1286, 1286), (Lu, V14)); ((1287, 1287), (Ll, V14)); ((1288, 1288), (Lu, V14));
((1289, 1289), (Ll, V14)); ((1290, 1290), (Lu, V14)); ((1291, 1291), (Ll, V14)); ((1292, 1292), (Lu, V14)); ((1293, 1293), (Ll, V14));
((1294, 1294), (Lu, V14)); ((1295, 1295), (Ll, V14)); ((1296, 1296), (Lu, V14)); ((1297, 1297), (Ll, V14)); ((1298, 1298), (Lu, V14));
((1299, 1299), (Ll, V14)); ((1300, 1300), (Lu, V14)); ((1301, 1301), (Ll, V14)); ((1302, 1302), (Lu, V14)); ((1303, 1303), (Ll, V14));
((1304, 1304), (Lu, V14)); ((1305, 1305), (Ll, V14)); ((1306, 1306), (Lu, V14)); ((1307, 1307), (Ll, V14)); ((1308, 1308), (Lu, V14));
((1309, 1309), (Ll, V14)); ((1310, 1310), (Lu, V14)); ((1311, 1311), (Ll, V14)); ((1312, 1312), (Lu, V14)); ((1313, 1313), (Ll, V14));
((1314, 1314), (Lu, V14)); ((1315, 1315), (Ll, V14)); ((1316, 1316), (Lu, V14)); ((1317, 1317), (Ll, V14)); ((1318, 1318), (Lu, V14));
((1319, 1319), (Ll, V14)); ((1320, 1320), (Lu, V14)); ((1321, 1321), (Ll, V14)); ((1322, 1322), (Lu, V14)); ((1323, 1323), (Ll, V14));
((1324, 1324), (Lu, V14)); ((1325, 1325), (Ll, V14)); ((1326, 1326), (Lu, V14)); ((1327, 1327), (Ll, V14)); ((1329, 1366), (Lu, V14));
((1369, 1369), (Lm, V14)); ((1370, 1375), (Po, V14)); ((1376, 1416), (Ll, V14)); ((1417, 1417), (Po, V14)); ((1418, 1418), (Pd, V14));
((1421, 1422), (So, V14)); ((1423, 1423), (Sc, V14)); ((1425, 1469), (Mn, V14)); ((1470, 1470), (Pd, V14)); ((1471, 1471), (Mn, V14));
((1472, 1472), (Po, V14)); ((1473, 1474), (Mn, V14)); ((1475, 1475), (Po, V14)); ((1476, 1477), (Mn, V14)); ((1478, 1478), (Po, V14));
((1479, 1479), (Mn, V14)); ((1488, 1514), (Lo, V14)); ((1519, 1522), (Lo, V14)); ((1523, 1524), (Po, V14)); ((1536, 1541), (Cf, V14));
((1542, 1544), (Sm, V14)); ((1545, 1546), (Po, V14)); ((1547, 1547), (Sc, V14)); ((1548, 1549), (Po, V14)); ((1550, 1551), (So, V14));
((1552, 1562), (Mn, V14)); ((1563, 1563), (Po, V14)); ((1564, 1564), (Cf, V14)); ((1565, 1567), (Po, V14)); ((1568, 1599), (Lo, V14));
((1600, 1600), (Lm, V14)); ((1601, 1610), (Lo, V14)); ((1611, 1631), (Mn, V14)); ((1632, 1641), (Nd, V14)); ((1642, 1645), (Po, V14));
((1646, 1647), (Lo, V14)); ((1648, 1648), (Mn, V14)); ((1649, 1747), (Lo, V14)); ((1748, 1748), (Po, V14)); ((1749, 1749), (Lo, V14));
((1750, 1756), (Mn, V14)); ((1757, 1757), (Cf, V14)); ((1758, 1758), (So, V14)); ((1759, 1764), (Mn, V14)); ((1765, 1766), (Lm, V14));
((1767, 1768), (Mn, V14)); ((1769, 1769), (So, V14)); ((1770, 1773), (Mn, V14)); ((1774, 1775), (Lo, V14)); ((1776, 1785), (Nd, V14));
((1786, 1788), (Lo, V14)); ((1789, 1790), (So, V14)); ((1791, 1791), (Lo, V14)); ((1792, 1805), (Po, V14)); ((1807, 1807), (Cf, V14));
((1808, 1808), (Lo, V14)); ((1809, 1809), (Mn, V14)); ((1810, 1839), (Lo, V14)); ((1840, 1866), (Mn, V14)); ((1869, 1957), (Lo, V14));
((1958, 1968), (Mn, V14)); ((1969, 1969), (Lo, V14)); ((1984, 1993), (Nd, V14)); ((1994, 2026), (Lo, V14)); ((2027, 2035), (Mn, V14));
((2036, 2037), (Lm, V14)); ((2038, 2038), (So, V14)); ((2039, 2041), (Po, V14)); ((2042, 2042), (Lm, V14)); ((2045, 2045), (Mn, V14));
((2046, 2047), (Sc, V14)); ((2048, 2069), (Lo, V14)); ((2070, 2073), (Mn, V14)); ((2074, 2074), (Lm, V14)); ((2075, 2083), (Mn, V14));
((2084, 2084), (Lm, V14)); ((2085, 2087), (Mn, V14)); ((2088, 2088), (Lm, V14)); ((2089, 2093), (Mn, V14)); ((2096, 2110), (Po, V14));
((2112, 2136), (Lo, V14)); ((2137, 2139), (Mn, V14)); ((2142, 2142), (Po, V14)); ((2144, 2154), (Lo, V14)); ((2160, 2183), (Lo, V14));
((2184, 2184), (Sk, V14)); ((2185, 2190), (Lo, V14)); ((2192, 2193), (Cf, V14)); ((2200, 2207), (Mn, V14)); ((2208, 2248), (Lo, V14));
((2249, 2249), (Lm, V14)); ((2250, 2273), (Mn, V14)); ((2274, 2274), (Cf, V14)); ((2275, 2306), (Mn, V14)); ((2307, 2307), (Mc, V14));
((2308, 2361), (Lo, V14)); ((2362, 2362), (Mn, V14)); ((2363, 2363), (Mc, V14)); ((2364, 2364), (Mn, V14)); ((2365, 2365), (Lo, V14));
((2366, 2368), (Mc, V14)); ((2369, 2376), (Mn, V14)); ((2377, 2380), (Mc, V14)); ((2381, 2381), (Mn, V14)); ((2382, 2383), (Mc, V14));
((2384, 2384), (Lo, V14)); ((2385, 2391), (Mn, V14)); ((2392, 2401), (Lo, V14)); ((2402, 2403), (Mn, V14)); ((2404, 2405), (Po, V14));
((2406, 2415), (Nd, V14)); ((2416, 2416), (Po, V14)); ((2417, 2417), (Lm, V14)); ((2418, 2432), (Lo, V14)); ((2433, 2433), (Mn, V14));
((2434, 2435), (Mc, V14)); ((2437, 2444), (Lo, V14)); ((2447, 2448), (Lo, V14)); ((2451, 2472), (Lo, V14)); ((2474, 2480), (Lo, V14));
((2482, 2482), (Lo, V14)); ((2486, 2489), (Lo, V14)); ((2492, 2492), (Mn, V14)); ((2493, 2493), (Lo, V14)); ((2494, 2496), (Mc, V14));
((2497, 2500), (Mn, V14)); ((2503, 2504), (Mc, V14)); ((2507, 2508), (Mc, V14)); ((2509, 2509), (Mn, V14)); ((2510, 2510), (Lo, V14));
((2519, 2519), (Mc, V14)); ((2524, 2525), (Lo, V14)); ((2527, 2529), (Lo, V14)); ((2530, 2531), (Mn, V14)); ((2534, 2543), (Nd, V14));
((2544, 2545), (Lo, V14)); ((2546, 2547), (Sc, V14)); ((2548, 2553), (No, V14)); ((2554, 2554), (So, V14)); ((2555, 2555), (Sc, V14));
((2556, 2556), (Lo, V14)); ((2557, 2557), (Po, V14)); ((2558, 2558), (Mn, V14)); ((2561, 2562), (Mn, V14)); ((2563, 2563), (Mc, V14));
((2565, 2570), (Lo, V14))].
Definition uni_3 : list ((Z * Z) * (gc * version)) := [
((2575, 2576), (Lo, V14)); ((2579, 2600), (Lo, V14)); ((2602, 2608), (Lo, V14)); ((2610, 2611), (Lo, V14)); ((2613, 2614), (Lo, V14));
((2616, 2617), (Lo, V14)); ((2620, 2620), (Mn, V14)); ((2622, 2624), (Mc, V14)); ((2625, 2626), (Mn, V14)); ((2631, 2632), (Mn, V14));
((2635, 2637), (Mn, V14)); ((2641, 2641), (Mn, V14)); ((2649, 2652), (Lo, V14)); ((2654, 2654), (Lo, V14)); ((2662, 2671), (Nd, V14));
((2672, 2673), (Mn, V14)); ((2674, 2676), (Lo, V14)); ((2677, 2677), (Mn, V14)); ((2678, 2678), (Po, V14)); ((2689, 2690), (Mn, V14));
((2691, 2691), (Mc, V14)); ((2693, 2701), (Lo, V14)); ((2703, 2705), (Lo, V14)); ((2707, 2728), (Lo, V14)); ((2730, 2736), (Lo, V14));
((2738, 2739), (Lo, V14)); ((2741, 2745), (Lo, V14)); ((2748, 2748), (Mn, V14)); ((2749, 2749), (Lo, V14)); ((2750, 2752), (Mc, V14));
((2753, 2757), (Mn, V14)); ((2759, 2760), (Mn, V14)); ((2761, 2761), (Mc, V14)); ((2763, 2764), (Mc, V14)); ((2765, 2765), (Mn, V14));
((2768, 2768), (Lo, V14)); ((2784, 2785), (Lo, V14)); ((2786, 2787), (Mn, V14)); ((2790, 2799), (Nd, V14)); ((2800, 2800), (Po, V14));
((2801, 2801), (Sc, V14)); ((2809, 2809), (Lo, V14)); ((2810, 2815), (Mn, V14)); ((2817, 2817), (Mn, V14)); ((2818, 2819), (Mc, V14));
((2821, 2828), (Lo, V14)); ((2831, 2832), (Lo, V14)); ((2835, 2856), (Lo, V14)); ((2858, 2864), (Lo, V14)); ((2866, 2867), (Lo, V14));
((2869, 2873), (Lo, V14)); ((2876, 2876), (Mn, V14)); ((2877, 2877), (Lo, V14)); ((2878, 2878), (Mc, V14)); ((2879, 2879), (Mn, V14));
((2880, 2880), (Mc, V14)); ((2881, 2884), (Mn, V14)); ((2887, 2888), (Mc, V14)); ((2891, 2892), (Mc, V14)); ((2893, 2893), (Mn, V14));
((2901, 2902), (Mn, V14)); ((2903, 2903), (Mc, V14)); ((2908, 2909), (Lo, V14)); ((2911, 2913), (Lo, V14)); ((2914, 2915), (Mn, V14));
((2918, 2927), (Nd, V14)); ((2928, 2928), (So, V14)); ((2929, 2929), (Lo, V14)); ((2930, 2935), (No, V14)); ((2946, 2946), (Mn, V14));
((2947, 2947), (Lo, V14)); ((2949, 2954), (Lo, V14)); ((2958, 2960), (Lo, V14)); ((2962, 2965), (Lo, V14)); ((2969, 2970), (Lo, V14));
((2972, 2972), (Lo, V14)); ((2974, 2975), (Lo, V14)); ((2979, 2980), (Lo, V14)); ((2984, 2986), (Lo, V14)); ((2990, 3001), (Lo, V14));
((3006, 3007), (Mc, V14)); ((3008, 3008), (Mn, V14)); ((3009, 3010), (Mc, V14)); ((3014, 3016), (Mc, V14)); ((3018, 3020), (Mc, V14));
((3021, 3021), (Mn, V14)); ((3024, 3024), (Lo, V14)); ((3031, 3031), (Mc, V14)); ((3046, 3055), (Nd, V14)); ((3056, 3058), (No, V14));
((3059, 3064), (So, V14)); ((3065, 3065), (Sc, V14)); ((3066, 3066), (So, V14)); ((3072, 3072), (Mn, V14)); ((3073, 3075), (Mc, V14));
((3076, 3076), (Mn, V14)); ((3077, 3084), (Lo, V14)); ((3086, 3088), (Lo, V14)); ((3090, 3112), (Lo, V14)); ((3114, 3129), (Lo, V14));
((3132, 3132), (Mn, V14)); ((3133, 3133), (Lo, V14)); ((3134, 3136), (Mn, V14)); ((3137, 3140), (Mc, V14)); ((3142, 3144), (Mn, V14));
((3146, 3149), (Mn, V14)); ((3157, 3158), (Mn, V14)); ((3160, 3162), (Lo, V14)); ((3165, 3165), (Lo, V14)); ((3168, 3169), (Lo, V14));
((3170, 3171), (Mn, V14)); ((3174, 3183), (Nd, V14)); ((3191, 3191), (Po, V14)); ((3192, 3198), (No, V14)); ((3199, 3199), (So, V14));
((3200, 3200), (Lo, V14)); ((3201, 3201), (Mn, V14)); ((3202, 3203), (Mc, V14)); ((3204, 3204), (Po, V14)); ((3205, 3212), (Lo, V14));
((3214, 3216), (Lo, V14)); ((3218, 3240), (Lo, V14)); ((3242, 3251), (Lo, V14)); ((3253, 3257), (Lo, V14)); ((3260, 3260), (Mn, V14));
((3261, 3261), (Lo, V14)); ((3262, 3262), (Mc, V14)); ((3263, 3263), (Mn, V14)); ((3264, 3268), (Mc, V14)); ((3270, 3270), (Mn, V14));
((3271, 3272), (Mc, V14)); ((3274, 3275), (Mc, V14)); ((3276, 3277), (Mn, V14)); ((3285, 3286), (Mc, V14)); ((3293, 3294), (Lo, V14));
((3296, 3297), (Lo, V14)); ((3298, 3299), (Mn, V14)); ((3302, 3311), (Nd, V14)); ((3313, 3314), (Lo, V14)); ((3315, 3315), (Mc, V15));
((3328, 3329), (Mn, V14)); ((3330, 3331), (Mc, V14)); ((3332, 3340), (Lo, V14)); ((3342, 3344), (Lo, V14)); ((3346, 3386), (Lo, V14));
((3387, 3388), (Mn, V14)); ((3389, 3389), (Lo, V14)); ((3390, 3392), (Mc, V14)); ((3393, 3396), (Mn, V14)); ((3398, 3400), (Mc, V14));
((3402, 3404), (Mc, V14)); ((3405, 3405), (Mn, V14)); ((3406, 3406), (Lo, V14)); ((3407, 3407), (So, V14)); ((3412, 3414), (Lo, V14));
((3415, 3415), (Mc, V14)); ((3416, 3422), (No, V14)); ((3423, 3425), (Lo, V14)); ((3426, 3427), (Mn, V14)); ((3430, 3439), (Nd, V14));
((3440, 3448), (No, V14)); ((3449, 3449), (So, V14)); ((3450, 3455), (Lo, V14)); ((3457, 3457), (Mn, V14)); ((3458, 3459), (Mc, V14));
((3461, 3478), (Lo, V14)); ((3482, 3505), (Lo, V14)); ((3507, 3515), (Lo, V14)); ((3517, 3517), (Lo, V14)); ((3520, 3526), (Lo, V14));
((3530, 3530), (Mn, V14)); ((3535, 3537), (Mc, V14)); ((3538, 3540), (Mn, V14)); ((3542, 3542), (Mn, V14)); ((3544, 3551), (Mc, V14));
((3558, 3567), (Nd, V14)); ((3570, 3571), (Mc, V14)); ((3572, 3572), (Po, V14)); ((3585, 3632), (Lo, V14)); ((3633, 3633), (Mn, V14));
((3634, 3635), (Lo, V14)); ((3636, 3642), (Mn, V14)); ((3647, 3647), (Sc, V14)); ((3648, 3653), (Lo, V14)); ((3654, 3654), (Lm, V14));
((3655, 3662), (Mn, V14)); ((3663, 3663), (Po, V14)); ((3664, 3673), (Nd, V14)); ((3674, 3675), (Po, V14)); ((3713, 3714), (Lo, V14));
((3716, 3716), (Lo, V14)); ((3718, 3722), (Lo, V14)); ((3724, 3747), (Lo, V14)); ((3749, 3749), (Lo, V14)); ((3751, 3760), (Lo, V14));
((3761, 3761), (Mn, V14)); ((3762, 3763), (Lo, V14)); ((3764, 3772), (Mn, V14)); ((3773, 3773), (Lo, V14)); ((3776, 3780), (Lo, V14));
((3782, 3782), (Lm, V14)); ((3784, 3789), (Mn, V14)); ((3790, 3790), (Mn, V15)); ((3792, 3801), (Nd, V14)); ((3804, 3807), (Lo, V14));
((3840, 3840), (Lo, V14)); ((3841, 3843), (So, V14)); ((3844, 3858), (Po, V14)); ((3859, 3859), (So, V14)); ((3860, 3860), (Po, V14));
((3861, 3863), (So, V14)); ((3864, 3865), (Mn, V14)); ((3866, 3871), (So, V14)); ((3872, 3881), (Nd, V14)); ((3882, 3891), (No, V14));
((3892, 3892), (So, V14)); ((3893, 3893), (Mn, V14)); ((3894, 3894), (So, V14)); ((3895, 3895), (Mn, V14)); ((3896, 3896), (So, V14));
((3897, 3897), (Mn, V14)); ((3898, 3898), (Ps, V14)); ((3899, 3899), (Pe, V14)); ((3900, 3900), (Ps, V14)); ((3901, 3901), (Pe, V14));
((3902, 3903), (Mc, V14)); ((3904, 3911), (Lo, V14)); ((3913, 3948), (Lo, V14)); ((3953, 3966), (Mn, V14)); ((3967, 3967), (Mc, V14));
((3968, 3972), (Mn, V14)); ((3973, 3973), (Po, V14)); ((3974, 3975), (Mn, V14)); ((3976, 3980), (Lo, V14)); ((3981, 3991), (Mn, V14));
((3993, 4028), (Mn, V14)); ((4030, 4037), (So, V14)); ((4038, 4038), (Mn, V14)); ((4039, 4044), (So, V14)); ((4046, 4047), (So, V14));
((4048, 4052), (Po, V14)); ((4053, 4056), (So, V14)); ((4057, 4058), (Po, V14)); ((4096, 4138), (Lo, V14)); ((4139, 4140), (Mc, V14));
((4141, 4144), (Mn, V14)); ((4145, 4145), (Mc, V14)); ((4146, 4151), (Mn, V14)); ((4152, 4152), (Mc, V14)); ((4153, 4154), (Mn, V14));
((4155, 4156), (Mc, V14)); ((4157, 4158), (Mn, V14)); ((4159, 4159), (Lo, V14)); ((4160, 4169), (Nd, V14)); ((4170, 4175), (Po, V14));
((4176, 4181), (Lo, V14))].
Definition uni_4 : list ((Z * Z) * (gc * version)) := [
((4182, 4183), (Mc, V14)); ((4184, 4185), (Mn, V14)); ((4186, 4189), (Lo, V14)); ((4190, 4192), (Mn, V14)); ((4193, 4193), (Lo, V14));
((4194, 4196), (Mc, V14)); ((4197, 4198), (Lo, V14)); ((4199, 4205), (Mc, V14)); ((4206, 4208), (Lo, V14)); ((4209, 4212), (Mn, V14));
((4213, 4225), (Lo, V14)); ((4226, 4226), (Mn, V14)); ((4227, 4228), (Mc, V14)); ((4229, 4230), (Mn, V14)); ((4231, 4236), (Mc, V14));
((4237, 4237), (Mn, V14)); ((4238, 4238), (Lo, V14)); ((4239, 4239), (Mc, V14)); ((4240, 4249), (Nd, V14)); ((4250, 4252), (Mc, V14));
((4253, 4253), (Mn, V14)); ((4254, 4255), (So, V14)); ((4256, 4293), (Lu, V14)); ((4295, 4295), (Lu, V14)); ((4301, 4301), (Lu, V14));
((4304, 4346), (Ll, V14)); ((4347, 4347), (Po, V14)); ((4348, 4348), (Lm, V14)); ((4349, 4351), (Ll, V14)); ((4352, 4680), (Lo, V14));
((4682, 4685), (Lo, V14)); ((4688, 4694), (Lo, V14)); ((4696, 4696), (Lo, V14)); ((4698, 4701), (Lo, V14)); ((4704, 4744), (Lo, V14));
((4746, 4749), (Lo, V14)); ((4752, 4784), (Lo, V14)); ((4786, 4789), (Lo, V14)); ((4792, 4798), (Lo, V14)); ((4800, 4800), (Lo, V14));
((4802, 4805), (Lo, V14)); ((4808, 4822), (Lo, V14)); ((4824, 4880), (Lo, V14)); ((4882, 4885), (Lo, V14)); ((4888, 4954), (Lo, V14));
((4957, 4959), (Mn, V14)); ((4960, 4968), (Po, V14)); ((4969, 4988), (No, V14)); ((4992, 5007), (Lo, V14)); ((5008, 5017), (So, V14));
((5024, 5109), (Lu, V14)); ((5112, 5117), (Ll, V14)); ((5120, 5120), (Pd, V14)); ((5121, 5740), (Lo, V14)); ((5741, 5741), (So, V14));
((5742, 5742), (Po, V14)); ((5743, 5759), (Lo, V14)); ((5760, 5760), (Zs, V14)); ((5761, 5786), (Lo, V14)); ((5787, 5787), (Ps, V14));
((5788, 5788), (Pe, V14)); ((5792, 5866), (Lo, V14)); ((5867, 5869), (Po, V14)); ((5870, 5872), (Nl, V14)); ((5873, 5880), (Lo, V14));
((5888, 5905), (Lo, V14)); ((5906, 5908), (Mn, V14)); ((5909, 5909), (Mc, V14)); ((5919, 5937), (Lo, V14)); ((5938, 5939), (Mn, V14));
((5940, 5940), (Mc, V14)); ((5941, 5942), (Po, V14)); ((5952, 5969), (Lo, V14)); ((5970, 5971), (Mn, V14)); ((5984, 5996), (Lo, V14));
((5998, 6000), (Lo, V14)); ((6002, 6003), (Mn, V14)); ((6016, 6067), (Lo, V14)); ((6068, 6069), (Mn, V14)); ((6070, 6070), (Mc, V14));
((6071, 6077), (Mn, V14)); ((6078, 6085), (Mc, V14)); ((6086, 6086), (Mn, V14)); ((6087, 6088), (Mc, V14)); ((6089, 6099), (Mn, V14));
((6100, 6102), (Po, V14)); ((6103, 6103), (Lm, V14)); ((6104, 6106), (Po, V14)); ((6107, 6107), (Sc, V14)); ((6108, 6108), (Lo, V14));
((6109, 6109), (Mn, V14)); ((6112, 6121), (Nd, V14)); ((6128, 6137), (No, V14)); ((6144, 6149), (Po, V14)); ((6150, 6150), (Pd, V14));
((6151, 6154), (Po, V14)); ((6155, 6157), (Mn, V14)); ((6158, 6158), (Cf, V14)); ((6159, 6159), (Mn, V14)); ((6160, 6169), (Nd, V14));
((6176, 6210), (Lo, V14)); ((6211, 6211), (Lm, V14)); ((6212, 6264), (Lo, V14)); ((6272, 6276), (Lo, V14)); ((6277, 6278), (Mn, V14));
((6279, 6312), (Lo, V14)); ((6313, 6313), (Mn, V14)); ((6314, 6314), (Lo, V14)); ((6320, 6389), (Lo, V14)); ((6400, 6430), (Lo, V14));
((6432, 6434), (Mn, V14)); ((6435, 6438), (Mc, V14)); ((6439, 6440), (Mn, V14)); ((6441, 6443), (Mc, V14)); ((6448, 6449), (Mc, V14));
((6450, 6450), (Mn, V14)); ((6451, 6456), (Mc, V14)); ((6457, 6459), (Mn, V14)); ((6464, 6464), (So, V14)); ((6468, 6469), (Po, V14));
((6470, 6479), (Nd, V14)); ((6480, 6509), (Lo, V14)); ((6512, 6516), (Lo, V14)); ((6528, 6571), (Lo, V14)); ((6576, 6601), (Lo, V14));
((6608, 6617), (Nd, V14)); ((6618, 6618), (No, V14)); ((6622, 6655), (So, V14)); ((6656, 6678), (Lo, V14)); ((6679, 6680), (Mn, V14));
((6681, 6682), (Mc, V14)); ((6683, 6683), (Mn, V14)); ((6686, 6687), (Po, V14)); ((6688, 6740), (Lo, V14)); ((6741, 6741), (Mc, V14));
((6742, 6742), (Mn, V14)); ((6743, 6743), (Mc, V14)); ((6744, 6750), (Mn, V14)); ((6752, 6752), (Mn, V14)); ((6753, 6753), (Mc, V14));
((6754, 6754), (Mn, V14)); ((6755, 6756), (Mc, V14)); ((6757, 6764), (Mn, V14)); ((6765, 6770), (Mc, V14)); ((6771, 6780), (Mn, V14));
((6783, 6783), (Mn, V14)); ((6784, 6793), (Nd, V14)); ((6800, 6809), (Nd, V14)); ((6816, 6822), (Po, V14)); ((6823, 6823), (Lm, V14));
((6824, 6829), (Po, V14)); ((6832, 6845), (Mn, V14)); ((6846, 6846), (Me, V14)); ((6847, 6862), (Mn, V14)); ((6912, 6915), (Mn, V14));
((6916, 6916), (Mc, V14)); ((6917, 6963), (Lo, V14)); ((6964, 6964), (Mn, V14)); ((6965, 6965), (Mc, V14)); ((6966, 6970), (Mn, V14));
((6971, 6971), (Mc, V14)); ((6972, 6972), (Mn, V14)); ((6973, 6977), (Mc, V14)); ((6978, 6978), (Mn, V14)); ((6979, 6980), (Mc, V14));
((6981, 6988), (Lo, V14)); ((6992, 7001), (Nd, V14)); ((7002, 7008), (Po, V14)); ((7009, 7018), (So, V14)); ((7019, 7027), (Mn, V14));
((7028, 7036), (So, V14)); ((7037, 7038), (Po, V14)); ((7040, 7041), (Mn, V14)); ((7042, 7042), (Mc, V14)); ((7043, 7072), (Lo, V14));
((7073, 7073), (Mc, V14)); ((7074, 7077), (Mn, V14)); ((7078, 7079), (Mc, V14)); ((7080, 7081), (Mn, V14)); ((7082, 7082), (Mc, V14));
((7083, 7085), (Mn, V14)); ((7086, 7087), (Lo, V14)); ((7088, 7097), (Nd, V14)); ((7098, 7141), (Lo, V14)); ((7142, 7142), (Mn, V14));
((7143, 7143), (Mc, V14)); ((7144, 7145), (Mn, V14)); ((7146, 7148), (Mc, V14)); ((7149, 7149), (Mn, V14)); ((7150, 7150), (Mc, V14));
((7151, 7153), (Mn, V14)); ((7154, 7155), (Mc, V14)); ((7164, 7167), (Po, V14)); ((7168, 7203), (Lo, V14)); ((7204, 7211), (Mc, V14));
((7212, 7219), (Mn, V14)); ((7220, 7221), (Mc, V14)); ((7222, 7223), (Mn, V14)); ((7227, 7231), (Po, V14)); ((7232, 7241), (Nd, V14));
((7245, 7247), (Lo, V14)); ((7248, 7257), (Nd, V14)); ((7258, 7287), (Lo, V14)); ((7288, 7293), (Lm, V14)); ((7294, 7295), (Po, V14));
((7296, 7304), (Ll, V14)); ((7312, 7354), (Lu, V14)); ((7357, 7359), (Lu, V14)); ((7360, 7367), (Po, V14)); ((7376, 7378), (Mn, V14));
((7379, 7379), (Po, V14)); ((7380, 7392), (Mn, V14)); ((7393, 7393), (Mc, V14)); ((7394, 7400), (Mn, V14)); ((7401, 7404), (Lo, V14));
((7405, 7405), (Mn, V14)); ((7406, 7411), (Lo, V14)); ((7412, 7412), (Mn, V14)); ((7413, 7414), (Lo, V14)); ((7415, 7415), (Mc, V14));
((7416, 7417), (Mn, V14)); ((7418, 7418), (Lo, V14)); ((7424, 7467), (Ll, V14)); ((7468, 7530), (Lm, V14)); ((7531, 7543), (Ll, V14));
((7544, 7544), (Lm, V14)); ((7545, 7578), (Ll, V14)); ((7579, 7615), (Lm, V14)); ((7616, 7679), (Mn, V14)); ((7680, 7680), (Lu, V14));
((7681, 7681), (Ll, V14)); ((7682, 7682), (Lu, V14)); ((7683, 7683), (Ll, V14)); ((7684, 7684), (Lu, V14)); ((7685, 7685), (Ll, V14));
((7686, 7686), (Lu, V14)); ((7687, 7687), (Ll, V14)); ((7688, 7688), (Lu, V14)); ((7689, 7689), (Ll, V14)); ((7690, 7690), (Lu, V14));
((7691, 7691), (Ll, V14)); ((7692, 7692), (Lu, V14)); ((7693, 7693), (Ll, V14)); ((7694, 7694), (Lu, V14)); ((7695, 7695), (Ll, V14));
((7696, 7696), (Lu, V14)); ((7697, 7697), (Ll, V14)); ((7698, 7698), (Lu, V14)); ((7699, 7699), (Ll, V14)); ((7700, 7700), (Lu, V14));
((7701, 7701), (Ll, V14)); ((7702, 7702), (Lu, V14)); ((7703, 7703), (Ll, V14)); ((7704, 7704), (Lu, V14)); ((7705, 7705), (Ll, V14));
((7706, 7706), (Lu, V14))].
Definition uni_5 : list ((Z * Z) * (gc * version)) := [
((7707, 7707), (Ll, V14)); ((7708, 7708), (Lu, V14)); ((7709, 7709), (Ll, V14)); ((7710, 7710), (Lu, V14)); ((7711, 7711), (Ll, V14));
((7712, 7712), (Lu, V14)); ((7713, 7713), (Ll, V14)); ((7714, 7714), (Lu, V14)); ((7715, 7715), (Ll, V14)); ((7716, 7716), (Lu, V14));
((7717, 7717), (Ll, V14)); ((7718, 7718), (Lu, V14)); ((7719, 7719), (Ll, V14)); ((7720, 7720), (Lu, V14)); ((7721, 7721), (Ll, V14));
((7722, 7722), (Lu, V14)); ((7723, 7723), (Ll, V14)); ((7724, 7724), (Lu, V14)); ((7725, 7725), (Ll, V14)); ((7726, 7726), (Lu, V14));
((7727, 7727), (Ll, V14)); ((7728, 7728), (Lu, V14)); ((7729, 7729), (Ll, V14)); ((7730, 7730), (Lu, V14)); ((7731, 7731), (Ll, V14));
((7732, 7732), (Lu, V14)); ((7733, 7733), (Ll, V14)); ((7734, 7734), (Lu, V14)); ((7735, 7735), (Ll, V14)); ((7736, 7736), (Lu, V14));
((7737, 7737), (Ll, V14)); ((7738, 7738), (Lu, V14)); ((7739, 7739), (Ll, V14)); ((7740, 7740), (Lu, V14)); ((7741, 7741), (Ll, V14));
((7742, 7742), (Lu, V14)); ((7743, 7743), (Ll, V14)); ((7744, 7744), (Lu, V14)); ((7745, 7745), (Ll, V14)); ((7746, 7746), (Lu, V14));
((7747, 7747), (Ll, V14)); ((7748, 7748), (Lu, V14)); ((7749, 7749), (Ll, V14)); ((7750, 7750), (Lu, V14)); ((7751, 7751), (Ll, V14));
((7752, 7752), (Lu, V14)); ((7753, 7753), (Ll, V14)); ((7754, 7754), (Lu, V14)); ((7755, 7755), (Ll, V14)); ((7756, 7756), (Lu, V14));
((7757, 7757), (Ll, V14)); ((7758, 7758), (Lu, V14)); ((7759, 7759), (Ll, V14)); ((7760, 7760), (Lu, V14)); ((7761, 7761), (Ll, V14));
((7762, 7762), (Lu, V14)); ((7763, 7763), (Ll, V14)); ((7764, 7764), (Lu, V14)); ((7765, 7765), (Ll, V14)); ((7766, 7766), (Lu, V14));
((7767, 7767), (Ll, V14)); ((7768, 7768), (Lu, V14)); ((7769, 7769), (Ll, V14)); ((7770, 7770), (Lu, V14)); ((7771, 7771), (Ll, V14));
((7772, 7772), (Lu, V14)); ((7773, 7773), (Ll, V14)); ((7774, 7774), (Lu, V14)); ((7775, 7775), (Ll, V14)); ((7776, 7776), (Lu, V14));
((7777, 7777), (Ll, V14)); ((7778, 7778), (Lu, V14)); ((7779, 7779), (Ll, V14)); ((7780, 7780), (Lu, V14)); ((7781, 7781), (Ll, V14));
((7782, 7782), (Lu, V14)); ((7783, 7783), (Ll, V14)); ((7784, 7784), (Lu, V14)); ((7785, 7785), (Ll, V14)); ((7786, 7786), (Lu, V14));
((7787, 7787), (Ll, V14)); ((7788, 7788), (Lu, V14)); ((7789, 7789), (Ll, V14)); ((7790, 7790), (Lu, V14)); ((7791, 7791), (Ll, V14));
((7792, 7792), (Lu, V14)); ((7793, 7793), (Ll, V14)); ((7794, 7794), (Lu, V14)); ((7795, 7795), (Ll, V14)); ((7796, 7796), (Lu, V14));
((7797, 7797), (Ll, V14)); ((7798, 7798), (Lu, V14)); ((7799, 7799), (Ll, V14)); ((7800, 7800), (Lu, V14)); ((7801, 7801), (Ll, V14));
((7802, 7802), (Lu, V14)); ((7803, 7803), (Ll, V14)); ((7804, 7804), (Lu, V14)); ((7805, 7805), (Ll, V14)); ((7806, 7806), (Lu, V14));
((7807, 7807), (Ll, V14)); ((7808, 7808), (Lu, V14)); ((7809, 7809), (Ll, V14)); ((7810, 7810), (Lu, V14)); ((7811, 7811), (Ll, V14));
((7812, 7812), (Lu, V14)); ((7813, 7813), (Ll, V14)); ((7814, 7814), (Lu, V14)); ((7815, 7815), (Ll, V14)); ((7816, 7816), (Lu, V14));
((7817, 7817), (Ll, V14)); ((7818, 7818), (Lu, V14)); ((7819, 7819), (Ll, V14)); ((7820, 7820), (Lu, V14)); ((7821, 7821), (Ll, V14));
((7822, 7822), (Lu, V14)); ((7823, 7823), (Ll, V14)); ((7824, 7824), (Lu, V14)); ((7825, 7825), (Ll, V14)); ((7826, 7826), (Lu, V14));
((7827, 7827), (Ll, V14)); ((7828, 7828), (Lu, V14)); ((7829, 7837), (Ll, V14)); ((7838, 7838), (Lu, V14)); ((7839, 7839), (Ll, V14));
((7840, 7840), (Lu, V14)); ((7841, 7841), (Ll, V14)); ((7842, 7842), (Lu, V14)); ((7843, 7843), (Ll, V14)); ((7844, 7844), (Lu, V14));
((7845, 7845), (Ll, V14)); ((7846, 7846), (Lu, V14)); ((7847, 7847), (Ll, V14)); ((7848, 7848), (Lu, V14)); ((7849, 7849), (Ll, V14));
((7850, 7850), (Lu, V14)); ((7851, 7851), (Ll, V14)); ((7852, 7852), (Lu, V14)); ((7853, 7853), (Ll, V14)); ((7854, 7854), (Lu, V14));
((7855, 7855), (Ll, V14)); ((7856, 7856), (Lu, V14)); ((7857, 7857), (Ll, V14)); ((7858, 7858), (Lu, V14)); ((7859, 7859), (Ll, V14));
((7860, 7860), (Lu, V14)); ((7861, 7861), (Ll, V14)); ((7862, 7862), (Lu, V14)); ((7863, 7863), (Ll, V14)); ((7864, 7864), (Lu, V14));
((7865, 7865), (Ll, V14)); ((7866, 7866), (Lu, V14)); ((7867, 7867), (Ll, V14)); ((7868, 7868), (Lu, V14)); ((7869, 7869), (Ll, V14));
((7870, 7870), (Lu, V14)); ((7871, 7871), (Ll, V14)); ((7872, 7872), (Lu, V14)); ((7873, 7873), (Ll, V14)); ((7874, 7874), (Lu, V14));
((7875, 7875), (Ll, V14)); ((7876, 7876), (Lu, V14)); ((7877, 7877), (Ll, V14)); ((7878, 7878), (Lu, V14)); ((7879, 7879), (Ll, V14));
((7880, 7880), (Lu, V14)); ((7881, 7881), (Ll, V14)); ((7882, 7882), (Lu, V14)); ((7883, 7883), (Ll, V14)); ((7884, 7884), (Lu, V14));
((7885, 7885), (Ll, V14)); ((7886, 7886), (Lu, V14)); ((7887, 7887), (Ll, V14)); ((7888, 7888), (Lu, V14)); ((7889, 7889), (Ll, V14));
((7890, 7890), (Lu, V14)); ((7891, 7891), (Ll, V14)); ((7892, 7892), (Lu, V14)); ((7893, 7893), (Ll, V14)); ((7894, 7894), (Lu, V14));
((7895, 7895), (Ll, V14)); ((7896, 7896), (Lu, V14)); ((7897, 7897), (Ll, V14)); ((7898, 7898), (Lu, V14)); ((7899, 7899), (Ll, V14));
((7900, 7900), (Lu, V14)); ((7901, 7901), (Ll, V14)); ((7902, 7902), (Lu, V14)); ((7903, 7903), (Ll, V14)); ((7904, 7904), (Lu, V14));
((7905, 7905), (Ll, V14)); ((7906, 7906), (Lu, V14)); ((7907, 7907), (Ll, V14)); ((7908, 7908), (Lu, V14)); ((7909, 7909), (Ll, V14));
((7910, 7910), (Lu, V14)); ((7911, 7911), (Ll, V14)); ((7912, 7912), (Lu, V14)); ((7913, 7913), (Ll, V14)); ((7914, 7914), (Lu, V14));
((7915, 7915), (Ll, V14)); ((7916, 7916), (Lu, V14)); ((7917, 7917), (Ll, V14)); ((7918, 7918), (Lu, V14)); ((7919, 7919), (Ll, V14));
((7920, 7920), (Lu, V14)); ((7921, 7921), (Ll, V14)); ((7922, 7922), (Lu, V14)); ((7923, 7923), (Ll, V14)); ((7924, 7924), (Lu, V14));
((7925, 7925), (Ll, V14)); ((7926, 7926), (Lu, V14)); ((7927, 7927), (Ll, V14)); ((7928, 7928), (Lu, V14)); ((7929, 7929), (Ll, V14));
((7930, 7930), (Lu, V14)); ((7931, 7931), (Ll, V14)); ((7932, 7932), (Lu, V14)); ((7933, 7933), (Ll, V14)); ((7934, 7934), (Lu, V14));
((7935, 7943), (Ll, V14)); ((7944, 7951), (Lu, V14)); ((7952, 7957), (Ll, V14)); ((7960, 7965), (Lu, V14)); ((7968, 7975), (Ll, V14));
((7976, 7983), (Lu, V14)); ((7984, 7991), (Ll, V14)); ((7992, 7999), (Lu, V14)); ((8000, 8005), (Ll, V14)); ((8008, 8013), (Lu, V14));
((8016, 8023), (Ll, V14)); ((8025, 8025), (Lu, V14)); ((8027, 8027), (Lu, V14)); ((8029, 8029), (Lu, V14)); ((8031, 8031), (Lu, V14));
((8032, 8039), (Ll, V14)); ((8040, 8047), (Lu, V14)); ((8048, 8061), (Ll, V14)); ((8064, 8071), (Ll, V14)); ((8072, 8079), (Lt, V14));
((8080, 8087), (Ll, V14)); ((8088, 8095), (Lt, V14)); ((8096, 8103), (Ll, V14)); ((8104, 8111), (Lt, V14)); ((8112, 8116), (Ll, V14));
((8118, 8119), (Ll, V14)); ((8120, 8123), (Lu, V14)); ((8124, 8124), (Lt, V14)); ((8125, 8125), (Sk, V14)); ((8126, 8126), (Ll, V14));
((8127, 8129), (Sk, V14)); ((8130, 8132), (Ll, V14)); ((8134, 8135), (Ll, V14)); ((8136, 8139), (Lu, V14)); ((8140, 8140), (Lt, V14));
((8141, 8143), (Sk, V14))].
Definition uni_6 : list ((Z * Z) * (gc * version)) := [
((8144, 8147), (Ll, V14)); ((8150, 8151), (Ll, V14)); ((8152, 8155), (Lu, V14)); ((8157, 8159), (Sk, V14)); ((8160, 8167), (Ll, V14));
((8168, 8172), (Lu, V14)); ((8173, 8175), (Sk, V14)); ((8178, 8180), (Ll, V14)); ((8182, 8183), (Ll, V14)); ((8184, 8187), (Lu, V14));
((8188, 8188), (Lt, V14)); ((8189, 8190), (Sk, V14)); ((8192, 8202), (Zs, V14)); ((8203, 8207), (Cf, V14)); ((8208, 8213), (Pd, V14));
((8214, 8215), (Po, V14)); ((8216, 8216), (Pi, V14)); ((8217, 8217), (Pf, V14)); ((8218, 8218), (Ps, V14)); ((8219, 8220), (Pi, V14));
((8221, 8221), (Pf, V14)); ((8222, 8222), (Ps, V14)); ((8223, 8223), (Pi, V14)); ((8224, 8231), (Po, V14)); ((8232, 8232), (Zl, V14));
((8233, 8233), (Zp, V14)); ((8234, 8238), (Cf, V14)); ((8239, 8239), (Zs, V14)); ((8240, 8248), (Po, V14)); ((8249, 8249), (Pi, V14));
((8250, 8250), (Pf, V14)); ((8251, 8254), (Po, V14)); ((8255, 8256), (Pc, V14)); ((8257, 8259), (Po, V14)); ((8260, 8260), (Sm, V14));
((8261, 8261), (Ps, V14)); ((8262, 8262), (Pe, V14)); ((8263, 8273), (Po, V14)); ((8274, 8274), (Sm, V14)); ((8275, 8275), (Po, V14));
((8276, 8276), (Pc, V14)); ((8277, 8286), (Po, V14)); ((8287, 8287), (Zs, V14)); ((8288, 8292), (Cf, V14)); ((8294, 8303), (Cf, V14));
((8304, 8304), (No, V14)); ((8305, 8305), (Lm, V14)); ((8308, 8313), (No, V14)); ((8314, 8316), (Sm, V14)); ((8317, 8317), (Ps, V14));
((8318, 8318), (Pe, V14)); ((8319, 8319), (Lm, V14)); ((8320, 8329), (No, V14)); ((8330, 8332), (Sm, V14)); ((8333, 8333), (Ps, V14));
((8334, 8334), (Pe, V14)); ((8336, 8348), (Lm, V14)); ((8352, 8384), (Sc, V14)); ((8400, 8412), (Mn, V14)); ((8413, 8416), (Me, V14));
((8417, 8417), (Mn, V14)); ((8418, 8420), (Me, V14)); ((8421, 8432), (Mn, V14)); ((8448, 8449), (So, V14)); ((8450, 8450), (Lu, V14));
((8451, 8454), (So, V14)); ((8455, 8455), (Lu, V14)); ((8456, 8457), (So, V14)); ((8458, 8458), (Ll, V14)); ((8459, 8461), (Lu, V14));
((8462, 8463), (Ll, V14)); ((8464, 8466), (Lu, V14)); ((8467, 8467), (Ll, V14)); ((8468, 8468), (So, V14)); ((8469, 8469), (Lu, V14));
((8470, 8471), (So, V14)); ((8472, 8472), (Sm, V14)); ((8473, 8477), (Lu, V14)); ((8478, 8483), (So, V14)); ((8484, 8484), (Lu, V14));
((8485, 8485), (So, V14)); ((8486, 8486), (Lu, V14)); ((8487, 8487), (So, V14)); ((8488, 8488), (Lu, V14)); ((8489, 8489), (So, V14));
((8490, 8493), (Lu, V14)); ((8494, 8494), (So, V14)); ((8495, 8495), (Ll, V14)); ((8496, 8499), (Lu, V14)); ((8500, 8500), (Ll, V14));
((8501, 8504), (Lo, V14)); ((8505, 8505), (Ll, V14)); ((8506, 8507), (So, V14)); ((8508, 8509), (Ll, V14)); ((8510, 8511), (Lu, V14));
((8512, 8516), (Sm, V14)); ((8517, 8517), (Lu, V14)); ((8518, 8521), (Ll, V14)); ((8522, 8522), (So, V14)); ((8523, 8523), (Sm, V14));
((8524, 8525), (So, V14)); ((8526, 8526), (Ll, V14)); ((8527, 8527), (So, V14)); ((8528, 8543), (No, V14)); ((8544, 8578), (Nl, V14));
((8579, 8579), (Lu, V14)); ((8580, 8580), (Ll, V14)); ((8581, 8584), (Nl, V14)); ((8585, 8585), (No, V14)); ((8586, 8587), (So, V14));
((8592, 8596), (Sm, V14)); ((8597, 8601), (So, V14)); ((8602, 8603), (Sm, V14)); ((8604, 8607), (So, V14)); ((8608, 8608), (Sm, V14));
((8609, 8610), (So, V14)); ((8611, 8611), (Sm, V14)); ((8612, 8613), (So, V14)); ((8614, 8614), (Sm, V14)); ((8615, 8621), (So, V14));
((8622, 8622), (Sm, V14)); ((8623, 8653), (So, V14)); ((8654, 8655), (Sm, V14)); ((8656, 8657), (So, V14)); ((8658, 8658), (Sm, V14));
((8659, 8659), (So, V14)); ((8660, 8660), (Sm, V14)); ((8661, 8691), (So, V14)); ((8692, 8959), (Sm, V14)); ((8960, 8967), (So, V14));
((8968, 8968), (Ps, V14)); ((8969, 8969), (Pe, V14)); ((8970, 8970), (Ps, V14)); ((8971, 8971), (Pe, V14)); ((8972, 8991), (So, V14));
((8992, 8993), (Sm, V14)); ((8994, 9000), (So, V14)); ((9001, 9001), (Ps, V14)); ((9002, 9002), (Pe, V14)); ((9003, 9083), (So, V14));
((9084, 9084), (Sm, V14)); ((9085, 9114), (So, V14)); ((9115, 9139), (Sm, V14)); ((9140, 9179), (So, V14)); ((9180, 9185), (Sm, V14));
((9186, 9254), (So, V14)); ((9280, 9290), (So, V14)); ((9312, 9371), (No, V14)); ((9372, 9449), (So, V14)); ((9450, 9471), (No, V14));
((9472, 9654), (So, V14)); ((9655, 9655), (Sm, V14)); ((9656, 9664), (So, V14)); ((9665, 9665), (Sm, V14)); ((9666, 9719), (So, V14));
((9720, 9727), (Sm, V14)); ((9728, 9838), (So, V14)); ((9839, 9839), (Sm, V14)); ((9840, 10087), (So, V14)); ((10088, 10088), (Ps, V14));
((10089, 10089), (Pe, V14)); ((10090, 10090), (Ps, V14)); ((10091, 10091), (Pe, V14)); ((10092, 10092), (Ps, V14)); ((10093, 10093), (Pe, V14));
((10094, 10094), (Ps, V14)); ((10095, 10095), (Pe, V14)); ((10096, 10096), (Ps, V14)); ((10097, 10097), (Pe, V14)); ((10098, 10098), (Ps, V14));
((10099, 10099), (Pe, V14)); ((10100, 10100), (Ps, V14)); ((10101, 10101), (Pe, V14)); ((10102, 10131), (No, V14)); ((10132, 10175), (So, V14));
((10176, 10180), (Sm, V14)); ((10181, 10181), (Ps, V14)); ((10182, 10182), (Pe, V14)); ((10183, 10213), (Sm, V14)); ((10214, 10214), (Ps, V14));
((10215, 10215), (Pe, V14)); ((10216, 10216), (Ps, V14)); ((10217, 10217), (Pe, V14)); ((10218, 10218), (Ps, V14)); ((10219, 10219), (Pe, V14));
((10220, 10220), (Ps, V14)); ((10221, 10221), (Pe, V14)); ((10222, 10222), (Ps, V14)); ((10223, 10223), (Pe, V14)); ((10224, 10239), (Sm, V14));
((10240, 10495), (So, V14)); ((10496, 10626), (Sm, V14)); ((10627, 10627), (Ps, V14)); ((10628, 10628), (Pe, V14)); ((10629, 10629), (Ps, V14));
((10630, 10630), (Pe, V14)); ((10631, 10631), (Ps, V14)); ((10632, 10632), (Pe, V14)); ((10633, 10633), (Ps, V14)); ((10634, 10634), (Pe, V14));
((10635, 10635), (Ps, V14)); ((10636, 10636), (Pe, V14)); ((10637, 10637), (Ps, V14)); ((10638, 10638), (Pe, V14)); ((10639, 10639), (Ps, V14));
((10640, 10640), (Pe, V14)); ((10641, 10641), (Ps, V14)); ((10642, 10642), (Pe, V14)); ((10643, 10643), (Ps, V14)); ((10644, 10644), (Pe, V14));
((10645, 10645), (Ps, V14)); ((10646, 10646), (Pe, V14)); ((10647, 10647), (Ps, V14)); ((10648, 10648), (Pe, V14)); ((10649, 10711), (Sm, V14));
((10712, 10712), (Ps, V14)); ((10713, 10713), (Pe, V14)); ((10714, 10714), (Ps, V14)); ((10715, 10715), (Pe, V14)); ((10716, 10747), (Sm, V14));
((10748, 10748), (Ps, V14)); ((10749, 10749), (Pe, V14)); ((10750, 11007), (Sm, V14)); ((11008, 11055), (So, V14)); ((11056, 11076), (Sm, V14));
((11077, 11078), (So, V14)); ((11079, 11084), (Sm, V14)); ((11085, 11123), (So, V14)); ((11126, 11157), (So, V14)); ((11159, 11263), (So, V14));
((11264, 11311), (Lu, V14)); ((11312, 11359), (Ll, V14)); ((11360, 11360), (Lu, V14)); ((11361, 11361), (Ll, V14)); ((11362, 11364), (Lu, V14));
((11365, 11366), (Ll, V14)); ((11367, 11367), (Lu, V14)); ((11368, 11368), (Ll, V14)); ((11369, 11369), (Lu, V14)); ((11370, 11370), (Ll, V14));
((11371, 11371), (Lu, V14)); ((11372, 11372), (Ll, V14)); ((11373, 11376), (Lu, V14)); ((11377, 11377), (Ll, V14)); ((11378, 11378), (Lu, V14));
((11379, 11380), (Ll, V14)); ((11381, 11381), (Lu, V14)); ((11382, 11387), (Ll, V14)); ((11388, 11389), (Lm, V14)); ((11390, 11392), (Lu, V14));
((11393, 11393), (Ll, V14)); ((11394, 11394), (Lu, V14)); ((11395, 11395), (Ll, V14)); ((11396, 11396), (Lu, V14)); ((11397, 11397), (Ll, V14));
((11398, 11398), (Lu, V14))].
Definition uni_7 : list ((Z * Z) * (gc * version)) := [
((11399, 11399), (Ll, V14)); ((11400, 11400), (Lu, V14)); ((11401, 11401), (Ll, V14)); ((11402, 11402), (Lu, V14)); ((11403, 11403), (Ll, V14));
((11404, 11404), (Lu, V14)); ((11405, 11405), (Ll, V14)); ((11406, 11406), (Lu, V14)); ((11407, 11407), (Ll, V14)); ((11408, 11408), (Lu, V14));
((11409, 11409), (Ll, V14)); ((11410, 11410), (Lu, V14)); ((11411, 11411), (Ll, V14)); ((11412, 11412), (Lu, V14)); ((11413, 11413), (Ll, V14));
((11414, 11414), (Lu, V14)); ((11415, 11415), (Ll, V14)); ((11416, 11416), (Lu, V14)); ((11417, 11417), (Ll, V14)); ((11418, 11418), (Lu, V14));
((11419, 11419), (Ll, V14)); ((11420, 11420), (Lu, V14)); ((11421, 11421), (Ll, V14)); ((11422, 11422), (Lu, V14)); ((11423, 11423), (Ll, V14));
((11424, 11424), (Lu, V14)); ((11425, 11425), (Ll, V14)); ((11426, 11426), (Lu, V14)); ((11427, 11427), (Ll, V14)); ((11428, 11428), (Lu, V14));
((11429, 11429), (Ll, V14)); ((11430, 11430), (Lu, V14)); ((11431, 11431), (Ll, V14)); ((11432, 11432), (Lu, V14)); ((11433, 11433), (Ll, V14));
((11434, 11434), (Lu, V14)); ((11435, 11435), (Ll, V14)); ((11436, 11436), (Lu, V14)); ((11437, 11437), (Ll, V14)); ((11438, 11438), (Lu, V14));
((11439, 11439), (Ll, V14)); ((11440, 11440), (Lu, V14)); ((11441, 11441), (Ll, V14)); ((11442, 11442), (Lu, V14)); ((11443, 11443), (Ll, V14));
((11444, 11444), (Lu, V14)); ((11445, 11445), (Ll, V14)); ((11446, 11446), (Lu, V14)); ((11447, 11447), (Ll, V14)); ((11448, 11448), (Lu, V14));
((11449, 11449), (Ll, V14)); ((11450, 11450), (Lu, V14)); ((11451, 11451), (Ll, V14)); ((11452, 11452), (Lu, V14)); ((11453, 11453), (Ll, V14));
((11454, 11454), (Lu, V14)); ((11455, 11455), (Ll, V14)); ((11456, 11456), (Lu, V14)); ((11457, 11457), (Ll, V14)); ((11458, 11458), (Lu, V14));
((11459, 11459), (Ll, V14)); ((11460, 11460), (Lu, V14)); ((11461, 11461), (Ll, V14)); ((11462, 11462), (Lu, V14)); ((11463, 11463), (Ll, V14));
((11464, 11464), (Lu, V14)); ((11465, 11465), (Ll, V14)); ((11466, 11466), (Lu, V14)); ((11467, 11467), (Ll, V14)); ((11468, 11468), (Lu, V14));
((11469, 11469), (Ll, V14)); ((11470, 11470), (Lu, V14)); ((11471, 11471), (Ll, V14)); ((11472, 11472), (Lu, V14)); ((11473, 11473), (Ll, V14));
((11474, 11474), (Lu, V14)); ((11475, 11475), (Ll, V14)); ((11476, 11476), (Lu, V14)); ((11477, 11477), (Ll, V14)); ((11478, 11478), (Lu, V14));
((11479, 11479), (Ll, V14)); ((11480, 11480), (Lu, V14)); ((11481, 11481), (Ll, V14)); ((11482, 11482), (Lu, V14)); ((11483, 11483), (Ll, V14));
((11484, 11484), (Lu, V14)); ((11485, 11485), (Ll, V14)); ((11486, 11486), (Lu, V14)); ((11487, 11487), (Ll, V14)); ((11488, 11488), (Lu, V14));
((11489, 11489), (Ll, V14)); ((11490, 11490), (Lu, V14)); ((11491, 11492), (Ll, V14)); ((11493, 11498), (So, V14)); ((11499, 11499), (Lu, V14));
((11500, 11500), (Ll, V14)); ((11501, 11501), (Lu, V14)); ((11502, 11502), (Ll, V14)); ((11503, 11505), (Mn, V14)); ((11506, 11506), (Lu, V14));
((11507, 11507), (Ll, V14)); ((11513, 11516), (Po, V14)); ((11517, 11517), (No, V14)); ((11518, 11519), (Po, V14)); ((11520, 11557), (Ll, V14));
((11559, 11559), (Ll, V14)); ((11565, 11565), (Ll, V14)); ((11568, 11623), (Lo, V14)); ((11631, 11631), (Lm, V14)); ((11632, 11632), (Po, V14));
((11647, 11647), (Mn, V14)); ((11648, 11670), (Lo, V14)); ((11680, 11686), (Lo, V14)); ((11688, 11694), (Lo, V14)); ((11696, 11702), (Lo, V14));
((11704, 11710), (Lo, V14)); ((11712, 11718), (Lo, V14)); ((11720, 11726), (Lo, V14)); ((11728, 11734), (Lo, V14)); ((11736, 11742), (Lo, V14));
((11744, 11775), (Mn, V14)); ((11776, 11777), (Po, V14)); ((11778, 11778), (Pi, V14)); ((11779, 11779), (Pf, V14)); ((11780, 11780), (Pi, V14));
((11781, 11781), (Pf, V14)); ((11782, 11784), (Po, V14)); ((11785, 11785), (Pi, V14)); ((11786, 11786), (Pf, V14)); ((11787, 11787), (Po, V14));
((11788, 11788), (Pi, V14)); ((11789, 11789), (Pf, V14)); ((11790, 11798), (Po, V14)); ((11799, 11799), (Pd, V14)); ((11800, 11801), (Po, V14));
((11802, 11802), (Pd, V14)); ((11803, 11803), (Po, V14)); ((11804, 11804), (Pi, V14)); ((11805, 11805), (Pf, V14)); ((11806, 11807), (Po, V14));
((11808, 11808), (Pi, V14)); ((11809, 11809), (Pf, V14)); ((11810, 11810), (Ps, V14)); ((11811, 11811), (Pe, V14)); ((11812, 11812), (Ps, V14));
((11813, 11813), (Pe, V14)); ((11814, 11814), (Ps, V14)); ((11815, 11815), (Pe, V14)); ((11816, 11816), (Ps, V14)); ((11817, 11817), (Pe, V14));
((11818, 11822), (Po, V14)); ((11823, 11823), (Lm, V14)); ((11824, 11833), (Po, V14)); ((11834, 11835), (Pd, V14)); ((11836, 11839), (Po, V14));
((11840, 11840), (Pd, V14)); ((11841, 11841), (Po, V14)); ((11842, 11842), (Ps, V14)); ((11843, 11855), (Po, V14)); ((11856, 11857), (So, V14));
((11858, 11860), (Po, V14)); ((11861, 11861), (Ps, V14)); ((11862, 11862), (Pe, V14)); ((11863, 11863), (Ps, V14)); ((11864, 11864), (Pe, V14));
((11865, 11865), (Ps, V14)); ((11866, 11866), (Pe, V14)); ((11867, 11867), (Ps, V14)); ((11868, 11868), (Pe, V14)); ((11869, 11869), (Pd, V14));
((11904, 11929), (So, V14)); ((11931, 12019), (So, V14)); ((12032, 12245), (So, V14)); ((12272, 12283), (So, V14)); ((12288, 12288), (Zs, V14));
((12289, 12291), (Po, V14)); ((12292, 12292), (So, V14)); ((12293, 12293), (Lm, V14)); ((12294, 12294), (Lo, V14)); ((12295, 12295), (Nl, V14));
((12296, 12296), (Ps, V14)); ((12297, 12297), (Pe, V14)); ((12298, 12298), (Ps, V14)); ((12299, 12299), (Pe, V14)); ((12300, 12300), (Ps, V14));
((12301, 12301), (Pe, V14)); ((12302, 12302), (Ps, V14)); ((12303, 12303), (Pe, V14)); ((12304, 12304), (Ps, V14)); ((12305, 12305), (Pe, V14));
((12306, 12307), (So, V14)); ((12308, 12308), (Ps, V14)); ((12309, 12309), (Pe, V14)); ((12310, 12310), (Ps, V14)); ((12311, 12311), (Pe, V14));
((12312, 12312), (Ps, V14)); ((12313, 12313), (Pe, V14)); ((12314, 12314), (Ps, V14)); ((12315, 12315), (Pe, V14)); ((12316, 12316), (Pd, V14));
((12317, 12317), (Ps, V14)); ((12318, 12319), (Pe, V14)); ((12320, 12320), (So, V14)); ((12321, 12329), (Nl, V14)); ((12330, 12333), (Mn, V14));
((12334, 12335), (Mc, V14)); ((12336, 12336), (Pd, V14)); ((12337, 12341), (Lm, V14)); ((12342, 12343), (So, V14)); ((12344, 12346), (Nl, V14));
((12347, 12347), (Lm, V14)); ((12348, 12348), (Lo, V14)); ((12349, 12349), (Po, V14)); ((12350, 12351), (So, V14)); ((12353, 12438), (Lo, V14));
((12441, 12442), (Mn, V14)); ((12443, 12444), (Sk, V14)); ((12445, 12446), (Lm, V14)); ((12447, 12447), (Lo, V14)); ((12448, 12448), (Pd, V14));
((12449, 12538), (Lo, V14)); ((12539, 12539), (Po, V14)); ((12540, 12542), (Lm, V14)); ((12543, 12543), (Lo, V14)); ((12549, 12591), (Lo, V14));
((12593, 12686), (Lo, V14)); ((12688, 12689), (So, V14)); ((12690, 12693), (No, V14)); ((12694, 12703), (So, V14)); ((12704, 12735), (Lo, V14));
((12736, 12771), (So, V14)); ((12784, 12799), (Lo, V14)); ((12800, 12830), (So, V14)); ((12832, 12841), (No, V14)); ((12842, 12871), (So, V14));
((12872, 12879), (No, V14)); ((12880, 12880), (So, V14)); ((12881, 12895), (No, V14)); ((12896, 12927), (So, V14)); ((12928, 12937), (No, V14));
((12938, 12976), (So, V14)); ((12977, 12991), (No, V14)); ((12992, 13311), (So, V14)); ((13312, 19903), (Lo, V14)); ((19904, 19967), (So, V14));
((19968, 40980), (Lo, V14)); ((40981, 40981), (Lm, V14)); ((40982, 42124), (Lo, V14)); ((42128, 42182), (So, V14)); ((42192, 42231), (Lo, V14));
((42232, 42237), (Lm, V14)); ((42238, 42239), (Po, V14)); ((42240, 42507), (Lo, V14)); ((42508, 42508), (Lm, V14)); ((42509, 42511), (Po, V14));
((42512, 42527), (Lo, V14))].
Definition uni_8 : list ((Z * Z) * (gc * version)) := [
((42528, 42537), (Nd, V14)); ((42538, 42539), (Lo, V14)); ((42560, 42560), (Lu, V14)); ((42561, 42561), (Ll, V14)); ((42562, 42562), (Lu, V14));
((42563, 42563), (Ll, V14)); ((42564, 42564), (Lu, V14)); ((42565, 42565), (Ll, V14)); ((42566, 42566), (Lu, V14)); ((42567, 42567), (Ll, V14));
((42568, 42568), (Lu, V14)); ((42569, 42569), (Ll, V14)); ((42570, 42570), (Lu, V14)); ((42571, 42571), (Ll, V14)); ((42572, 42572), (Lu, V14));
((42573, 42573), (Ll, V14)); ((42574, 42574), (Lu, V14)); ((42575, 42575), (Ll, V14)); ((42576, 42576), (Lu, V14)); ((42577, 42577), (Ll, V14));
((42578, 42578), (Lu, V14)); ((42579, 42579), (Ll, V14)); ((42580, 42580), (Lu, V14)); ((42581, 42581), (Ll, V14)); ((42582, 42582), (Lu, V14));
((42583, 42583), (Ll, V14)); ((42584, 42584), (Lu, V14)); ((42585, 42585), (Ll, V14)); ((42586, 42586), (Lu, V14)); ((42587, 42587), (Ll, V14));
((42588, 42588), (Lu, V14)); ((42589, 42589), (Ll, V14)); ((42590, 42590), (Lu, V14)); ((42591, 42591), (Ll, V14)); ((42592, 42592), (Lu, V14));
((42593, 42593), (Ll, V14)); ((42594, 42594), (Lu, V14)); ((42595, 42595), (Ll, V14)); ((42596, 42596), (Lu, V14)); ((42597, 42597), (Ll, V14));
((42598, 42598), (Lu, V14)); ((42599, 42599), (Ll, V14)); ((42600, 42600), (Lu, V14)); ((42601, 42601), (Ll, V14)); ((42602, 42602), (Lu, V14));
((42603, 42603), (Ll, V14)); ((42604, 42604), (Lu, V14)); ((42605, 42605), (Ll, V14)); ((42606, 42606), (Lo, V14)); ((42607, 42607), (Mn, V14));
((42608, 42610), (Me, V14)); ((42611, 42611), (Po, V14)); ((42612, 42621), (Mn, V14)); ((42622, 42622), (Po, V14)); ((42623, 42623), (Lm, V14));
((42624, 42624), (Lu, V14)); ((42625, 42625), (Ll, V14)); ((42626, 42626), (Lu, V14)); ((42627, 42627), (Ll, V14)); ((42628, 42628), (Lu, V14));
((42629, 42629), (Ll, V14)); ((42630, 42630), (Lu, V14)); ((42631, 42631), (Ll, V14)); ((42632, 42632), (Lu, V14)); ((42633, 42633), (Ll, V14));
((42634, 42634), (Lu, V14)); ((42635, 42635), (Ll, V14)); ((42636, 42636), (Lu, V14)); ((42637, 42637), (Ll, V14)); ((42638, 42638), (Lu, V14));
((42639, 42639), (Ll, V14)); ((42640, 42640), (Lu, V14)); ((42641, 42641), (Ll, V14)); ((42642, 42642), (Lu, V14)); ((42643, 42643), (Ll, V14));
((42644, 42644), (Lu, V14)); ((42645, 42645), (Ll, V14)); ((42646, 42646), (Lu, V14)); ((42647, 42647), (Ll, V14)); ((42648, 42648), (Lu, V14));
((42649, 42649), (Ll, V14)); ((42650, 42650), (Lu, V14)); ((42651, 42651), (Ll, V14)); ((42652, 42653), (Lm, V14)); ((42654, 42655), (Mn, V14));
((42656, 42725), (Lo, V14)); ((42726, 42735), (Nl, V14)); ((42736, 42737), (Mn, V14)); ((42738, 42743), (Po, V14)); ((42752, 42774), (Sk, V14));
((42775, 42783), (Lm, V14)); ((42784, 42785), (Sk, V14)); ((42786, 42786), (Lu, V14)); ((42787, 42787), (Ll, V14)); ((42788, 42788), (Lu, V14));
((42789, 42789), (Ll, V14)); ((42790, 42790), (Lu, V14)); ((42791, 42791), (Ll, V14)); ((42792, 42792), (Lu, V14)); ((42793, 42793), (Ll, V14));
((42794, 42794), (Lu, V14)); ((42795, 42795), (Ll, V14)); ((42796, 42796), (Lu, V14)); ((42797, 42797), (Ll, V14)); ((42798, 42798), (Lu, V14));
((42799, 42801), (Ll, V14)); ((42802, 42802), (Lu, V14)); ((42803, 42803), (Ll, V14)); ((42804, 42804), (Lu, V14)); ((42805, 42805), (Ll, V14));
((42806, 42806), (Lu, V14)); ((42807, 42807), (Ll, V14)); ((42808, 42808), (Lu, V14)); ((42809, 42809), (Ll, V14)); ((42810, 42810), (Lu, V14));
((42811, 42811), (Ll, V14)); ((42812, 42812), (Lu, V14)); ((42813, 42813), (Ll, V14)); ((42814, 42814), (Lu, V14)); ((42815, 42815), (Ll, V14));
((42816, 42816), (Lu, V14)); ((42817, 42817), (Ll, V14)); ((42818, 42818), (Lu, V14)); ((42819, 42819), (Ll, V14)); ((42820, 42820), (Lu, V14));
((42821, 42821), (Ll, V14)); ((42822, 42822), (Lu, V14)); ((42823, 42823), (Ll, V14)); ((42824, 42824), (Lu, V14)); ((42825, 42825), (Ll, V14));
((42826, 42826), (Lu, V14)); ((42827, 42827), (Ll, V14)); ((42828, 42828), (Lu, V14)); ((42829, 42829), (Ll, V14)); ((42830, 42830), (Lu, V14));
((42831, 42831), (Ll, V14)); ((42832, 42832), (Lu, V14)); ((42833, 42833), (Ll, V14)); ((42834, 42834), (Lu, V14)); ((42835, 42835), (Ll, V14));
((42836, 42836), (Lu, V14)); ((42837, 42837), (Ll, V14)); ((42838, 42838), (Lu, V14)); ((42839, 42839), (Ll, V14)); ((42840, 42840), (Lu, V14));
((42841, 42841), (Ll, V14)); ((42842, 42842), (Lu, V14)); ((42843, 42843), (Ll, V14)); ((42844, 42844), (Lu, V14)); ((42845, 42845), (Ll, V14));
((42846, 42846), (Lu, V14)); ((42847, 42847), (Ll, V14)); ((42848, 42848), (Lu, V14)); ((42849, 42849), (Ll, V14)); ((42850, 42850), (Lu, V14));
((42851, 42851), (Ll, V14)); ((42852, 42852), (Lu, V14)); ((42853, 42853), (Ll, V14)); ((42854, 42854), (Lu, V14)); ((42855, 42855), (Ll, V14));
((42856, 42856), (Lu, V14)); ((42857, 42857), (Ll, V14)); ((42858, 42858), (Lu, V14)); ((42859, 42859), (Ll, V14)); ((42860, 42860), (Lu, V14));
((42861, 42861), (Ll, V14)); ((42862, 42862), (Lu, V14)); ((42863, 42863), (Ll, V14)); ((42864, 42864), (Lm, V14)); ((42865, 42872), (Ll, V14));
((42873, 42873), (Lu, V14)); ((42874, 42874), (Ll, V14)); ((42875, 42875), (Lu, V14)); ((42876, 42876), (Ll, V14)); ((42877, 42878), (Lu, V14));
((42879, 42879), (Ll, V14)); ((42880, 42880), (Lu, V14)); ((42881, 42881), (Ll, V14)); ((42882, 42882), (Lu, V14)); ((42883, 42883), (Ll, V14));
((42884, 42884), (Lu, V14)); ((42885, 42885), (Ll, V14)); ((42886, 42886), (Lu, V14)); ((42887, 42887), (Ll, V14)); ((42888, 42888), (Lm, V14));
((42889, 42890), (Sk, V14)); ((42891, 42891), (Lu, V14)); ((42892, 42892), (Ll, V14)); ((42893, 42893), (Lu, V14)); ((42894, 42894), (Ll, V14));
((42895, 42895), (Lo, V14)); ((42896, 42896), (Lu, V14)); ((42897, 42897), (Ll, V14)); ((42898, 42898), (Lu, V14)); ((42899, 42901), (Ll, V14));
((42902, 42902), (Lu, V14)); ((42903, 42903), (Ll, V14)); ((42904, 42904), (Lu, V14)); ((42905, 42905), (Ll, V14)); ((42906, 42906), (Lu, V14));
((42907, 42907), (Ll, V14)); ((42908, 42908), (Lu, V14)); ((42909, 42909), (Ll, V14)); ((42910, 42910), (Lu, V14)); ((42911, 42911), (Ll, V14));
((42912, 42912), (Lu, V14)); ((42913, 42913), (Ll, V14)); ((42914, 42914), (Lu, V14)); ((42915, 42915), (Ll, V14)); ((42916, 42916), (Lu, V14));
((42917, 42917), (Ll, V14)); ((42918, 42918), (Lu, V14)); ((42919, 42919), (Ll, V14)); ((42920, 42920), (Lu, V14)); ((42921, 42921), (Ll, V14));
((42922, 42926), (Lu, V14)); ((42927, 42927), (Ll, V14)); ((42928, 42932), (Lu, V14)); ((42933, 42933), (Ll, V14)); ((42934, 42934), (Lu, V14));
((42935, 42935), (Ll, V14)); ((42936, 42936), (Lu, V14)); ((42937, 42937), (Ll, V14)); ((42938, 42938), (Lu, V14)); ((42939, 42939), (Ll, V14));
((42940, 42940), (Lu, V14)); ((42941, 42941), (Ll, V14)); ((42942, 42942), (Lu, V14)); ((42943, 42943), (Ll, V14)); ((42944, 42944), (Lu, V14));
((42945, 42945), (Ll, V14)); ((42946, 42946), (Lu, V14)); ((42947, 42947), (Ll, V14)); ((42948, 42951), (Lu, V14)); ((42952, 42952), (Ll, V14));
((42953, 42953), (Lu, V14)); ((42954, 42954), (Ll, V14)); ((42960, 42960), (Lu, V14)); ((42961, 42961), (Ll, V14)); ((42963, 42963), (Ll, V14));
((42965, 42965), (Ll, V14)); ((42966, 42966), (Lu, V14)); ((42967, 42967), (Ll, V14)); ((42968, 42968), (Lu, V14)); ((42969, 42969), (Ll, V14));
((42994, 42996), (Lm, V14)); ((42997, 42997), (Lu, V14)); ((42998, 42998), (Ll, V14)); ((42999, 42999), (Lo, V14)); ((43000, 43001), (Lm, V14));
((43002, 43002), (Ll, V14)); ((43003, 43009), (Lo, V14)); ((43010, 43010), (Mn, V14)); ((43011, 43013), (Lo, V14)); ((43014, 43014), (Mn, V14));
((43015, 43018), (Lo, V14))].
Definition uni_9 : list ((Z * Z) * (gc * version)) := [
((43019, 43019), (Mn, V14)); ((43020, 43042), (Lo, V14)); ((43043, 43044), (Mc, V14)); ((43045, 43046), (Mn, V14)); ((43047, 43047), (Mc, V14));
((43048, 43051), (So, V14)); ((43052, 43052), (Mn, V14)); ((43056, 43061), (No, V14)); ((43062, 43063), (So, V14)); ((43064, 43064), (Sc, V14));
((43065, 43065), (So, V14)); ((43072, 43123), (Lo, V14)); ((43124, 43127), (Po, V14)); ((43136, 43137), (Mc, V14)); ((43138, 43187), (Lo, V14));
((43188, 43203), (Mc, V14)); ((43204, 43205), (Mn, V14)); ((43214, 43215), (Po, V14)); ((43216, 43225), (Nd, V14)); ((43232, 43249), (Mn, V14));
((43250, 43255), (Lo, V14)); ((43256, 43258), (Po, V14)); ((43259, 43259), (Lo, V14)); ((43260, 43260), (Po, V14)); ((43261, 43262), (Lo, V14));
((43263, 43263), (Mn, V14)); ((43264, 43273), (Nd, V14)); ((43274, 43301), (Lo, V14)); ((43302, 43309), (Mn, V14)); ((43310, 43311), (Po, V14));
((43312, 43334), (Lo, V14)); ((43335, 43345), (Mn, V14)); ((43346, 43347), (Mc, V14)); ((43359, 43359), (Po, V14)); ((43360, 43388), (Lo, V14));
((43392, 43394), (Mn, V14)); ((43395, 43395), (Mc, V14)); ((43396, 43442), (Lo, V14)); ((43443, 43443), (Mn, V14)); ((43444, 43445), (Mc, V14));
((43446, 43449), (Mn, V14)); ((43450, 43451), (Mc, V14)); ((43452, 43453), (Mn, V14)); ((43454, 43456), (Mc, V14)); ((43457, 43469), (Po, V14));
((43471, 43471), (Lm, V14)); ((43472, 43481), (Nd, V14)); ((43486, 43487), (Po, V14)); ((43488, 43492), (Lo, V14)); ((43493, 43493), (Mn, V14));
((43494, 43494), (Lm, V14)); ((43495, 43503), (Lo, V14)); ((43504, 43513), (Nd, V14)); ((43514, 43518), (Lo, V14)); ((43520, 43560), (Lo, V14));
((43561, 43566), (Mn, V14)); ((43567, 43568), (Mc, V14)); ((43569, 43570), (Mn, V14)); ((43571, 43572), (Mc, V14)); ((43573, 43574), (Mn, V14));
((43584, 43586), (Lo, V14)); ((43587, 43587), (Mn, V14)); ((43588, 43595), (Lo, V14)); ((43596, 43596), (Mn, V14)); ((43597, 43597), (Mc, V14));
((43600, 43609), (Nd, V14)); ((43612, 43615), (Po, V14)); ((43616, 43631), (Lo, V14)); ((43632, 43632), (Lm, V14)); ((43633, 43638), (Lo, V14));
((43639, 43641), (So, V14)); ((43642, 43642), (Lo, V14)); ((43643, 43643), (Mc, V14)); ((43644, 43644), (Mn, V14)); ((43645, 43645), (Mc, V14));
((43646, 43695), (Lo, V14)); ((43696, 43696), (Mn, V14)); ((43697, 43697), (Lo, V14)); ((43698, 43700), (Mn, V14)); ((43701, 43702), (Lo, V14));
((43703, 43704), (Mn, V14)); ((43705, 43709), (Lo, V14)); ((43710, 43711), (Mn, V14)); ((43712, 43712), (Lo, V14)); ((43713, 43713), (Mn, V14));
((43714, 43714), (Lo, V14)); ((43739, 43740), (Lo, V14)); ((43741, 43741), (Lm, V14)); ((43742, 43743), (Po, V14)); ((43744, 43754), (Lo, V14));
((43755, 43755), (Mc, V14)); ((43756, 43757), (Mn, V14)); ((43758, 43759), (Mc, V14)); ((43760, 43761), (Po, V14)); ((43762, 43762), (Lo, V14));
((43763, 43764), (Lm, V14)); ((43765, 43765), (Mc, V14)); ((43766, 43766), (Mn, V14)); ((43777, 43782), (Lo, V14)); ((43785, 43790), (Lo, V14));
((43793, 43798), (Lo, V14)); ((43808, 43814), (Lo, V14)); ((43816, 43822), (Lo, V14)); ((43824, 43866), (Ll, V14)); ((43867, 43867), (Sk, V14));
((43868, 43871), (Lm, V14)); ((43872, 43880), (Ll, V14)); ((43881, 43881), (Lm, V14)); ((43882, 43883), (Sk, V14)); ((43888, 43967), (Ll, V14));
((43968, 44002), (Lo, V14)); ((44003, 44004), (Mc, V14)); ((44005, 44005), (Mn, V14)); ((44006, 44007), (Mc, V14)); ((44008, 44008), (Mn, V14));
((44009, 44010), (Mc, V14)); ((44011, 44011), (Po, V14)); ((44012, 44012), (Mc, V14)); ((44013, 44013), (Mn, V14)); ((44016, 44025), (Nd, V14));
((44032, 55203), (Lo, V14)); ((55216, 55238), (Lo, V14)); ((55243, 55291), (Lo, V14)); ((55296, 57343), (Cs, V14)); ((57344, 63743), (Co, V14));
((63744, 64109), (Lo, V14)); ((64112, 64217), (Lo, V14)); ((64256, 64262), (Ll, V14)); ((64275, 64279), (Ll, V14)); ((64285, 64285), (Lo, V14));
((64286, 64286), (Mn, V14)); ((64287, 64296), (Lo, V14)); ((64297, 64297), (Sm, V14)); ((64298, 64310), (Lo, V14)); ((64312, 64316), (Lo, V14));
((64318, 64318), (Lo, V14)); ((64320, 64321), (Lo, V14)); ((64323, 64324), (Lo, V14)); ((64326, 64433), (Lo, V14)); ((64434, 64450), (Sk, V14));
((64467, 64829), (Lo, V14)); ((64830, 64830), (Pe, V14)); ((64831, 64831), (Ps, V14)); ((64832, 64847), (So, V14)); ((64848, 64911), (Lo, V14));
((64914, 64967), (Lo, V14)); ((64975, 64975), (So, V14)); ((65008, 65019), (Lo, V14)); ((65020, 65020), (Sc, V14)); ((65021, 65023), (So, V14));
((65024, 65039), (Mn, V14)); ((65040, 65046), (Po, V14)); ((65047, 65047), (Ps, V14)); ((65048, 65048), (Pe, V14)); ((65049, 65049), (Po, V14));
((65056, 65071), (Mn, V14)); ((65072, 65072), (Po, V14)); ((65073, 65074), (Pd, V14)); ((65075, 65076), (Pc, V14)); ((65077, 65077), (Ps, V14));
((65078, 65078), (Pe, V14)); ((65079, 65079), (Ps, V14)); ((65080, 65080), (Pe, V14)); ((65081, 65081), (Ps, V14)); ((65082, 65082), (Pe, V14));
((65083, 65083), (Ps, V14)); ((65084, 65084), (Pe, V14)); ((65085, 65085), (Ps, V14)); ((65086, 65086), (Pe, V14)); ((65087, 65087), (Ps, V14));
((65088, 65088), (Pe, V14)); ((65089, 65089), (Ps, V14)); ((65090, 65090), (Pe, V14)); ((65091, 65091), (Ps, V14)); ((65092, 65092), (Pe, V14));
((65093, 65094), (Po, V14)); ((65095, 65095), (Ps, V14)); ((65096, 65096), (Pe, V14)); ((65097, 65100), (Po, V14)); ((65101, 65103), (Pc, V14));
((65104, 65106), (Po, V14)); ((65108, 65111), (Po, V14)); ((65112, 65112), (Pd, V14)); ((65113, 65113), (Ps, V14)); ((65114, 65114), (Pe, V14));
((65115, 65115), (Ps, V14)); ((65116, 65116), (Pe, V14)); ((65117, 65117), (Ps, V14)); ((65118, 65118), (Pe, V14)); ((65119, 65121), (Po, V14));
((65122, 65122), (Sm, V14)); ((65123, 65123), (Pd, V14)); ((65124, 65126), (Sm, V14)); ((65128, 65128), (Po, V14)); ((65129, 65129), (Sc, V14));
((65130, 65131), (Po, V14)); ((65136, 65140), (Lo, V14)); ((65142, 65276), (Lo, V14)); ((65279, 65279), (Cf, V14)); ((65281, 65283), (Po, V14));
((65284, 65284), (Sc, V14)); ((65285, 65287), (Po, V14)); ((65288, 65288), (Ps, V14)); ((65289, 65289), (Pe, V14)); ((65290, 65290), (Po, V14));
((65291, 65291), (Sm, V14)); ((65292, 65292), (Po, V14)); ((65293, 65293), (Pd, V14)); ((65294, 65295), (Po, V14)); ((65296, 65305), (Nd, V14));
((65306, 65307), (Po, V14)); ((65308, 65310), (Sm, V14)); ((65311, 65312), (Po, V14)); ((65313, 65338), (Lu, V14)); ((65339, 65339), (Ps, V14));
((65340, 65340), (Po, V14)); ((65341, 65341), (Pe, V14)); ((65342, 65342), (Sk, V14)); ((65343, 65343), (Pc, V14)); ((65344, 65344), (Sk, V14));
((65345, 65370), (Ll, V14)); ((65371, 65371), (Ps, V14)); ((65372, 65372), (Sm, V14)); ((65373, 65373), (Pe, V14)); ((65374, 65374), (Sm, V14));
((65375, 65375), (Ps, V14)); ((65376, 65376), (Pe, V14)); ((65377, 65377), (Po, V14)); ((65378, 65378), (Ps, V14)); ((65379, 65379), (Pe, V14));
((65380, 65381), (Po, V14)); ((65382, 65391), (Lo, V14)); ((65392, 65392), (Lm, V14)); ((65393, 65437), (Lo, V14)); ((65438, 65439), (Lm, V14));
((65440, 65470), (Lo, V14)); ((65474, 65479), (Lo, V14)); ((65482, 65487), (Lo, V14)); ((65490, 65495), (Lo, V14)); ((65498, 65500), (Lo, V14));
((65504, 65505), (Sc, V14)); ((65506, 65506), (Sm, V14)); ((65507, 65507), (Sk, V14)); ((65508, 65508), (So, V14)); ((65509, 65510), (Sc, V14));
((65512, 65512), (So, V14)); ((65513, 65516), (Sm, V14)); ((65517, 65518), (So, V14)); ((65529, 65531), (Cf, V14)); ((65532, 65533), (So, V14));
((65536, 65547), (Lo, V14)); ((65549, 65574), (Lo, V14)); ((65576, 65594), (Lo, V14)); ((65596, 65597), (Lo, V14)); ((65599, 65613), (Lo, V14));
((65616, 65629), (Lo, V14))].
Definition uni_10 : list ((Z * Z) * (gc * version)) := [
((65664, 65786), (Lo, V14)); ((65792, 65794), (Po, V14)); ((65799, 65843), (No, V14)); ((65847, 65855), (So, V14)); ((65856, 65908), (Nl, V14));
((65909, 65912), (No, V14)); ((65913, 65929), (So, V14)); ((65930, 65931), (No, V14)); ((65932, 65934), (So, V14)); ((65936, 65948), (So, V14));
((65952, 65952), (So, V14)); ((66000, 66044), (So, V14)); ((66045, 66045), (Mn, V14)); ((66176, 66204), (Lo, V14)); ((66208, 66256), (Lo, V14));
((66272, 66272), (Mn, V14)); ((66273, 66299), (No, V14)); ((66304, 66335), (Lo, V14)); ((66336, 66339), (No, V14)); ((66349, 66368), (Lo, V14));
((66369, 66369), (Nl, V14)); ((66370, 66377), (Lo, V14)); ((66378, 66378), (Nl, V14)); ((66384, 66421), (Lo, V14)); ((66422, 66426), (Mn, V14));
((66432, 66461), (Lo, V14)); ((66463, 66463), (Po, V14)); ((66464, 66499), (Lo, V14)); ((66504, 66511), (Lo, V14)); ((66512, 66512), (Po, V14));
((66513, 66517), (Nl, V14)); ((66560, 66599), (Lu, V14)); ((66600, 66639), (Ll, V14)); ((66640, 66717), (Lo, V14)); ((66720, 66729), (Nd, V14));
((66736, 66771), (Lu, V14)); ((66776, 66811), (Ll, V14)); ((66816, 66855), (Lo, V14)); ((66864, 66915), (Lo, V14)); ((66927, 66927), (Po, V14));
((66928, 66938), (Lu, V14)); ((66940, 66954), (Lu, V14)); ((66956, 66962), (Lu, V14)); ((66964, 66965), (Lu, V14)); ((66967, 66977), (Ll, V14));
((66979, 66993), (Ll, V14)); ((66995, 67001), (Ll, V14)); ((67003, 67004), (Ll, V14)); ((67072, 67382), (Lo, V14)); ((67392, 67413), (Lo, V14));
((67424, 67431), (Lo, V14)); ((67456, 67461), (Lm, V14)); ((67463, 67504), (Lm, V14)); ((67506, 67514), (Lm, V14)); ((67584, 67589), (Lo, V14));
((67592, 67592), (Lo, V14)); ((67594, 67637), (Lo, V14)); ((67639, 67640), (Lo, V14)); ((67644, 67644), (Lo, V14)); ((67647, 67669), (Lo, V14));
((67671, 67671), (Po, V14)); ((67672, 67679), (No, V14)); ((67680, 67702), (Lo, V14)); ((67703, 67704), (So, V14)); ((67705, 67711), (No, V14));
((67712, 67742), (Lo, V14)); ((67751, 67759), (No, V14)); ((67808, 67826), (Lo, V14)); ((67828, 67829), (Lo, V14)); ((67835, 67839), (No, V14));
((67840, 67861), (Lo, V14)); ((67862, 67867), (No, V14)); ((67871, 67871), (Po, V14)); ((67872, 67897), (Lo, V14)); ((67903, 67903), (Po, V14));
((67968, 68023), (Lo, V14)); ((68028, 68029), (No, V14)); ((68030, 68031), (Lo, V14)); ((68032, 68047), (No, V14)); ((68050, 68095), (No, V14));
((68096, 68096), (Lo, V14)); ((68097, 68099), (Mn, V14)); ((68101, 68102), (Mn, V14)); ((68108, 68111), (Mn, V14)); ((68112, 68115), (Lo, V14));
((68117, 68119), (Lo, V14)); ((68121, 68149), (Lo, V14)); ((68152, 68154), (Mn, V14)); ((68159, 68159), (Mn, V14)); ((68160, 68168), (No, V14));
((68176, 68184), (Po, V14)); ((68192, 68220), (Lo, V14)); ((68221, 68222), (No, V14)); ((68223, 68223), (Po, V14)); ((68224, 68252), (Lo, V14));
((68253, 68255), (No, V14)); ((68288, 68295), (Lo, V14)); ((68296, 68296), (So, V14)); ((68297, 68324), (Lo, V14)); ((68325, 68326), (Mn, V14));
((68331, 68335), (No, V14)); ((68336, 68342), (Po, V14)); ((68352, 68405), (Lo, V14)); ((68409, 68415), (Po, V14)); ((68416, 68437), (Lo, V14));
((68440, 68447), (No, V14)); ((68448, 68466), (Lo, V14)); ((68472, 68479), (No, V14)); ((68480, 68497), (Lo, V14)); ((68505, 68508), (Po, V14));
((68521, 68527), (No, V14)); ((68608, 68680), (Lo, V14)); ((68736, 68786), (Lu, V14)); ((68800, 68850), (Ll, V14)); ((68858, 68863), (No, V14));
((68864, 68899), (Lo, V14)); ((68900, 68903), (Mn, V14)); ((68912, 68921), (Nd, V14)); ((69216, 69246), (No, V14)); ((69248, 69289), (Lo, V14));
((69291, 69292), (Mn, V14)); ((69293, 69293), (Pd, V14)); ((69296, 69297), (Lo, V14)); ((69373, 69375), (Mn, V15)); ((69376, 69404), (Lo, V14));
((69405, 69414), (No, V14)); ((69415, 69415), (Lo, V14)); ((69424, 69445), (Lo, V14)); ((69446, 69456), (Mn, V14)); ((69457, 69460), (No, V14));
((69461, 69465), (Po, V14)); ((69488, 69505), (Lo, V14)); ((69506, 69509), (Mn, V14)); ((69510, 69513), (Po, V14)); ((69552, 69572), (Lo, V14));
((69573, 69579), (No, V14)); ((69600, 69622), (Lo, V14)); ((69632, 69632), (Mc, V14)); ((69633, 69633), (Mn, V14)); ((69634, 69634), (Mc, V14));
((69635, 69687), (Lo, V14)); ((69688, 69702), (Mn, V14)); ((69703, 69709), (Po, V14)); ((69714, 69733), (No, V14)); ((69734, 69743), (Nd, V14));
((69744, 69744), (Mn, V14)); ((69745, 69746), (Lo, V14)); ((69747, 69748), (Mn, V14)); ((69749, 69749), (Lo, V14)); ((69759, 69761), (Mn, V14));
((69762, 69762), (Mc, V14)); ((69763, 69807), (Lo, V14)); ((69808, 69810), (Mc, V14)); ((69811, 69814), (Mn, V14)); ((69815, 69816), (Mc, V14));
((69817, 69818), (Mn, V14)); ((69819, 69820), (Po, V14)); ((69821, 69821), (Cf, V14)); ((69822, 69825), (Po, V14)); ((69826, 69826), (Mn, V14));
((69837, 69837), (Cf, V14)); ((69840, 69864), (Lo, V14)); ((69872, 69881), (Nd, V14)); ((69888, 69890), (Mn, V14)); ((69891, 69926), (Lo, V14));
((69927, 69931), (Mn, V14)); ((69932, 69932), (Mc, V14)); ((69933, 69940), (Mn, V14)); ((69942, 69951), (Nd, V14)); ((69952, 69955), (Po, V14));
((69956, 69956), (Lo, V14)); ((69957, 69958), (Mc, V14)); ((69959, 69959), (Lo, V14)); ((69968, 70002), (Lo, V14)); ((70003, 70003), (Mn, V14));
((70004, 70005), (Po, V14)); ((70006, 70006), (Lo, V14)); ((70016, 70017), (Mn, V14)); ((70018, 70018), (Mc, V14)); ((70019, 70066), (Lo, V14));
((70067, 70069), (Mc, V14)); ((70070, 70078), (Mn, V14)); ((70079, 70080), (Mc, V14)); ((70081, 70084), (Lo, V14)); ((70085, 70088), (Po, V14));
((70089, 70092), (Mn, V14)); ((70093, 70093), (Po, V14)); ((70094, 70094), (Mc, V14)); ((70095, 70095), (Mn, V14)); ((70096, 70105), (Nd, V14));
((70106, 70106), (Lo, V14)); ((70107, 70107), (Po, V14)); ((70108, 70108), (Lo, V14)); ((70109, 70111), (Po, V14)); ((70113, 70132), (No, V14));
((70144, 70161), (Lo, V14)); ((70163, 70187), (Lo, V14)); ((70188, 70190), (Mc, V14)); ((70191, 70193), (Mn, V14)); ((70194, 70195), (Mc, V14));
((70196, 70196), (Mn, V14)); ((70197, 70197), (Mc, V14)); ((70198, 70199), (Mn, V14)); ((70200, 70205), (Po, V14)); ((70206, 70206), (Mn, V14));
((70207, 70208), (Lo, V15)); ((70209, 70209), (Mn, V15)); ((70272, 70278), (Lo, V14)); ((70280, 70280), (Lo, V14)); ((70282, 70285), (Lo, V14));
((70287, 70301), (Lo, V14)); ((70303, 70312), (Lo, V14)); ((70313, 70313), (Po, V14)); ((70320, 70366), (Lo, V14)); ((70367, 70367), (Mn, V14));
((70368, 70370), (Mc, V14)); ((70371, 70378), (Mn, V14)); ((70384, 70393), (Nd, V14)); ((70400, 70401), (Mn, V14)); ((70402, 70403), (Mc, V14));
((70405, 70412), (Lo, V14)); ((70415, 70416), (Lo, V14)); ((70419, 70440), (Lo, V14)); ((70442, 70448), (Lo, V14)); ((70450, 70451), (Lo, V14));
((70453, 70457), (Lo, V14)); ((70459, 70460), (Mn, V14)); ((70461, 70461), (Lo, V14)); ((70462, 70463), (Mc, V14)); ((70464, 70464), (Mn, V14));
((70465, 70468), (Mc, V14)); ((70471, 70472), (Mc, V14)); ((70475, 70477), (Mc, V14)); ((70480, 70480), (Lo, V14)); ((70487, 70487), (Mc, V14));
((70493, 70497), (Lo, V14)); ((70498, 70499), (Mc, V14)); ((70502, 70508), (Mn, V14)); ((70512, 70516), (Mn, V14)); ((70656, 70708), (Lo, V14));
((70709, 70711), (Mc, V14)); ((70712, 70719), (Mn, V14)); ((70720, 70721), (Mc, V14)); ((70722, 70724), (Mn, V14)); ((70725, 70725), (Mc, V14));
((70726, 70726), (Mn, V14)); ((70727, 70730), (Lo, V14)); ((70731, 70735), (Po, V14)); ((70736, 70745), (Nd, V14)); ((70746, 70747), (Po, V14));
((70749, 70749), (Po, V14)); ((70750, 70750), (Mn, V14)); ((70751, 70753), (Lo, V14)); ((70784, 70831), (Lo, V14)); ((70832, 70834), (Mc, V14));
((70835, 70840), (Mn, V14))].
Definition uni_11 : list ((Z * Z) * (gc * version)) := [
((70841, 70841), (Mc, V14)); ((70842, 70842), (Mn, V14)); ((70843, 70846), (Mc, V14)); ((70847, 70848), (Mn, V14)); ((70849, 70849), (Mc, V14));
((70850, 70851), (Mn, V14)); ((70852, 70853), (Lo, V14)); ((70854, 70854), (Po, V14)); ((70855, 70855), (Lo, V14)); ((70864, 70873), (Nd, V14));
((71040, 71086), (Lo, V14)); ((71087, 71089), (Mc, V14)); ((71090, 71093), (Mn, V14)); ((71096, 71099), (Mc, V14)); ((71100, 71101), (Mn, V14));
((71102, 71102), (Mc, V14)); ((71103, 71104), (Mn, V14)); ((71105, 71127), (Po, V14)); ((71128, 71131), (Lo, V14)); ((71132, 71133), (Mn, V14));
((71168, 71215), (Lo, V14)); ((71216, 71218), (Mc, V14)); ((71219, 71226), (Mn, V14)); ((71227, 71228), (Mc, V14)); ((71229, 71229), (Mn, V14));
((71230, 71230), (Mc, V14)); ((71231, 71232), (Mn, V14)); ((71233, 71235), (Po, V14)); ((71236, 71236), (Lo, V14)); ((71248, 71257), (Nd, V14));
((71264, 71276), (Po, V14)); ((71296, 71338), (Lo, V14)); ((71339, 71339), (Mn, V14)); ((71340, 71340), (Mc, V14)); ((71341, 71341), (Mn, V14));
((71342, 71343), (Mc, V14)); ((71344, 71349), (Mn, V14)); ((71350, 71350), (Mc, V14)); ((71351, 71351), (Mn, V14)); ((71352, 71352), (Lo, V14));
((71353, 71353), (Po, V14)); ((71360, 71369), (Nd, V14)); ((71424, 71450), (Lo, V14)); ((71453, 71455), (Mn, V14)); ((71456, 71457), (Mc, V14));
((71458, 71461), (Mn, V14)); ((71462, 71462), (Mc, V14)); ((71463, 71467), (Mn, V14)); ((71472, 71481), (Nd, V14)); ((71482, 71483), (No, V14));
((71484, 71486), (Po, V14)); ((71487, 71487), (So, V14)); ((71488, 71494), (Lo, V14)); ((71680, 71723), (Lo, V14)); ((71724, 71726), (Mc, V14));
((71727, 71735), (Mn, V14)); ((71736, 71736), (Mc, V14)); ((71737, 71738), (Mn, V14)); ((71739, 71739), (Po, V14)); ((71840, 71871), (Lu, V14));
((71872, 71903), (Ll, V14)); ((71904, 71913), (Nd, V14)); ((71914, 71922), (No, V14)); ((71935, 71942), (Lo, V14)); ((71945, 71945), (Lo, V14));
((71948, 71955), (Lo, V14)); ((71957, 71958), (Lo, V14)); ((71960, 71983), (Lo, V14)); ((71984, 71989), (Mc, V14)); ((71991, 71992), (Mc, V14));
((71995, 71996), (Mn, V14)); ((71997, 71997), (Mc, V14)); ((71998, 71998), (Mn, V14)); ((71999, 71999), (Lo, V14)); ((72000, 72000), (Mc, V14));
((72001, 72001), (Lo, V14)); ((72002, 72002), (Mc, V14)); ((72003, 72003), (Mn, V14)); ((72004, 72006), (Po, V14)); ((72016, 72025), (Nd, V14));
((72096, 72103), (Lo, V14)); ((72106, 72144), (Lo, V14)); ((72145, 72147), (Mc, V14)); ((72148, 72151), (Mn, V14)); ((72154, 72155), (Mn, V14));
((72156, 72159), (Mc, V14)); ((72160, 72160), (Mn, V14)); ((72161, 72161), (Lo, V14)); ((72162, 72162), (Po, V14)); ((72163, 72163), (Lo, V14));
((72164, 72164), (Mc, V14)); ((72192, 72192), (Lo, V14)); ((72193, 72202), (Mn, V14)); ((72203, 72242), (Lo, V14)); ((72243, 72248), (Mn, V14));
((72249, 72249), (Mc, V14)); ((72250, 72250), (Lo, V14)); ((72251, 72254), (Mn, V14)); ((72255, 72262), (Po, V14)); ((72263, 72263), (Mn, V14));
((72272, 72272), (Lo, V14)); ((72273, 72278), (Mn, V14)); ((72279, 72280), (Mc, V14)); ((72281, 72283), (Mn, V14)); ((72284, 72329), (Lo, V14));
((72330, 72342), (Mn, V14)); ((72343, 72343), (Mc, V14)); ((72344, 72345), (Mn, V14)); ((72346, 72348), (Po, V14)); ((72349, 72349), (Lo, V14));
((72350, 72354), (Po, V14)); ((72368, 72440), (Lo, V14)); ((72448, 72457), (Po, V15)); ((72704, 72712), (Lo, V14)); ((72714, 72750), (Lo, V14));
((72751, 72751), (Mc, V14)); ((72752, 72758), (Mn, V14)); ((72760, 72765), (Mn, V14)); ((72766, 72766), (Mc, V14)); ((72767, 72767), (Mn, V14));
((72768, 72768), (Lo, V14)); ((72769, 72773), (Po, V14)); ((72784, 72793), (Nd, V14)); ((72794, 72812), (No, V14)); ((72816, 72817), (Po, V14));
((72818, 72847), (Lo, V14)); ((72850, 72871), (Mn, V14)); ((72873, 72873), (Mc, V14)); ((72874, 72880), (Mn, V14)); ((72881, 72881), (Mc, V14));
((72882, 72883), (Mn, V14)); ((72884, 72884), (Mc, V14)); ((72885, 72886), (Mn, V14)); ((72960, 72966), (Lo, V14)); ((72968, 72969), (Lo, V14));
((72971, 73008), (Lo, V14)); ((73009, 73014), (Mn, V14)); ((73018, 73018), (Mn, V14)); ((73020, 73021), (Mn, V14)); ((73023, 73029), (Mn, V14));
((73030, 73030), (Lo, V14)); ((73031, 73031), (Mn, V14)); ((73040, 73049), (Nd, V14)); ((73056, 73061), (Lo, V14)); ((73063, 73064), (Lo, V14));
((73066, 73097), (Lo, V14)); ((73098, 73102), (Mc, V14)); ((73104, 73105), (Mn, V14)); ((73107, 73108), (Mc, V14)); ((73109, 73109), (Mn, V14));
((73110, 73110), (Mc, V14)); ((73111, 73111), (Mn, V14)); ((73112, 73112), (Lo, V14)); ((73120, 73129), (Nd, V14)); ((73440, 73458), (Lo, V14));
((73459, 73460), (Mn, V14)); ((73461, 73462), (Mc, V14)); ((73463, 73464), (Po, V14)); ((73472, 73473), (Mn, V15)); ((73474, 73474), (Lo, V15));
((73475, 73475), (Mc, V15)); ((73476, 73488), (Lo, V15)); ((73490, 73523), (Lo, V15)); ((73524, 73525), (Mc, V15)); ((73526, 73530), (Mn, V15));
((73534, 73535), (Mc, V15)); ((73536, 73536), (Mn, V15)); ((73537, 73537), (Mc, V15)); ((73538, 73538), (Mn, V15)); ((73539, 73551), (Po, V15));
((73552, 73561), (Nd, V15)); ((73648, 73648), (Lo, V14)); ((73664, 73684), (No, V14)); ((73685, 73692), (So, V14)); ((73693, 73696), (Sc, V14));
((73697, 73713), (So, V14)); ((73727, 73727), (Po, V14)); ((73728, 74649), (Lo, V14)); ((74752, 74862), (Nl, V14)); ((74864, 74868), (Po, V14));
((74880, 75075), (Lo, V14)); ((77712, 77808), (Lo, V14)); ((77809, 77810), (Po, V14)); ((77824, 78894), (Lo, V14)); ((78895, 78895), (Lo, V15));
((78896, 78904), (Cf, V14)); ((78905, 78911), (Cf, V15)); ((78912, 78912), (Mn, V15)); ((78913, 78918), (Lo, V15)); ((78919, 78933), (Mn, V15));
((82944, 83526), (Lo, V14)); ((92160, 92728), (Lo, V14)); ((92736, 92766), (Lo, V14)); ((92768, 92777), (Nd, V14)); ((92782, 92783), (Po, V14));
((92784, 92862), (Lo, V14)); ((92864, 92873), (Nd, V14)); ((92880, 92909), (Lo, V14)); ((92912, 92916), (Mn, V14)); ((92917, 92917), (Po, V14));
((92928, 92975), (Lo, V14)); ((92976, 92982), (Mn, V14)); ((92983, 92987), (Po, V14)); ((92988, 92991), (So, V14)); ((92992, 92995), (Lm, V14));
((92996, 92996), (Po, V14)); ((92997, 92997), (So, V14)); ((93008, 93017), (Nd, V14)); ((93019, 93025), (No, V14)); ((93027, 93047), (Lo, V14));
((93053, 93071), (Lo, V14)); ((93760, 93791), (Lu, V14)); ((93792, 93823), (Ll, V14)); ((93824, 93846), (No, V14)); ((93847, 93850), (Po, V14));
((93952, 94026), (Lo, V14)); ((94031, 94031), (Mn, V14)); ((94032, 94032), (Lo, V14)); ((94033, 94087), (Mc, V14)); ((94095, 94098), (Mn, V14));
((94099, 94111), (Lm, V14)); ((94176, 94177), (Lm, V14)); ((94178, 94178), (Po, V14)); ((94179, 94179), (Lm, V14)); ((94180, 94180), (Mn, V14));
((94192, 94193), (Mc, V14)); ((94208, 100343), (Lo, V14)); ((100352, 101589), (Lo, V14)); ((101632, 101640), (Lo, V14)); ((110576, 110579), (Lm, V14));
((110581, 110587), (Lm, V14)); ((110589, 110590), (Lm, V14)); ((110592, 110882), (Lo, V14)); ((110898, 110898), (Lo, V15)); ((110928, 110930), (Lo, V14));
((110933, 110933), (Lo, V15)); ((110948, 110951), (Lo, V14)); ((110960, 111355), (Lo, V14)); ((113664, 113770), (Lo, V14)); ((113776, 113788), (Lo, V14));
((113792, 113800), (Lo, V14)); ((113808, 113817), (Lo, V14)); ((113820, 113820), (So, V14)); ((113821, 113822), (Mn, V14)); ((113823, 113823), (Po, V14));
((113824, 113827), (Cf, V14)); ((118528, 118573), (Mn, V14)); ((118576, 118598), (Mn, V14)); ((118608, 118723), (So, V14)); ((118784, 119029), (So, V14));
((119040, 119078), (So, V14)); ((119081, 119140), (So, V14)); ((119141, 119142), (Mc, V14)); ((119143, 119145), (Mn, V14)); ((119146, 119148), (So, V14));
((119149, 119154), (Mc, V14))].
Definition uni_12 : list ((Z * Z) * (gc * version)) := [
((119155, 119162), (Cf, V14)); ((119163, 119170), (Mn, V14)); ((119171, 119172), (So, V14)); ((119173, 119179), (Mn, V14)); ((119180, 119209), (So, V14));
((119210, 119213), (Mn, V14)); ((119214, 119274), (So, V14)); ((119296, 119361), (So, V14)); ((119362, 119364), (Mn, V14)); ((119365, 119365), (So, V14));
((119488, 119507), (No, V15)); ((119520, 119539), (No, V14)); ((119552, 119638), (So, V14)); ((119648, 119672), (No, V14)); ((119808, 119833), (Lu, V14));
((119834, 119859), (Ll, V14)); ((119860, 119885), (Lu, V14)); ((119886, 119892), (Ll, V14)); ((119894, 119911), (Ll, V14)); ((119912, 119937), (Lu, V14));
((119938, 119963), (Ll, V14)); ((119964, 119964), (Lu, V14)); ((119966, 119967), (Lu, V14)); ((119970, 119970), (Lu, V14)); ((119973, 119974), (Lu, V14));
((119977, 119980), (Lu, V14)); ((119982, 119989), (Lu, V14)); ((119990, 119993), (Ll, V14)); ((119995, 119995), (Ll, V14)); ((119997, 120003), (Ll, V14));
((120005, 120015), (Ll, V14)); ((120016, 120041), (Lu, V14)); ((120042, 120067), (Ll, V14)); ((120068, 120069), (Lu, V14)); ((120071, 120074), (Lu, V14));
((120077, 120084), (Lu, V14)); ((120086, 120092), (Lu, V14)); ((120094, 120119), (Ll, V14)); ((120120, 120121), (Lu, V14)); ((120123, 120126), (Lu, V14));
((120128, 120132), (Lu, V14)); ((120134, 120134), (Lu, V14)); ((120138, 120144), (Lu, V14)); ((120146, 120171), (Ll, V14)); ((120172, 120197), (Lu, V14));
((120198, 120223), (Ll, V14)); ((120224, 120249), (Lu, V14)); ((120250, 120275), (Ll, V14)); ((120276, 120301), (Lu, V14)); ((120302, 120327), (Ll, V14));
((120328, 120353), (Lu, V14)); ((120354, 120379), (Ll, V14)); ((120380, 120405), (Lu, V14)); ((120406, 120431), (Ll, V14)); ((120432, 120457), (Lu, V14));
((120458, 120485), (Ll, V14)); ((120488, 120512), (Lu, V14)); ((120513, 120513), (Sm, V14)); ((120514, 120538), (Ll, V14)); ((120539, 120539), (Sm, V14));
((120540, 120545), (Ll, V14)); ((120546, 120570), (Lu, V14)); ((120571, 120571), (Sm, V14)); ((120572, 120596), (Ll, V14)); ((120597, 120597), (Sm, V14));
((120598, 120603), (Ll, V14)); ((120604, 120628), (Lu, V14)); ((120629, 120629), (Sm, V14)); ((120630, 120654), (Ll, V14)); ((120655, 120655), (Sm, V14));
((120656, 120661), (Ll, V14)); ((120662, 120686), (Lu, V14)); ((120687, 120687), (Sm, V14)); ((120688, 120712), (Ll, V14)); ((120713, 120713), (Sm, V14));
((120714, 120719), (Ll, V14)); ((120720, 120744), (Lu, V14)); ((120745, 120745), (Sm, V14)); ((120746, 120770), (Ll, V14)); ((120771, 120771), (Sm, V14));
((120772, 120777), (Ll, V14)); ((120778, 120778), (Lu, V14)); ((120779, 120779), (Ll, V14)); ((120782, 120831), (Nd, V14)); ((120832, 121343), (So, V14));
((121344, 121398), (Mn, V14)); ((121399, 121402), (So, V14)); ((121403, 121452), (Mn, V14)); ((121453, 121460), (So, V14)); ((121461, 121461), (Mn, V14));
((121462, 121475), (So, V14)); ((121476, 121476), (Mn, V14)); ((121477, 121478), (So, V14)); ((121479, 121483), (Po, V14)); ((121499, 121503), (Mn, V14));
((121505, 121519), (Mn, V14)); ((122624, 122633), (Ll, V14)); ((122634, 122634), (Lo, V14)); ((122635, 122654), (Ll, V14)); ((122661, 122666), (Ll, V15));
((122880, 122886), (Mn, V14)); ((122888, 122904), (Mn, V14)); ((122907, 122913), (Mn, V14)); ((122915, 122916), (Mn, V14)); ((122918, 122922), (Mn, V14));
((122928, 122989), (Lm, V15)); ((123023, 123023), (Mn, V15)); ((123136, 123180), (Lo, V14)); ((123184, 123190), (Mn, V14)); ((123191, 123197), (Lm, V14));
((123200, 123209), (Nd, V14)); ((123214, 123214), (Lo, V14)); ((123215, 123215), (So, V14)); ((123536, 123565), (Lo, V14)); ((123566, 123566), (Mn, V14));
((123584, 123627), (Lo, V14)); ((123628, 123631), (Mn, V14)); ((123632, 123641), (Nd, V14)); ((123647, 123647), (Sc, V14)); ((124112, 124138), (Lo, V15));
((124139, 124139), (Lm, V15)); ((124140, 124143), (Mn, V15)); ((124144, 124153), (Nd, V15)); ((124896, 124902), (Lo, V14)); ((124904, 124907), (Lo, V14));
((124909, 124910), (Lo, V14)); ((124912, 124926), (Lo, V14)); ((124928, 125124), (Lo, V14)); ((125127, 125135), (No, V14)); ((125136, 125142), (Mn, V14));
((125184, 125217), (Lu, V14)); ((125218, 125251), (Ll, V14)); ((125252, 125258), (Mn, V14)); ((125259, 125259), (Lm, V14)); ((125264, 125273), (Nd, V14));
((125278, 125279), (Po, V14)); ((126065, 126123), (No, V14)); ((126124, 126124), (So, V14)); ((126125, 126127), (No, V14)); ((126128, 126128), (Sc, V14));
((126129, 126132), (No, V14)); ((126209, 126253), (No, V14)); ((126254, 126254), (So, V14)); ((126255, 126269), (No, V14)); ((126464, 126467), (Lo, V14));
((126469, 126495), (Lo, V14)); ((126497, 126498), (Lo, V14)); ((126500, 126500), (Lo, V14)); ((126503, 126503), (Lo, V14)); ((126505, 126514), (Lo, V14));
((126516, 126519), (Lo, V14)); ((126521, 126521), (Lo, V14)); ((126523, 126523), (Lo, V14)); ((126530, 126530), (Lo, V14)); ((126535, 126535), (Lo, V14));
((126537, 126537), (Lo, V14)); ((126539, 126539), (Lo, V14)); ((126541, 126543), (Lo, V14)); ((126545, 126546), (Lo, V14)); ((126548, 126548), (Lo, V14));
((126551, 126551), (Lo, V14)); ((126553, 126553), (Lo, V14)); ((126555, 126555), (Lo, V14)); ((126557, 126557), (Lo, V14)); ((126559, 126559), (Lo, V14));
((126561, 126562), (Lo, V14)); ((126564, 126564), (Lo, V14)); ((126567, 126570), (Lo, V14)); ((126572, 126578), (Lo, V14)); ((126580, 126583), (Lo, V14));
((126585, 126588), (Lo, V14)); ((126590, 126590), (Lo, V14)); ((126592, 126601), (Lo, V14)); ((126603, 126619), (Lo, V14)); ((126625, 126627), (Lo, V14));
((126629, 126633), (Lo, V14)); ((126635, 126651), (Lo, V14)); ((126704, 126705), (Sm, V14)); ((126976, 127019), (So, V14)); ((127024, 127123), (So, V14));
((127136, 127150), (So, V14)); ((127153, 127167), (So, V14)); ((127169, 127183), (So, V14)); ((127185, 127221), (So, V14)); ((127232, 127244), (No, V14));
((127245, 127405), (So, V14)); ((127462, 127490), (So, V14)); ((127504, 127547), (So, V14)); ((127552, 127560), (So, V14)); ((127568, 127569), (So, V14));
((127584, 127589), (So, V14)); ((127744, 127994), (So, V14)); ((127995, 127999), (Sk, V14)); ((128000, 128727), (So, V14)); ((128732, 128732), (So, V15));
((128733, 128748), (So, V14)); ((128752, 128764), (So, V14)); ((128768, 128883), (So, V14)); ((128884, 128886), (So, V15)); ((128891, 128895), (So, V15));
((128896, 128984), (So, V14)); ((128985, 128985), (So, V15)); ((128992, 129003), (So, V14)); ((129008, 129008), (So, V14)); ((129024, 129035), (So, V14));
((129040, 129095), (So, V14)); ((129104, 129113), (So, V14)); ((129120, 129159), (So, V14)); ((129168, 129197), (So, V14)); ((129200, 129201), (So, V14));
((129280, 129619), (So, V14)); ((129632, 129645), (So, V14)); ((129648, 129652), (So, V14)); ((129653, 129655), (So, V15)); ((129656, 129660), (So, V14));
((129664, 129670), (So, V14)); ((129671, 129672), (So, V15)); ((129680, 129708), (So, V14)); ((129709, 129711), (So, V15)); ((129712, 129722), (So, V14));
((129723, 129725), (So, V15)); ((129727, 129727), (So, V15)); ((129728, 129733), (So, V14)); ((129742, 129743), (So, V15)); ((129744, 129753), (So, V14));
((129754, 129755), (So, V15)); ((129760, 129767), (So, V14)); ((129768, 129768), (So, V15)); ((129776, 129782), (So, V14)); ((129783, 129784), (So, V15));
((129792, 129938), (So, V14)); ((129940, 129994), (So, V14)); ((130032, 130041), (Nd, V14)); ((131072, 173791), (Lo, V14)); ((173824, 177976), (Lo, V14));
((177977, 177977), (Lo, V15)); ((177984, 178205), (Lo, V14)); ((178208, 183969), (Lo, V14)); ((183984, 191456), (Lo, V14)); ((194560, 195101), (Lo, V14));
((196608, 201546), (Lo, V14)); ((201552, 205743), (Lo, V15)); ((917505, 917505), (Cf, V14)); ((917536, 917631), (Cf, V14)); ((917760, 917999), (Mn, V14));
((983040, 1048573), (Co, V14)); ((1048576, 1114109), (Co, V14))].
(** Ranges of code points with the same category, in order. *)
Definition unicode : list ((Z * Z) * (gc * version)) := concat [uni_0; uni_1; uni_2; uni_3; uni_4; uni_5; uni_6; uni_7; uni_8; uni_9; uni_10; uni_11; uni_12].
