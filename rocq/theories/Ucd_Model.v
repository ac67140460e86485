(** Model of ucd_prv.c: character groups and classification.

    The tables are those of the file (written by tools/ucd.py); their entries are uint16_t, a
    code point c is a uint32_t.  <ctype.h> is in the "C" locale. *)
From Verif Require Import Base Utf8_Tab Utf8_Model Regex_Model.

(** ucd_prv.c 90-93. *)
Definition t_Cc : list (Z * Z) :=
  [(0, 31); (127, 159)].
(** ucd_prv.c 95-106. *)
Definition t_Lt : list (Z * Z) :=
  [(453, 453); (456, 456); (459, 459); (498, 498); (8072, 8079); (8088, 8095); (8104, 8111);
   (8124, 8124); (8140, 8140); (8188, 8188)].
(** ucd_prv.c 108-146. *)
Definition t_Nd : list (Z * Z) :=
  [(48, 57); (1632, 1641); (1776, 1785); (1984, 1993); (2406, 2415); (2534, 2543); (2662, 2671);
   (2790, 2799); (2918, 2927); (3046, 3055); (3174, 3183); (3302, 3311); (3430, 3439); (3558, 3567);
   (3664, 3673); (3792, 3801); (3872, 3881); (4160, 4169); (4240, 4249); (6112, 6121); (6160, 6169);
   (6470, 6479); (6608, 6617); (6784, 6793); (6800, 6809); (6992, 7001); (7088, 7097); (7232, 7241);
   (7248, 7257); (42528, 42537); (43216, 43225); (43264, 43273); (43472, 43481); (43504, 43513);
   (43600, 43609); (44016, 44025); (65296, 65305)].
(** ucd_prv.c 148-156. *)
Definition t_Nl : list (Z * Z) :=
  [(5870, 5872); (8544, 8578); (8581, 8584); (12295, 12295); (12321, 12329); (12344, 12346);
   (42726, 42735)].
(** ucd_prv.c 158-165. *)
Definition t_Pc : list (Z * Z) :=
  [(95, 95); (8255, 8256); (8276, 8276); (65075, 65076); (65101, 65103); (65343, 65343)].
(** ucd_prv.c 167-186. *)
Definition t_Pd : list (Z * Z) :=
  [(45, 45); (1418, 1418); (1470, 1470); (5120, 5120); (6150, 6150); (8208, 8213); (11799, 11799);
   (11802, 11802); (11834, 11835); (11840, 11840); (11869, 11869); (12316, 12316); (12336, 12336);
   (12448, 12448); (65073, 65074); (65112, 65112); (65123, 65123); (65293, 65293)].
(** ucd_prv.c 188-199. *)
Definition t_Pf : list (Z * Z) :=
  [(187, 187); (8217, 8217); (8221, 8221); (8250, 8250); (11779, 11779); (11781, 11781);
   (11786, 11786); (11789, 11789); (11805, 11805); (11809, 11809)].
(** ucd_prv.c 201-213. *)
Definition t_Pi : list (Z * Z) :=
  [(171, 171); (8216, 8216); (8219, 8220); (8223, 8223); (8249, 8249); (11778, 11778); (11780, 11780);
   (11785, 11785); (11788, 11788); (11804, 11804); (11808, 11808)].
(** ucd_prv.c 215-234. *)
Definition t_Sc : list (Z * Z) :=
  [(36, 36); (162, 165); (1423, 1423); (1547, 1547); (2046, 2047); (2546, 2547); (2555, 2555);
   (2801, 2801); (3065, 3065); (3647, 3647); (6107, 6107); (8352, 8384); (43064, 43064);
   (65020, 65020); (65129, 65129); (65284, 65284); (65504, 65505); (65509, 65510)].
(** ucd_prv.c 236-238. *)
Definition t_Zl : list (Z * Z) :=
  [(8232, 8232)].
(** ucd_prv.c 240-242. *)
Definition t_Zp : list (Z * Z) :=
  [(8233, 8233)].
(** ucd_prv.c 244-252. *)
Definition t_Zs : list (Z * Z) :=
  [(32, 32); (160, 160); (5760, 5760); (8192, 8202); (8239, 8239); (8287, 8287); (12288, 12288)].
(** ucd_prv.c 254-277. *)
Definition t_Arabic : list (Z * Z) :=
  [(1536, 1540); (1542, 1547); (1549, 1562); (1564, 1566); (1568, 1599); (1601, 1610); (1622, 1647);
   (1649, 1756); (1758, 1791); (1872, 1919); (2160, 2190); (2192, 2193); (2200, 2273); (2275, 2303);
   (64336, 64450); (64467, 64829); (64832, 64911); (64914, 64967); (64975, 64975); (65008, 65023);
   (65136, 65140); (65142, 65276)].
(** ucd_prv.c 279-294. *)
Definition t_Bengali : list (Z * Z) :=
  [(2432, 2435); (2437, 2444); (2447, 2448); (2451, 2472); (2474, 2480); (2482, 2482); (2486, 2489);
   (2492, 2500); (2503, 2504); (2507, 2510); (2519, 2519); (2524, 2525); (2527, 2531); (2534, 2558)].
(** ucd_prv.c 296-305. *)
Definition t_Cyrillic : list (Z * Z) :=
  [(1024, 1156); (1159, 1327); (7296, 7304); (7467, 7467); (7544, 7544); (11744, 11775);
   (42560, 42655); (65070, 65071)].
(** ucd_prv.c 307-312. *)
Definition t_Devanagari : list (Z * Z) :=
  [(2304, 2384); (2389, 2403); (2406, 2431); (43232, 43263)].
(** ucd_prv.c 314-325. *)
Definition t_Georgian : list (Z * Z) :=
  [(4256, 4293); (4295, 4295); (4301, 4301); (4304, 4346); (4348, 4351); (7312, 7354); (7357, 7359);
   (11520, 11557); (11559, 11559); (11565, 11565)].
(** ucd_prv.c 327-361. *)
Definition t_Greek : list (Z * Z) :=
  [(880, 883); (885, 887); (890, 893); (895, 895); (900, 900); (902, 902); (904, 906); (908, 908);
   (910, 929); (931, 993); (1008, 1023); (7462, 7466); (7517, 7521); (7526, 7530); (7615, 7615);
   (7936, 7957); (7960, 7965); (7968, 8005); (8008, 8013); (8016, 8023); (8025, 8025); (8027, 8027);
   (8029, 8029); (8031, 8061); (8064, 8116); (8118, 8132); (8134, 8147); (8150, 8155); (8157, 8175);
   (8178, 8180); (8182, 8190); (8486, 8486); (43877, 43877)].
(** ucd_prv.c 363-375. *)
Definition t_Han : list (Z * Z) :=
  [(11904, 11929); (11931, 12019); (12032, 12245); (12293, 12293); (12295, 12295); (12321, 12329);
   (12344, 12347); (13312, 19903); (19968, 40959); (63744, 64109); (64112, 64217)].
(** ucd_prv.c 377-380. *)
Definition t_Hiragana : list (Z * Z) :=
  [(12353, 12438); (12445, 12447)].
(** ucd_prv.c 382-390. *)
Definition t_Katakana : list (Z * Z) :=
  [(12449, 12538); (12541, 12543); (12784, 12799); (13008, 13054); (13056, 13143); (65382, 65391);
   (65393, 65437)].
(** ucd_prv.c 392-427. *)
Definition t_Latin : list (Z * Z) :=
  [(65, 90); (97, 122); (170, 170); (186, 186); (192, 214); (216, 246); (248, 696); (736, 740);
   (7424, 7461); (7468, 7516); (7522, 7525); (7531, 7543); (7545, 7614); (7680, 7935); (8305, 8305);
   (8319, 8319); (8336, 8348); (8490, 8491); (8498, 8498); (8526, 8526); (8544, 8584); (11360, 11391);
   (42786, 42887); (42891, 42954); (42960, 42961); (42963, 42963); (42965, 42969); (42994, 43007);
   (43824, 43866); (43868, 43876); (43878, 43881); (64256, 64262); (65313, 65338); (65345, 65370)].
(** ucd_prv.c 429-432. *)
Definition t_Thai : list (Z * Z) :=
  [(3585, 3642); (3648, 3675)].
(** 33-42, 446-470: the groups in the order of the enum. *)
Definition groups : list (list (Z * Z)) :=
  [t_Cc; t_Lt; t_Nd; t_Nl; t_Pc; t_Pd; t_Pf; t_Pi; t_Sc; t_Zl; t_Zp; t_Zs; t_Arabic; t_Bengali;
   t_Cyrillic; t_Devanagari; t_Georgian; t_Greek; t_Han; t_Hiragana; t_Katakana; t_Latin; t_Thai].
(** ucd_prv.c 472-480 utf8_isgroup: the ranges are scanned until one starts after c. *)
Fixpoint scan (rs : list (Z * Z)) (c : Z) : bool :=
  match rs with
  | [] => false
  | (lo, hi) :: rs => if c <? lo then false else if c <=? hi then true else scan rs c
  end.
Definition isgroup (g c : Z) : bool := scan (nth (Z.to_nat g) groups []) c.
(** 33-42: the numbers of the groups used below. *)
Definition U8G_Lt := 1. Definition U8G_Nd := 2. Definition U8G_Nl := 3. Definition U8G_Pc := 4. Definition U8G_Zs := 11.
Definition U8G_Arabic := 12. Definition U8G_Bengali := 13. Definition U8G_Cyrillic := 14. Definition U8G_Devanagari := 15.
Definition U8G_Georgian := 16. Definition U8G_Greek := 17. Definition U8G_Han := 18. Definition U8G_Hiragana := 19.
Definition U8G_Katakana := 20. Definition U8G_Latin := 21. Definition U8G_Thai := 22.
(** 46-55 utf8_isalpha. *)
Definition alpha_groups : list Z :=
  [U8G_Latin; U8G_Nl; U8G_Cyrillic; U8G_Han; U8G_Devanagari; U8G_Arabic; U8G_Bengali; U8G_Hiragana; U8G_Katakana; U8G_Thai; U8G_Greek; U8G_Georgian].
Definition u_isalpha (c : Z) : bool := if c <? 128 then c_lower c || c_upper c else existsb (fun g => isgroup g c) alpha_groups.
(** 57-61 utf8_iscased. *)
Definition u_iscased (c : Z) : bool := if c <? 128 then c_lower c || c_upper c else islower c || isupper c || isgroup U8G_Lt c.
(** 63-66 utf8_isalnum. *)
Definition u_isalnum (c : Z) : bool := if c <? 128 then c_alnum c else u_isalpha c || isgroup U8G_Nd c.
(** 68-72 utf8_isword. *)
Definition u_isword (c : Z) : bool := if c <? 128 then c_alnum c || (c =? 95) else u_isalpha c || isgroup U8G_Nd c || isgroup U8G_Pc c.
(** 74-77 utf8_isblank. *)
Definition u_isblank (c : Z) : bool := if c <? 128 then (c =? 32) || (c =? 9) else isgroup U8G_Zs c.
(** 79-82 utf8_isspace. *)
Definition u_isspace (c : Z) : bool := if c <? 128 then between 9 13 c || (c =? 32) else (c =? 8232) || (c =? 8233) || isgroup U8G_Zs c.
(** cregex_prv.c 938-993 _runematch for the sets of Unicode: the parameter of [rune_match]. *)
Definition u_set (t r : Z) : bool :=
  if t <? UTF_GRP then
    match (t - UTF_al) / 2 with
    | 0 => u_isalpha r | 1 => u_isalnum r | 2 => u_isblank r | 3 => u_iscased r
    | 4 => islower r | 5 => isupper r | 6 => u_isspace r | _ => u_isword r
    end
  else isgroup ((t - UTF_GRP) / 2) r.
