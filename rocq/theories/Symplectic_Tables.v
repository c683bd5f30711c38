(** The tables of the symplectic methods, integrators/methods.hpp.  The numbers are those written in the code, as rational
    numbers; [double_of] gives the double-precision numbers that they denote. *)
From Coq Require Import Reals List ZArith QArith Qreals.
From Verif Require Import OneStep_Model Adaptive_Tables.
Import ListNotations.
Open Scope Q_scope.

(** The double closest to [x], for [x] whose absolute value is less than [2 ^ 53] and that is not subnormal; no number of the
    tables is halfway between two doubles. *)
Definition double_of (x : Q) : Q :=
  let n := Z.abs (Qnum x) in let d := Z.pos (Qden x) in
  if (n =? 0)%Z then 0
  else
    let e := (53 - (Z.log2 n - Z.log2 d))%Z in
    let e := if (n * 2 ^ e <? d * 2 ^ 53)%Z then e else (e - 1)%Z in
    let m := ((2 * (n * 2 ^ e) + d) / (2 * d))%Z in
    Qmake (Z.sgn (Qnum x) * m) (Z.to_pos (2 ^ e)).
(** integrators/methods.hpp:120-133: the order, [first_same_as_last], [time_reversible], [a] and [b]. *)
Record SPRKTable := mkSPRKTable { p_order : nat; p_fsal : bool; p_reversible : bool; p_a : list Q; p_b : list Q }.
(** integrators/methods.hpp:95-118: the order, the composition, [time_reversible], [a] and [b]. *)
Record SRKNTable := mkSRKNTable { y_order : nat; y_composition : Composition; y_reversible : bool; y_a : list Q; y_b : list Q }.
Definition doubles (l : list Q) : list R := reals (map double_of l).
Definition sprk_of (t : SPRKTable) : SPRK := mkSPRK (p_fsal t) (p_reversible t) (doubles (p_a t)) (doubles (p_b t)).
Definition srkn_of (t : SRKNTable) : SRKN := mkSRKN (y_composition t) (y_reversible t) (doubles (y_a t)) (doubles (y_b t)).

(** Lines 269-291. *)
Definition BlanesMoan2002S6 : SPRKTable :=
  mkSPRKTable 4 true true
     [(20951510661336200 # 100000000000000000); (-14385177317981800 # 100000000000000000);
      (43433666656645600 # 100000000000000000); (43433666656645600 # 100000000000000000);
      (-14385177317981800 # 100000000000000000); (20951510661336200 # 100000000000000000); 0]
     [(79203696431195700 # 1000000000000000000); (35317290604977400 # 100000000000000000);
      (-42065080357719500 # 1000000000000000000); (21937695575349960 # 100000000000000000);
      (-42065080357719500 # 1000000000000000000); (35317290604977400 # 100000000000000000);
      (79203696431195700 # 1000000000000000000)].
(** Lines 292-322. *)
Definition BlanesMoan2002S10 : SPRKTable :=
  mkSPRKTable 6 true true
     [(14881644790104200 # 100000000000000000); (-13238586576778400 # 100000000000000000);
      (67307604692185000 # 1000000000000000000); (43266640257817500 # 100000000000000000);
      (-1640458940361800 # 100000000000000000); (-1640458940361800 # 100000000000000000);
      (43266640257817500 # 100000000000000000); (67307604692185000 # 1000000000000000000);
      (-13238586576778400 # 100000000000000000); (14881644790104200 # 100000000000000000); 0]
     [(50262764400392200 # 1000000000000000000); (41351430042834400 # 100000000000000000);
      (45079889794397700 # 1000000000000000000); (-18805485381956900 # 100000000000000000);
      (54196067845078000 # 100000000000000000); (-7255255585086898 # 10000000000000000);
      (54196067845078000 # 100000000000000000); (-18805485381956900 # 100000000000000000);
      (45079889794397700 # 1000000000000000000); (41351430042834400 # 100000000000000000);
      (50262764400392200 # 1000000000000000000)].
(** Lines 323-345. *)
Definition BlanesMoan2002SRKN6B : SRKNTable :=
  mkSRKNTable 4 BAB true
     [(24529895718427100 # 100000000000000000); (60487266571108000 # 100000000000000000);
      (-35017162289535100 # 100000000000000000); (-35017162289535100 # 100000000000000000);
      (60487266571108000 # 100000000000000000); (24529895718427100 # 100000000000000000); 0]
     [(82984406417405200 # 1000000000000000000); (39630980149836800 # 100000000000000000);
      (-39056304922348600 # 1000000000000000000); (1195241940131508 # 10000000000000000);
      (-39056304922348600 # 1000000000000000000); (39630980149836800 # 100000000000000000);
      (82984406417405200 # 1000000000000000000)].
(** Lines 346-378. *)
Definition BlanesMoan2002SRKN11B : SRKNTable :=
  mkSRKNTable 6 BAB true
     [(12322977594627100 # 100000000000000000); (29055379779955800 # 100000000000000000);
      (-12704921262541700 # 100000000000000000); (-24633176106207500 # 100000000000000000);
      (35720887279592800 # 100000000000000000); (2047770542914700 # 10000000000000000);
      (35720887279592800 # 100000000000000000); (-24633176106207500 # 100000000000000000);
      (-12704921262541700 # 100000000000000000); (29055379779955800 # 100000000000000000);
      (12322977594627100 # 100000000000000000); 0]
     [(41464998518262400 # 1000000000000000000); (19812867191806700 # 100000000000000000);
      (-40006192104153300 # 1000000000000000000); (75253984301580700 # 1000000000000000000);
      (-11511387420687900 # 1000000000000000000); (23666992478693110 # 100000000000000000);
      (23666992478693110 # 100000000000000000); (-11511387420687900 # 1000000000000000000);
      (75253984301580700 # 1000000000000000000); (-40006192104153300 # 1000000000000000000);
      (19812867191806700 # 100000000000000000); (41464998518262400 # 1000000000000000000)].
(** Lines 379-417. *)
Definition BlanesMoan2002SRKN14A : SRKNTable :=
  mkSRKNTable 6 ABA true
     [(37859319840611600 # 1000000000000000000); (10263563310243500 # 100000000000000000);
      (-25867888266558700 # 1000000000000000000); (31424140307144700 # 100000000000000000);
      (-13014445951741500 # 100000000000000000); (10641770036954300 # 100000000000000000);
      (-87942431285105800 # 10000000000000000000); (2073050690568954 # 10000000000000000);
      (-87942431285105800 # 10000000000000000000); (10641770036954300 # 100000000000000000);
      (-13014445951741500 # 100000000000000000); (31424140307144700 # 100000000000000000);
      (-25867888266558700 # 1000000000000000000); (10263563310243500 # 100000000000000000);
      (37859319840611600 # 1000000000000000000)]
     [0; (91719152624461650 # 1000000000000000000); (18398317000500600 # 100000000000000000);
      (-56534365832888270 # 1000000000000000000); (49146887747128540 # 10000000000000000000);
      (14376112716835800 # 100000000000000000); (32856769374680400 # 100000000000000000);
      (-19641146648645423 # 100000000000000000); (-19641146648645423 # 100000000000000000);
      (32856769374680400 # 100000000000000000); (14376112716835800 # 100000000000000000);
      (49146887747128540 # 10000000000000000000); (-56534365832888270 # 1000000000000000000);
      (18398317000500600 # 100000000000000000); (91719152624461650 # 1000000000000000000)].
(** Lines 423-440. *)
Definition CandyRozmus1991ForestRuth1990 : SPRKTable :=
  mkSPRKTable 4 true true
     [(13512071919596576340 # 10000000000000000000); (-17024143839193152681 # 10000000000000000000);
      (13512071919596576340 # 10000000000000000000); 0]
     [(6756035959798288170 # 10000000000000000000); (-1756035959798288170 # 10000000000000000000);
      (-1756035959798288170 # 10000000000000000000); (6756035959798288170 # 10000000000000000000)].
(** Lines 651-663. *)
Definition McLachlan1995S2 : SPRKTable :=
  mkSPRKTable 2 true true
     [(5 # 10); (5 # 10); 0]
     [(19318332750378357396 # 100000000000000000000); (61363334499243285207 # 100000000000000000000);
      (19318332750378357396 # 100000000000000000000)].
(** Lines 664-682. *)
Definition McLachlan1995S4 : SPRKTable :=
  mkSPRKTable 4 true true
     [(54545454545454545455 # 100000000000000000000); (-45454545454545454545 # 1000000000000000000000);
      (-45454545454545454545 # 1000000000000000000000); (54545454545454545455 # 100000000000000000000); 0]
     [(16913927992207204518 # 100000000000000000000); (-29918620390405079951 # 100000000000000000000);
      (12600938479639575087 # 10000000000000000000); (-29918620390405079951 # 100000000000000000000);
      (16913927992207204518 # 100000000000000000000)].
(** Lines 683-699. *)
Definition McLachlan1995S5 : SPRKTable :=
  mkSPRKTable 4 true true
     [(4 # 10); (-1 # 10); (4 # 10); (-1 # 10); (4 # 10); 0]
     [(89269454226475244887 # 1000000000000000000000); (-97336042636895508015 # 1000000000000000000000);
      (50806658841042026313 # 100000000000000000000); (50806658841042026313 # 100000000000000000000);
      (-97336042636895508015 # 1000000000000000000000); (89269454226475244887 # 1000000000000000000000)].
(** Lines 700-714. *)
Definition McLachlan1995SB3A4 : SRKNTable :=
  mkSRKNTable 4 ABA true
     [(18819521776883821787 # 100000000000000000000); (-21528551102171551201 # 1000000000000000000000);
      (66666666666666666667 # 100000000000000000000); (-21528551102171551201 # 1000000000000000000000);
      (18819521776883821787 # 100000000000000000000)]
     [0; 1; (-5 # 10); (-5 # 10); 1].
(** Lines 715-735. *)
Definition McLachlan1995SB3A5 : SRKNTable :=
  mkSRKNTable 4 ABA true
     [(4051886183952522772 # 10000000000000000000); (-2871440408165240890 # 10000000000000000000);
      (3819554224212718118 # 10000000000000000000); (3819554224212718118 # 10000000000000000000);
      (-2871440408165240890 # 10000000000000000000); (4051886183952522772 # 10000000000000000000)]
     [0; (-41095890410958904110 # 1000000000000000000000); (28813559322033898305 # 100000000000000000000);
      (50592059438123984212 # 100000000000000000000); (28813559322033898305 # 100000000000000000000);
      (-41095890410958904110 # 1000000000000000000000)].
(** Lines 736-756. *)
Definition McLachlan1995SS5 : SPRKTable :=
  mkSPRKTable 4 true true
     [(28 # 100); (6254664284676700450 # 10000000000000000000); (-8109328569353400900 # 10000000000000000000);
      (6254664284676700450 # 10000000000000000000); (28 # 100); 0]
     [(14 # 100); (45273321423383502251 # 100000000000000000000); (-927332142338350225 # 10000000000000000000);
      (-927332142338350225 # 10000000000000000000); (45273321423383502251 # 100000000000000000000); (14 # 100)].
(** Lines 757-785. *)
Definition McLachlan1995SS9 : SPRKTable :=
  mkSPRKTable 6 true true
     [(1867 # 10000); (55549702371247839916 # 100000000000000000000); (12946694891347535806 # 100000000000000000000);
      (-84326562338773460855 # 100000000000000000000); (9432033015235617027 # 10000000000000000000);
      (-84326562338773460855 # 100000000000000000000); (12946694891347535806 # 100000000000000000000);
      (55549702371247839916 # 100000000000000000000); (1867 # 10000); 0]
     [(9335 # 100000); (37109851185623919958 # 100000000000000000000);
      (34248198631297687861 # 100000000000000000000); (-35689933723712962525 # 100000000000000000000);
      (499688390679135471 # 10000000000000000000); (499688390679135471 # 10000000000000000000);
      (-35689933723712962525 # 100000000000000000000); (34248198631297687861 # 100000000000000000000);
      (37109851185623919958 # 100000000000000000000); (9335 # 100000)].
(** Lines 786-826. *)
Definition McLachlan1995SS15 : SPRKTable :=
  mkSPRKTable 8 true true
     [(7416703643506129534 # 10000000000000000000); (-4091008258000315940 # 10000000000000000000);
      (1907547102962383800 # 10000000000000000000); (-5738624711160822667 # 10000000000000000000);
      (2990641813036559238 # 10000000000000000000); (3346249182452981838 # 10000000000000000000);
      (3152930923967665966 # 10000000000000000000); (-796887939352916354 # 1000000000000000000);
      (3152930923967665966 # 10000000000000000000); (3346249182452981838 # 10000000000000000000);
      (2990641813036559238 # 10000000000000000000); (-5738624711160822667 # 10000000000000000000);
      (1907547102962383800 # 10000000000000000000); (-4091008258000315940 # 10000000000000000000);
      (7416703643506129534 # 10000000000000000000); 0]
     [(37083518217530647672 # 100000000000000000000); (1662847692752906797 # 10000000000000000000);
      (-1091730577518966070 # 10000000000000000000); (-1915538804099219434 # 10000000000000000000);
      (-13739914490621317141 # 100000000000000000000); (3168445497744770538 # 10000000000000000000);
      (32495900532103239021 # 100000000000000000000); (-2407974234780748787 # 10000000000000000000);
      (-2407974234780748787 # 10000000000000000000); (32495900532103239021 # 100000000000000000000);
      (3168445497744770538 # 10000000000000000000); (-13739914490621317141 # 100000000000000000000);
      (-1915538804099219434 # 10000000000000000000); (-1091730577518966070 # 10000000000000000000);
      (1662847692752906797 # 10000000000000000000); (37083518217530647672 # 100000000000000000000)].
(** Lines 827-871. *)
Definition McLachlan1995SS17 : SPRKTable :=
  mkSPRKTable 8 true true
     [(12886597938144329897 # 100000000000000000000); (5815140871052509624 # 10000000000000000000);
      (-41017537146985013753 # 100000000000000000000); (1851469357165877327 # 10000000000000000000);
      (-40955234342085141934 # 100000000000000000000); (14440594108001204106 # 100000000000000000000);
      (27833550039367965131 # 100000000000000000000); (31495668391629485789 # 100000000000000000000);
      (-626994825405133975 # 1000000000000000000); (31495668391629485789 # 100000000000000000000);
      (27833550039367965131 # 100000000000000000000); (14440594108001204106 # 100000000000000000000);
      (-40955234342085141934 # 100000000000000000000); (1851469357165877327 # 10000000000000000000);
      (-41017537146985013753 # 100000000000000000000); (5815140871052509624 # 10000000000000000000);
      (12886597938144329897 # 100000000000000000000); 0]
     [(64432989690721649485 # 1000000000000000000000); (35519003324334713070 # 100000000000000000000);
      (856693578177004124 # 10000000000000000000); (-11251421787663120244 # 100000000000000000000);
      (-1122027038521318433 # 10000000000000000000); (-13257320117041968914 # 100000000000000000000);
      (2113707207368458462 # 10000000000000000000); (2966460921549872546 # 10000000000000000000);
      (-1560190707444195585 # 10000000000000000000); (-1560190707444195585 # 10000000000000000000);
      (2966460921549872546 # 10000000000000000000); (2113707207368458462 # 10000000000000000000);
      (-13257320117041968914 # 100000000000000000000); (-1122027038521318433 # 10000000000000000000);
      (-11251421787663120244 # 100000000000000000000); (856693578177004124 # 10000000000000000000);
      (35519003324334713070 # 100000000000000000000); (64432989690721649485 # 1000000000000000000000)].
(** Lines 874-887. *)
Definition McLachlanAtela1992Order2Optimal : SPRKTable :=
  mkSPRKTable 2 false false
     [(7071067811865475244 # 10000000000000000000); (2928932188134524756 # 10000000000000000000)]
     [(2928932188134524756 # 10000000000000000000); (7071067811865475244 # 10000000000000000000)].
(** Lines 888-903. *)
Definition McLachlanAtela1992Order3Optimal : SPRKTable :=
  mkSPRKTable 3 false false
     [(9196615230173998571 # 10000000000000000000); (-1879916187991597820 # 10000000000000000000);
      (2683300957817599250 # 10000000000000000000)]
     [(2683300957817599250 # 10000000000000000000); (-1879916187991597820 # 10000000000000000000);
      (9196615230173998571 # 10000000000000000000)].
(** Lines 904-921. *)
Definition McLachlanAtela1992Order4Optimal : SRKNTable :=
  mkSRKNTable 4 BA false
     [(5153528374311229364 # 10000000000000000000); (-85782019412973646 # 1000000000000000000);
      (4415830236164665242 # 10000000000000000000); (1288461583653841854 # 10000000000000000000)]
     [(1344961992774310892 # 10000000000000000000); (-2248198030794208058 # 10000000000000000000);
      (7563200005156682911 # 10000000000000000000); (3340036032863214255 # 10000000000000000000)].
(** Lines 922-943. *)
Definition McLachlanAtela1992Order5Optimal : SRKNTable :=
  mkSRKNTable 5 BA false
     [(339839625839110000 # 1000000000000000000); (-88601336903027329 # 1000000000000000000);
      (5858564768259621188 # 10000000000000000000); (-603039356536491888 # 1000000000000000000);
      (3235807965546976394 # 10000000000000000000); (4423637942197494587 # 10000000000000000000)]
     [(1193900292875672758 # 10000000000000000000); (6989273703824752308 # 10000000000000000000);
      (-1713123582716007754 # 10000000000000000000); (4012695022513534480 # 10000000000000000000);
      (107050818482359840 # 10000000000000000000); (-589796254980311632 # 10000000000000000000)].
(** Lines 951-962. *)
Definition Leapfrog : SPRKTable :=
  mkSPRKTable 2 true true
     [1; 0]
     [(5 # 10); (5 # 10)].
(** Lines 970-995. *)
Definition OkunborSkeel1994Order6Method13 : SRKNTable :=
  mkSRKNTable 6 ABA true
     [(-10130879789171747298 # 10000000000000000000); (11874295737325427070 # 10000000000000000000);
      (-18335852096460590340 # 1000000000000000000000); (34399425728109261313 # 100000000000000000000);
      (34399425728109261313 # 100000000000000000000); (-18335852096460590340 # 1000000000000000000000);
      (11874295737325427070 # 10000000000000000000); (-10130879789171747298 # 10000000000000000000)]
     [0; (16600692650009894 # 100000000000000000000); (-37962421426377360608 # 100000000000000000000);
      (68913741185181063674 # 100000000000000000000); (38064159097092574080 # 100000000000000000000);
      (68913741185181063674 # 100000000000000000000); (-37962421426377360608 # 100000000000000000000);
      (16600692650009894 # 100000000000000000000)].
(** Lines 1075-1087. *)
Definition Ruth1983 : SPRKTable :=
  mkSPRKTable 3 false false
     [(2 # 3); (-2 # 3); 1]
     [(7 # 24); (3 # 4); (-1 # 24)].
(** Lines 1092-1112. *)
Definition Suzuki1990 : SPRKTable :=
  mkSPRKTable 4 true true
     [(41449077179437573714 # 100000000000000000000); (41449077179437573714 # 100000000000000000000);
      (-65796308717750294857 # 100000000000000000000); (41449077179437573714 # 100000000000000000000);
      (41449077179437573714 # 100000000000000000000); 0]
     [(20724538589718786857 # 100000000000000000000); (41449077179437573714 # 100000000000000000000);
      (-12173615769156360571 # 100000000000000000000); (-12173615769156360571 # 100000000000000000000);
      (41449077179437573714 # 100000000000000000000); (20724538589718786857 # 100000000000000000000)].
(** Lines 1118-1142. *)
Definition Yoshida1990Order6A : SPRKTable :=
  mkSPRKTable 6 true true
     [(78451361047755726382 # 100000000000000000000); (23557321335935813369 # 100000000000000000000);
      (-117767998417887100695 # 100000000000000000000); (131518632068391121889 # 100000000000000000000);
      (-117767998417887100695 # 100000000000000000000); (23557321335935813369 # 100000000000000000000);
      (78451361047755726382 # 100000000000000000000); 0]
     [(392256805238778631910 # 1000000000000000000000); (51004341191845769875 # 100000000000000000000);
      (-47105338540975643663 # 100000000000000000000); (6875316825252010597 # 100000000000000000000);
      (6875316825252010597 # 100000000000000000000); (-47105338540975643663 # 100000000000000000000);
      (51004341191845769875 # 100000000000000000000); (392256805238778631910 # 1000000000000000000000)].
(** Lines 1143-1167. *)
Definition Yoshida1990Order6B : SPRKTable :=
  mkSPRKTable 6 true true
     [(143984816797678309102 # 100000000000000000000); (426068187079201616 # 100000000000000000000);
      (-213228522200145152088 # 100000000000000000000); (237635274430775282740 # 100000000000000000000);
      (-213228522200145152088 # 100000000000000000000); (426068187079201616 # 100000000000000000000);
      (143984816797678309102 # 100000000000000000000); 0]
     [(71992408398839154551 # 100000000000000000000); (72205442492378755359 # 100000000000000000000);
      (-106401227006532975236 # 100000000000000000000); (12203376115315065326 # 100000000000000000000);
      (12203376115315065326 # 100000000000000000000); (-106401227006532975236 # 100000000000000000000);
      (72205442492378755359 # 100000000000000000000); (71992408398839154551 # 100000000000000000000)].
(** Lines 1168-1192. *)
Definition Yoshida1990Order6C : SPRKTable :=
  mkSPRKTable 6 true true
     [(144778256239929793290 # 100000000000000000000); (-214403531630538931060 # 100000000000000000000);
      (152886228424927025338 # 100000000000000000000000); (238944778324368421490 # 100000000000000000000);
      (152886228424927025338 # 100000000000000000000000); (-214403531630538931060 # 100000000000000000000);
      (144778256239929793290 # 100000000000000000000); 0]
     [(72389128119964896645 # 100000000000000000000); (-34812637695304568885 # 100000000000000000000);
      (-107125322701057002017 # 100000000000000000000); (119548832276396674257 # 100000000000000000000);
      (119548832276396674257 # 100000000000000000000); (-107125322701057002017 # 100000000000000000000);
      (-34812637695304568885 # 100000000000000000000); (72389128119964896645 # 100000000000000000000)].
(** Lines 1193-1233. *)
Definition Yoshida1990Order8A : SPRKTable :=
  mkSPRKTable 8 true true
     [(104242620869970426435 # 100000000000000000000); (182020630970698006933 # 100000000000000000000);
      (157739928123708321343 # 1000000000000000000000); (244002732616634406382 # 100000000000000000000);
      (-716989419709533209981 # 100000000000000000000000); (-244699182370424588929 # 100000000000000000000);
      (-161582374150065378479 # 100000000000000000000); (-17808286265894834253 # 10000000000000000000);
      (-161582374150065378479 # 100000000000000000000); (-244699182370424588929 # 100000000000000000000);
      (-716989419709533209981 # 100000000000000000000000); (244002732616634406382 # 100000000000000000000);
      (157739928123708321343 # 1000000000000000000000); (182020630970698006933 # 100000000000000000000);
      (104242620869970426435 # 100000000000000000000); 0]
     [(521213104349852132174 # 1000000000000000000000); (143131625920334216684 # 100000000000000000000);
      (988973118915344195337 # 1000000000000000000000); (129888362714502619258 # 100000000000000000000);
      (121642871598462436586 # 100000000000000000000); (-122708085895067061070 # 100000000000000000000);
      (-203140778260244983704 # 100000000000000000000); (-16983261840450686051 # 10000000000000000000);
      (-16983261840450686051 # 10000000000000000000); (-203140778260244983704 # 100000000000000000000);
      (-122708085895067061070 # 100000000000000000000); (121642871598462436586 # 100000000000000000000);
      (129888362714502619258 # 100000000000000000000); (988973118915344195337 # 1000000000000000000000);
      (143131625920334216684 # 100000000000000000000); (521213104349852132174 # 1000000000000000000000)].
(** Lines 1234-1274. *)
Definition Yoshida1990Order8B : SPRKTable :=
  mkSPRKTable 8 true true
     [(148819229202921310080 # 100000000000000000000); (-233864815101041943098 # 100000000000000000000);
      (289105148972198900311 # 100000000000000000000); (-289688250330423987105 # 100000000000000000000);
      (378039588362668223674 # 100000000000000000000000); (289195744315817391244 # 100000000000000000000);
      (-169248587771706559145 # 100000000000000000000000); (-30755169612012526619 # 10000000000000000000);
      (-169248587771706559145 # 100000000000000000000000); (289195744315817391244 # 100000000000000000000);
      (378039588362668223674 # 100000000000000000000000); (-289688250330423987105 # 100000000000000000000);
      (289105148972198900311 # 100000000000000000000); (-233864815101041943098 # 100000000000000000000);
      (148819229202921310080 # 100000000000000000000); 0]
     [(744096146014606550401 # 1000000000000000000000); (-42522792949060316509 # 100000000000000000000);
      (27620166935578478606 # 100000000000000000000); (-291550679112543397 # 100000000000000000000);
      (-144655105371030659441 # 100000000000000000000); (144786891952090029734 # 100000000000000000000);
      (144513247864022842343 # 100000000000000000000); (-15386047235394848638 # 10000000000000000000);
      (-15386047235394848638 # 10000000000000000000); (144513247864022842343 # 100000000000000000000);
      (144786891952090029734 # 100000000000000000000); (-144655105371030659441 # 100000000000000000000);
      (-291550679112543397 # 100000000000000000000); (27620166935578478606 # 100000000000000000000);
      (-42522792949060316509 # 100000000000000000000); (744096146014606550401 # 1000000000000000000000)].
(** Lines 1275-1315. *)
Definition Yoshida1990Order8C : SPRKTable :=
  mkSPRKTable 8 true true
     [(629030650210427818049 # 1000000000000000000000); (136934946416874222370 # 100000000000000000000);
      (-106458714789183904181 # 100000000000000000000); (166335809963311356298 # 100000000000000000000);
      (-167896928259637402925 # 100000000000000000000); (-155946803821449795876 # 100000000000000000000);
      (311790812418431890510 # 1000000000000000000000); (16589908845439910692 # 10000000000000000000);
      (311790812418431890510 # 1000000000000000000000); (-155946803821449795876 # 100000000000000000000);
      (-167896928259637402925 # 100000000000000000000); (166335809963311356298 # 100000000000000000000);
      (-106458714789183904181 # 100000000000000000000); (136934946416874222370 # 100000000000000000000);
      (629030650210427818049 # 1000000000000000000000); 0]
     [(314515325105213909024 # 1000000000000000000000); (999190057189585020872 # 1000000000000000000000);
      (15238115813845159094 # 100000000000000000000); (29938547587063726059 # 100000000000000000000);
      (-780559148163023314 # 100000000000000000000); (-161921866040543599400 # 100000000000000000000);
      (-623838612898033034124 # 1000000000000000000000); (98539084848121147984 # 100000000000000000000);
      (98539084848121147984 # 100000000000000000000); (-623838612898033034124 # 1000000000000000000000);
      (-161921866040543599400 # 100000000000000000000); (-780559148163023314 # 100000000000000000000);
      (29938547587063726059 # 100000000000000000000); (15238115813845159094 # 100000000000000000000);
      (999190057189585020872 # 1000000000000000000000); (314515325105213909024 # 1000000000000000000000)].
(** Lines 1316-1356. *)
Definition Yoshida1990Order8D : SPRKTable :=
  mkSPRKTable 8 true true
     [(914844246229642658287 # 1000000000000000000000); (253693336566286009974 # 1000000000000000000000);
      (-144485223686030647660 # 100000000000000000000); (-158240635368502468458 # 1000000000000000000000);
      (193813913762291232471 # 100000000000000000000); (-196061023297558163691 # 100000000000000000000);
      (102799849392219431139 # 1000000000000000000000); (17084530707866603157 # 10000000000000000000);
      (102799849392219431139 # 1000000000000000000000); (-196061023297558163691 # 100000000000000000000);
      (193813913762291232471 # 100000000000000000000); (-158240635368502468458 # 1000000000000000000000);
      (-144485223686030647660 # 100000000000000000000); (253693336566286009974 # 1000000000000000000000);
      (914844246229642658287 # 1000000000000000000000); 0]
     [(457422123114821329143 # 1000000000000000000000); (584268791397964334130 # 1000000000000000000000);
      (-595579450147010233314 # 1000000000000000000000); (-801546436114404472530 # 1000000000000000000000);
      (88994925112720492813 # 100000000000000000000); (-1123554767633465610 # 100000000000000000000);
      (-92890519179168110289 # 100000000000000000000); (90562646008943987343 # 100000000000000000000);
      (90562646008943987343 # 100000000000000000000); (-92890519179168110289 # 100000000000000000000);
      (-1123554767633465610 # 100000000000000000000); (88994925112720492813 # 100000000000000000000);
      (-801546436114404472530 # 1000000000000000000000); (-595579450147010233314 # 1000000000000000000000);
      (584268791397964334130 # 1000000000000000000000); (457422123114821329143 # 1000000000000000000000)].
(** Lines 1357-1397. *)
Definition Yoshida1990Order8E : SPRKTable :=
  mkSPRKTable 8 true true
     [(130300165757516838484 # 100000000000000000000); (107990467718098279648 # 1000000000000000000000);
      (-204809795883490205633 # 100000000000000000000); (536018921375238082832 # 100000000000000000000000);
      (-719180053650705075005 # 10000000000000000000000); (252778927318028339169 # 100000000000000000000);
      (227738840126312259937 # 10000000000000000000000); (-26937990149999221983 # 10000000000000000000);
      (227738840126312259937 # 10000000000000000000000); (252778927318028339169 # 100000000000000000000);
      (-719180053650705075005 # 10000000000000000000000); (536018921375238082832 # 100000000000000000000000);
      (-204809795883490205633 # 100000000000000000000); (107990467718098279648 # 1000000000000000000000);
      (130300165757516838484 # 100000000000000000000); 0]
     [(651500828787584192418 # 1000000000000000000000); (705496062646633332241 # 1000000000000000000000);
      (-97005374555840188834 # 100000000000000000000); (-102136888481057483775 # 100000000000000000000);
      (-332789080756590633361 # 10000000000000000000000); (122793563390760644210 # 100000000000000000000);
      (127528157859645730884 # 100000000000000000000); (-133551256549364548617 # 100000000000000000000);
      (-133551256549364548617 # 100000000000000000000); (127528157859645730884 # 100000000000000000000);
      (122793563390760644210 # 100000000000000000000); (-332789080756590633361 # 10000000000000000000000);
      (-102136888481057483775 # 100000000000000000000); (-97005374555840188834 # 100000000000000000000);
      (705496062646633332241 # 1000000000000000000000); (651500828787584192418 # 1000000000000000000000)].

Definition partitioned_tables : list SPRKTable :=
  [BlanesMoan2002S6; BlanesMoan2002S10; CandyRozmus1991ForestRuth1990; McLachlan1995S2; McLachlan1995S4;
   McLachlan1995S5; McLachlan1995SS5; McLachlan1995SS9; McLachlan1995SS15; McLachlan1995SS17;
   McLachlanAtela1992Order2Optimal; McLachlanAtela1992Order3Optimal; Leapfrog; Ruth1983; Suzuki1990;
   Yoshida1990Order6A; Yoshida1990Order6B; Yoshida1990Order6C; Yoshida1990Order8A; Yoshida1990Order8B;
   Yoshida1990Order8C; Yoshida1990Order8D; Yoshida1990Order8E].
Definition nystrom_tables : list SRKNTable :=
  [BlanesMoan2002SRKN6B; BlanesMoan2002SRKN11B; BlanesMoan2002SRKN14A; McLachlan1995SB3A4; McLachlan1995SB3A5;
   McLachlanAtela1992Order4Optimal; McLachlanAtela1992Order5Optimal; OkunborSkeel1994Order6Method13].
