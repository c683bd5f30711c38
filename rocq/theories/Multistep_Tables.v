(** The tables of the coefficients of the finite difference formulae and of the linear multistep methods, copied from the
    code.  The entries are integers (or -1/2) which are exactly representable as doubles. *)
From Coq Require Import ZArith QArith List.
Import ListNotations.
Open Scope Z_scope.

(** numerics/finite_difference_coefficients.mathematica.h:14-77. *)
Definition Numerators : list (list (list Z)) := [
 [[0]];
 [[-1; 1];
  [-1; 1]];
 [[-3; 4; -1];
  [-1; 0; 1];
  [1; -4; 3]];
 [[-11; 18; -9; 2];
  [-2; -3; 6; -1];
  [1; -6; 3; 2];
  [-2; 9; -18; 11]];
 [[-25; 48; -36; 16; -3];
  [-3; -10; 18; -6; 1];
  [1; -8; 0; 8; -1];
  [-1; 6; -18; 10; 3];
  [3; -16; 36; -48; 25]];
 [[-137; 300; -300; 200; -75; 12];
  [-12; -65; 120; -60; 20; -3];
  [3; -30; -20; 60; -15; 2];
  [-2; 15; -60; 20; 30; -3];
  [3; -20; 60; -120; 65; 12];
  [-12; 75; -200; 300; -300; 137]];
 [[-147; 360; -450; 400; -225; 72; -10];
  [-10; -77; 150; -100; 50; -15; 2];
  [2; -24; -35; 80; -30; 8; -1];
  [-1; 9; -45; 0; 45; -9; 1];
  [1; -8; 30; -80; 35; 24; -2];
  [-2; 15; -50; 100; -150; 77; 10];
  [10; -72; 225; -400; 450; -360; 147]];
 [[-1089; 2940; -4410; 4900; -3675; 1764; -490; 60];
  [-60; -609; 1260; -1050; 700; -315; 84; -10];
  [10; -140; -329; 700; -350; 140; -35; 4];
  [-4; 42; -252; -105; 420; -126; 28; -3];
  [3; -28; 126; -420; 105; 252; -42; 4];
  [-4; 35; -140; 350; -700; 329; 140; -10];
  [10; -84; 315; -700; 1050; -1260; 609; 60];
  [-60; 490; -1764; 3675; -4900; 4410; -2940; 1089]];
 [[-2283; 6720; -11760; 15680; -14700; 9408; -3920; 960; -105];
  [-105; -1338; 2940; -2940; 2450; -1470; 588; -140; 15];
  [15; -240; -798; 1680; -1050; 560; -210; 48; -5];
  [-5; 60; -420; -378; 1050; -420; 140; -30; 3];
  [3; -32; 168; -672; 0; 672; -168; 32; -3];
  [-3; 30; -140; 420; -1050; 378; 420; -60; 5];
  [5; -48; 210; -560; 1050; -1680; 798; 240; -15];
  [-15; 140; -588; 1470; -2450; 2940; -2940; 1338; 105];
  [105; -960; 3920; -9408; 14700; -15680; 11760; -6720; 2283]]].
(** Lines 79-89. *)
Definition Denominators : list Z := [1; 1; 2; 6; 12; 60; 60; 420; 840].

(** A method whose coefficients are [numerators] divided by [denominator]. *)
Record Coefficients := mkCoefficients { numerators : list Z; denominator : Z }.
(** integrators/adams_moulton_integrator_body.hpp:17-176: AdamsMoultonOrder<n>(), for n from 1. *)
Definition AdamsMoultonOrder : list Coefficients := [
 mkCoefficients [1] 1;
 mkCoefficients [1; 1] 2;
 mkCoefficients [5; 8; -1] 12;
 mkCoefficients [9; 19; -5; 1] 24;
 mkCoefficients [251; 646; -264; 106; -19] 720;
 mkCoefficients [475; 1427; -798; 482; -173; 27] 1440;
 mkCoefficients [19087; 65112; -46461; 37504; -20211; 6312; -863] 60480;
 mkCoefficients [36799; 139849; -121797; 123133; -88547; 41499; -11351; 1375] 120960;
 mkCoefficients [1070017; 4467094; -4604594; 5595358; -5033120; 3146338; -1291214; 312874; -33953] 3628800;
 mkCoefficients [2082753; 9449717; -11271304; 16002320; -17283646; 13510082; -7394032; 2687864; -583435; 57281] 7257600;
 mkCoefficients [134211265; 656185652; -890175549; 1446205080; -1823311566; 1710774528; -1170597042; 567450984;
    -184776195; 36284876; -3250433] 479001600;
 mkCoefficients [262747265; 1374799219; -2092490673; 3828828885; -5519460582; 6043521486; -4963166514; 3007739418;
    -1305971115; 384709327; -68928781; 5675265] 958003200;
 mkCoefficients [703604254357; 3917551216986; -6616420957428; 13465774256510; -21847538039895; 27345870698436;
    -26204344465152; 19058185652796; -10344711794985; 4063327863170; -1092096992268; 179842822566; -13695779093]
    2615348736000;
 mkCoefficients [1382741929621; 8153167962181; -15141235084110; 33928990133618; -61188680131285; 86180228689563;
    -94393338653892; 80101021029180; -52177910882661; 25620259777835; -9181635605134; 2268078814386; -345457086395;
    24466579093] 5230697472000].
(** integrators/cohen_hubbard_oesterwinter_body.hpp:10-213: CohenHubbardOesterwinterOrder<n>(), for n from 1. *)
Definition CohenHubbardOesterwinterOrder : list Coefficients := [
 mkCoefficients [1] 2;
 mkCoefficients [2; 1] 6;
 mkCoefficients [7; 6; -1] 24;
 mkCoefficients [97; 114; -39; 8] 360;
 mkCoefficients [367; 540; -282; 116; -21] 1440;
 mkCoefficients [2462; 4315; -3044; 1882; -682; 107] 10080;
 mkCoefficients [28549; 57750; -51453; 42484; -23109; 7254; -995] 120960;
 mkCoefficients [416173; 950684; -1025097; 1059430; -768805; 362112; -99359; 12062] 1814400;
 mkCoefficients [1624505; 4124232; -5225624; 6488192; -5888310; 3698920; -1522672; 369744; -40187] 7257600;
 mkCoefficients [52478684; 146269485; -213124908; 309028740; -336691836; 264441966; -145166580; 52880868; -11496000;
    1129981] 239500800;
 mkCoefficients [205994615; 624279150; -1028905077; 1706529480; -2169992754; 2045638356; -1403891730; 681937992;
    -222389445; 43721134; -3920121] 958003200;
 mkCoefficients [92158447389; 301307140046; -554452444015; 1035372815340; -1505150506950; 1655690777412; -1363696062582;
    828085590240; -360089099415; 106193749950; -19043781851; 1569102436] 435891456000;
 mkCoefficients [1089142980505; 3816786338508; -7759482946938; 16111319179940; -26357208224085; 33140932754040;
    -31849103413596; 23209670507976; -12616471333665; 4961170395260; -1334579000970; 219929887188; -16758388163]
    5230697472000;
 mkCoefficients [3222245907974; 12037738451557; -26802725457012; 61256305132546; -111377493654070; 157573362429387;
    -173081395797144; 147163097080284; -95999978168262; 47189380167595; -16926084595636; 4184066277762; -637654600522;
    45183033541] 15692092416000;
 mkCoefficients [12725213787853; 50443731622830; -122113957635961; 304637443761836; -609443588503323; 958160677491634;
    -1184126424849705; 1150710493076712; -875800754334177; 516624748444466; -231637952269587; 76348488342700;
    -17453674210001; 2473509950766; -163769844043] 62768369664000].

(** integrators/methods.hpp:64-70 and 84-93; the coefficients of [alpha] which are not given are 0 (aggregate
    initialization). *)
Record Multistep := mkMultistep { order : nat; alpha : list Q; beta_numerator : list Z; beta_denominator : Z }.
(** integrators/methods.hpp:213-222. *)
Definition AdamsBashforthOrder2 : Multistep := mkMultistep 2%nat [1; -1; 0]%Q
  [0; 3; -1] 2.
(** integrators/methods.hpp:224-233. *)
Definition AdamsBashforthOrder3 : Multistep := mkMultistep 3%nat [1; -1; 0; 0]%Q
  [0; 23; -16; 5] 12.
(** integrators/methods.hpp:235-244. *)
Definition AdamsBashforthOrder4 : Multistep := mkMultistep 4%nat [1; -1; 0; 0; 0]%Q
  [0; 55; -59; 37; -9] 24.
(** integrators/methods.hpp:246-255. *)
Definition AdamsBashforthOrder5 : Multistep := mkMultistep 5%nat [1; -1; 0; 0; 0; 0]%Q
  [0; 1901; -2774; 2616; -1274; 251] 720.
(** integrators/methods.hpp:257-266. *)
Definition AdamsBashforthOrder6 : Multistep := mkMultistep 6%nat [1; -1; 0; 0; 0; 0; 0]%Q
  [0; 4277; -7923; 9982; -7298; 2877; -475] 1440.
(** integrators/methods.hpp:998-1007. *)
Definition Quinlan1999Order8A : Multistep := mkMultistep 8%nat [1; -2; 2; -2; 2]%Q
  [0; 22081; -29418; 75183; -75212] 15120.
(** integrators/methods.hpp:1008-1017. *)
Definition Quinlan1999Order8B : Multistep := mkMultistep 8%nat [1; 0; 0; (-1 # 2); -1]%Q
  [0; 192481; 6582; 816783; -156812] 120960.
(** integrators/methods.hpp:1020-1029. *)
Definition QuinlanTremaine1990Order8 : Multistep := mkMultistep 8%nat [1; -2; 2; -1; 0]%Q
  [0; 17671; -23622; 61449; -50516] 12096.
(** integrators/methods.hpp:1030-1039. *)
Definition QuinlanTremaine1990Order10 : Multistep := mkMultistep 10%nat [1; -1; 1; -1; 1; -2]%Q
  [0; 399187; -485156; 2391436; -2816732; 4651330] 241920.
(** integrators/methods.hpp:1040-1055. *)
Definition QuinlanTremaine1990Order12 : Multistep := mkMultistep 12%nat [1; -2; 2; -1; 0; 0; 0]%Q
  [0; 90987349; -229596838; 812627169; -1628539944; 2714971338; -3041896548] 53222400.
(** integrators/methods.hpp:1056-1072. *)
Definition QuinlanTremaine1990Order14 : Multistep := mkMultistep 14%nat [1; -2; 2; -1; 0; 0; 0; 0]%Q
  [0; 433489274083; -1364031998256; 5583113380398; -14154444148720; 28630585332045; -42056933842656; 48471792742212]
    237758976000.
Definition explicit_methods : list Multistep :=
  [AdamsBashforthOrder2; AdamsBashforthOrder3; AdamsBashforthOrder4; AdamsBashforthOrder5; AdamsBashforthOrder6].
Definition symmetric_methods : list Multistep :=
  [Quinlan1999Order8A; Quinlan1999Order8B; QuinlanTremaine1990Order8; QuinlanTremaine1990Order10;
    QuinlanTremaine1990Order12; QuinlanTremaine1990Order14].
