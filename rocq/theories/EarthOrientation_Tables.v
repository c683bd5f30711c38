(** The tables of Earth orientation parameters. *)
From Coq Require Import ZArith List.
Import ListNotations.
Open Scope Z_scope.

(** astronomy/experimental_eop_c02.generated.h:1-703: UT1 as a modified Julian date, and UT1 - TAI in 10⁻⁷ s. *)
Definition experimental_eop_c02_data : list (Z * Z) := [
  (-10447, 258318430); (-10347, 259013740); (-10247, 259708540); (-10147, 260415300); (-10047, 261146580); (-9947, 261917030); (-9847, 262743220); (-9747, 263641800);
  (-9647, 264626340); (-9547, 265692370); (-9447, 266828940); (-9347, 268025000); (-9247, 269254940); (-9147, 270462960); (-9047, 271589540); (-8947, 272576440);
  (-8847, 273386980); (-8747, 274002120); (-8647, 274403350); (-8547, 274577060); (-8447, 274534210); (-8347, 274293360); (-8247, 273873310); (-8147, 273312190);
  (-8047, 272683150); (-7947, 272062980); (-7847, 271527160); (-7747, 271132760); (-7647, 270923630); (-7547, 270943370); (-7447, 271213900); (-7347, 271664180);
  (-7247, 272198190); (-7147, 272720470); (-7047, 273172110); (-6947, 273551940); (-6847, 273863870); (-6747, 274110420); (-6647, 274278280); (-6547, 274344160);
  (-6447, 274284660); (-6347, 274083740); (-6247, 273752800); (-6147, 273309570); (-6047, 272772670); (-5947, 272201450); (-5847, 271711640); (-5747, 271423080);
  (-5647, 271437410); (-5547, 271684650); (-5447, 272000470); (-5347, 272219550); (-5247, 272195320); (-5147, 271840860); (-5047, 271081120); (-4947, 269845100);
  (-4847, 268196600); (-4747, 266363030); (-4647, 264581620); (-4547, 263066960); (-4447, 261852950); (-4347, 260886920); (-4247, 260115660); (-4147, 259502070);
  (-4047, 259053360); (-3947, 258784290); (-3847, 258707120); (-3747, 258768840); (-3647, 258847030); (-3547, 258815880); (-3447, 258562240); (-3347, 258058990);
  (-3247, 257314840); (-3147, 256338760); (-3047, 255173270); (-2947, 253941070); (-2847, 252776530); (-2747, 251810400); (-2647, 251098480); (-2547, 250626650);
  (-2447, 250378080); (-2347, 250323750); (-2247, 250363590); (-2147, 250371940); (-2047, 250223410); (-1947, 249842200); (-1847, 249255470); (-1747, 248503150);
  (-1647, 247627110); (-1547, 246701360); (-1447, 245826190); (-1347, 245102680); (-1247, 244608490); (-1147, 244304280); (-1047, 244114260); (-947, 243962790);
  (-847, 243790780); (-747, 243569130); (-647, 243271850); (-547, 242873440); (-447, 242354500); (-347, 241700050); (-247, 240895200); (-147, 239952840);
  (-47, 239005280); (53, 238216890); (153, 237750570); (253, 237676460); (353, 237918020); (453, 238385830); (553, 238993610); (653, 239691010);
  (753, 240450250); (853, 241243920); (953, 242057510); (1053, 242924250); (1153, 243888450); (1253, 244993650); (1353, 246250250); (1453, 247622830);
  (1553, 249072580); (1653, 250559950); (1753, 252038380); (1853, 253457430); (1953, 254766640); (2053, 255954280); (2153, 257131970); (2253, 258435900);
  (2353, 260000250); (2453, 261892730); (2553, 264100330); (2653, 266605230); (2753, 269384550); (2853, 272375100); (2953, 275494410); (3053, 278659880);
  (3153, 281803800); (3253, 284899370); (3353, 287926790); (3453, 290866380); (3553, 293701590); (3653, 296419270); (3753, 299006390); (3853, 301464010);
  (3953, 303888920); (4053, 306417720); (4153, 309186910); (4253, 312249500); (4353, 315459360); (4453, 318641300); (4553, 321624650); (4653, 324331960);
  (4753, 326772780); (4853, 328960020); (4953, 330918980); (5053, 332747180); (5153, 334568200); (5253, 336505100); (5353, 338597300); (5453, 340710710);
  (5553, 342689660); (5653, 344386520); (5753, 345786090); (5853, 346981780); (5953, 348070180); (6053, 349137750); (6153, 350220410); (6253, 351338330);
  (6353, 352511660); (6453, 353761920); (6553, 355113010); (6653, 356589080); (6753, 358212880); (6853, 359987870); (6953, 361903670); (7053, 363949600);
  (7153, 366091310); (7253, 368192810); (7353, 370090810); (7453, 371623330); (7553, 372711820); (7653, 373409590); (7753, 373781580); (7853, 373893920);
  (7953, 373826160); (8053, 373666290); (8153, 373502410); (8253, 373403930); (8353, 373371090); (8453, 373388110); (8553, 373439360); (8653, 373515150);
  (8753, 373614010); (8853, 373735080); (8953, 373876740); (9053, 374030300); (9153, 374183220); (9253, 374322880); (9353, 374444310); (9453, 374566800);
  (9553, 374714500); (9653, 374910920); (9753, 375158970); (9853, 375436560); (9953, 375720100); (10053, 375983420); (10153, 376179830); (10253, 376252770);
  (10353, 376145670); (10453, 375839220); (10553, 375416650); (10653, 374978730); (10753, 374624790); (10853, 374418060); (10953, 374383340); (11053, 374543550);
  (11153, 374910890); (11253, 375424680); (11353, 375993870); (11453, 376527460); (11553, 376973130); (11653, 377370940); (11753, 377774400); (11853, 378235270);
  (11953, 378768690); (12053, 379355660); (12153, 379975850); (12253, 380601620); (12353, 381162850); (12453, 381574030); (12553, 381749990); (12653, 381653550);
  (12753, 381347170); (12853, 380905680); (12953, 380400910); (13053, 379855230); (13153, 379250440); (13253, 378567140); (13353, 377783650); (13453, 376866780);
  (13553, 375779820); (13653, 374486190); (13753, 372967730); (13853, 371239490); (13953, 369320030); (14053, 367229230); (14153, 365004990); (14253, 362698150);
  (14353, 360359850); (14453, 358024590); (14553, 355655420); (14653, 353196240); (14753, 350591320); (14853, 347811480); (14953, 344869450); (15053, 341781660);
  (15153, 338563090); (15253, 335212620); (15353, 331718970); (15453, 328070720); (15553, 324269180); (15653, 320362860); (15753, 316411150); (15853, 312472850);
  (15953, 308579940); (16053, 304727220); (16153, 300906820); (16253, 297111520); (16353, 293340710); (16453, 289597390); (16553, 285884600); (16653, 282210070);
  (16753, 278596420); (16853, 275069260); (16953, 271653540); (17053, 268352700); (17153, 265144050); (17253, 262003350); (17353, 258904140); (17453, 255802220);
  (17553, 252644900); (17653, 249379480); (17753, 245973250); (17853, 242448530); (17953, 238837040); (18053, 235170210); (18153, 231471530); (18253, 227756110);
  (18353, 224038600); (18453, 220330910); (18553, 216626020); (18653, 212909050); (18753, 209165110); (18853, 205392210); (18953, 201618980); (19053, 197878580);
  (19153, 194202720); (19253, 190594700); (19353, 187031180); (19453, 183487820); (19553, 179942570); (19653, 176386730); (19753, 172816440); (19853, 169227950);
  (19953, 165639420); (20053, 162114400); (20153, 158722090); (20253, 155527210); (20353, 152521290); (20453, 149635800); (20553, 146800470); (20653, 143957340);
  (20753, 141110120); (20853, 138281730); (20953, 135494940); (21053, 132756690); (21153, 130045370); (21253, 127336330); (21353, 124609800); (21453, 121911670);
  (21553, 119335030); (21653, 116974010); (21753, 114899260); (21853, 113080540); (21953, 111460500); (22053, 109981760); (22153, 108582960); (22253, 107196540);
  (22353, 105754380); (22453, 104195650); (22553, 102541360); (22653, 100864030); (22753, 99236986); (22853, 97715086); (22953, 96284949); (23053, 94917413);
  (23153, 93583909); (23253, 92282425); (23353, 91047691); (23453, 89917135); (23553, 88924480); (23653, 88068514); (23753, 87328821); (23853, 86684786);
  (23953, 86113530); (24053, 85584956); (24153, 85067532); (24253, 84530524); (24353, 83969902); (24453, 83414032); (24553, 82893225); (24653, 82435622);
  (24753, 82052003); (24853, 81744838); (24953, 81516540); (25053, 81369322); (25153, 81304839); (25253, 81324649); (25353, 81429912); (25453, 81611458);
  (25553, 81849126); (25653, 82122223); (25753, 82409482); (25853, 82685756); (25953, 82924279); (26053, 83098330); (26153, 83195661); (26253, 83238568);
  (26353, 83254389); (26453, 83269541); (26553, 83291659); (26653, 83310830); (26753, 83316466); (26853, 83299874); (26953, 83263371); (27053, 83213246);
  (27153, 83155831); (27253, 83103071); (27353, 83078555); (27453, 83107321); (27553, 83212975); (27653, 83395556); (27753, 83635781); (27853, 83913799);
  (27953, 84208035); (28053, 84488295); (28153, 84721700); (28253, 84875514); (28353, 84930366); (28453, 84891062); (28553, 84764954); (28653, 84559054);
  (28753, 84275819); (28853, 83914431); (28953, 83474001); (29053, 82953349); (29153, 82350055); (29253, 81661362); (29353, 80884559); (29453, 80019754);
  (29553, 79071506); (29653, 78044767); (29753, 76944658); (29853, 75778170); (29953, 74553476); (30053, 73278763); (30153, 71961690); (30253, 70607954);
  (30353, 69222795); (30453, 67811392); (30553, 66375993); (30653, 64914797); (30753, 63425706); (30853, 61906857); (30953, 60358613); (31053, 58782555);
  (31153, 57180283); (31253, 55558288); (31353, 53938659); (31453, 52346585); (31553, 50806883); (31653, 49331826); (31753, 47918471); (31853, 46562964);
  (31953, 45261697); (32053, 44013062); (32153, 42816406); (32253, 41671079); (32353, 40575059); (32453, 39522542); (32553, 38507078); (32653, 37521936);
  (32753, 36553191); (32853, 35579259); (32953, 34578182); (33053, 33531521); (33153, 32444752); (33253, 31333312); (33353, 30212646); (33453, 29091326);
  (33553, 27961514); (33653, 26812977); (33753, 25636554); (33853, 24444895); (33953, 23271035); (34053, 22148786); (34153, 21101390); (34253, 20090551);
  (34353, 19055769); (34453, 17936647); (34553, 16693330); (34653, 15328575); (34753, 13850437); (34853, 12271317); (34953, 10675223); (35053, 9204858);
  (35153, 8004653); (35253, 7179815); (35353, 6639551); (35453, 6231985); (35553, 5805739); (35653, 5258809); (35753, 4578475); (35853, 3761414);
  (35953, 2805660); (36053, 1727636); (36153, 556980); (36253, -676382); (36353, -1947347); (36453, -3251539); (36553, -4590149); (36653, -5963828);
  (36753, -7339026); (36853, -8628153); (36953, -9738845); (37053, -10597575); (37153, -11342481); (37253, -12244855); (37353, -13578056); (37453, -15461475);
  (37553, -17444981); (37653, -18946786); (37753, -19658427); (37853, -20604661); (37953, -21795637); (38053, -23149389); (38153, -24582656); (38253, -26052054);
  (38353, -27743564); (38453, -29697587); (38553, -31623288); (38653, -33439420); (38753, -35433463); (38853, -37621928); (38953, -39787178); (39053, -41966848);
  (39153, -44325408); (39253, -46759845); (39353, -49118813); (39453, -51526042); (39553, -54018845); (39653, -56413854); (39753, -58670898); (39853, -61061705);
  (39953, -63578793); (40053, -66023531); (40153, -68467644); (40253, -71092092); (40353, -73792593); (40453, -76391451); (40553, -79079184); (40653, -81939608);
  (40753, -84685016); (40853, -87243312); (40953, -89901773); (41053, -92701064); (41153, -95540948); (41253, -98498979); (41353, -101659210); (41453, -104840690);
  (41553, -107883520); (41653, -110965310); (41753, -114167880); (41853, -117258100); (41953, -120175440); (42053, -123076470); (42153, -125929640); (42253, -128619390);
  (42353, -131277520); (42453, -134058270); (42553, -136785560); (42653, -139365660); (42753, -142066870); (42853, -144964880); (42953, -147853130); (43053, -150690020);
  (43153, -153583150); (43253, -156431650); (43353, -159116730); (43453, -161892040); (43553, -164948090); (43653, -167939980); (43753, -170660670); (43853, -173431610);
  (43953, -176294140); (44053, -178961640); (44153, -181414720); (44253, -183874120); (44353, -186282980); (44453, -188515780); (44553, -190751200); (44653, -193110780);
  (44753, -195382880); (44853, -197424980); (44953, -199489970); (45053, -201672350); (45153, -203799010); (45253, -205922810); (45353, -208336680); (45453, -210846490);
  (45553, -213037030); (45653, -215001040); (45753, -216855760); (45853, -218473960); (45953, -219901650); (46053, -221397840); (46153, -222962670); (46253, -224390890);
  (46353, -225730480); (46453, -227154720); (46553, -228495820); (46653, -229654660); (46753, -230859100); (46853, -232226910); (46953, -233562550); (47053, -234815010);
  (47153, -236234410); (47253, -237747430); (47353, -239040590); (47453, -240207450); (47553, -241542730); (47653, -242982590); (47753, -244424360); (47853, -246059610);
  (47953, -247972500); (48053, -249898040); (48153, -251760820); (48253, -253781870); (48353, -255902980); (48453, -257883330); (48553, -259846140); (48653, -262065050);
  (48753, -264348660); (48853, -266445690); (48953, -268634080); (49053, -271071890); (49153, -273473380); (49253, -275717320); (49353, -278011600); (49453, -280315220);
  (49553, -282429820); (49653, -284557030); (49753, -286960370); (49853, -289382960); (49953, -291552100); (50053, -293673790); (50153, -295802300); (50253, -297727110);
  (50353, -299442710); (50453, -301237190); (50553, -303159970); (50653, -304993970); (50753, -306757060); (50853, -308565240); (50953, -310187510); (51053, -311403080);
  (51153, -312503160); (51253, -313622280); (51353, -314611560); (51453, -315494830); (51553, -316443530); (51653, -317327180); (51753, -318007710); (51853, -318640810);
  (51953, -319347160); (52053, -319968690); (52153, -320441020); (52253, -321014100); (52353, -321680250); (52453, -322168090); (52553, -322510640); (52653, -322957820);
  (52753, -323394460); (52853, -323612310); (52953, -323799550); (53053, -324141250); (53153, -324472550); (53253, -324685600); (53353, -325041920); (53453, -325582520);
  (53553, -325996710); (53653, -326299590); (53753, -326809490); (53853, -327530880); (53953, -328287300); (54053, -329163140); (54153, -330210410); (54253, -331160520);
  (54353, -331880790); (54453, -332653690); (54553, -333550460); (54653, -334378820); (54753, -335180300); (54853, -336095770); (54953, -337008730); (55053, -337773990);
  (55153, -338532330); (55253, -339430610); (55353, -340215630); (55453, -340753930); (55553, -341360460); (55653, -342116540); (55753, -342833750); (55853, -343548590);
  (55953, -344433810); (56053, -345323880); (56153, -346069420); (56253, -346914580); (56353, -348001300); (56453, -349054290); (56553, -349945800); (56653, -350939930);
  (56753, -352037560); (56853, -353005990); (56953, -353907670); (57053, -354985570); (57153, -356162300); (57253, -357337270); (57353, -358709750); (57453, -360287250);
  (57553, -361704190); (57653, -362866540); (57753, -364081470); (57853, -365332870); (57953, -366363590); (58053, -367215130); (58153, -368094710); (58253, -368883220);
  (58353, -369482430); (58453, -370141170); (58553, -370910670); (58653, -371446870); (58753, -371647240); (58853, -371872590); (58953, -372142950); (59053, -372099480);
  (59153, -371862230); (59253, -371742820); (59353, -371626120); (59453, -371351710); (59553, -371121080)].
(** astronomy/eop_c04.generated.h:1-22075: the date, and UT1 - UTC in 10⁻⁷ s.  In several lists, as a very long one is slow to parse. *)
Definition eop_c04_data_0 : list (Z * Z) := [
  (19620101, 326338); (19620102, 320547); (19620103, 315526); (19620104, 311435); (19620105, 308154); (19620106, 305353); (19620107, 302682); (19620108, 299280);
  (19620109, 294869); (19620110, 289268); (19620111, 282797); (19620112, 276136); (19620113, 270075); (19620114, 265403); (19620115, 262572); (19620116, 261751);
  (19620117, 262740); (19620118, 265299); (19620119, 268868); (19620120, 273077); (19620121, 277506); (19620122, 281834); (19620123, 285533); (19620124, 288522);
  (19620125, 290721); (19620126, 292210); (19620127, 293239); (19620128, 294068); (19620129, 294776); (19620130, 295585); (19620131, 296424); (19620201, 297323);
  (19620202, 298362); (19620203, 298791); (19620204, 298030); (19620205, 295339); (19620206, 290467); (19620207, 283596); (19620208, 275575); (19620209, 267354);
  (19620210, 259753); (19620211, 253542); (19620212, 249181); (19620213, 246570); (19620214, 245359); (19620215, 245467); (19620216, 246076); (19620217, 246695);
  (19620218, 247074); (19620219, 246873); (19620220, 246352); (19620221, 245041); (19620222, 243170); (19620223, 240879); (19620224, 238487); (19620225, 236096);
  (19620226, 234035); (19620227, 232364); (19620228, 231283); (19620301, 230452); (19620302, 229381); (19620303, 227770); (19620304, 224709); (19620305, 219628);
  (19620306, 212546); (19620307, 203775); (19620308, 194214); (19620309, 184953); (19620310, 176992); (19620311, 170871); (19620312, 166690); (19620313, 164149);
  (19620314, 162728); (19620315, 161857); (19620316, 161086); (19620317, 159894); (19620318, 157963); (19620319, 155242); (19620320, 151601); (19620321, 147350);
  (19620322, 142509); (19620323, 137668); (19620324, 132897); (19620325, 128686); (19620326, 125245); (19620327, 122734); (19620328, 120923); (19620329, 119371);
  (19620330, 117570); (19620331, 114859); (19620401, 110478); (19620402, 103997); (19620403, 95526); (19620404, 85585); (19620405, 75064); (19620406, 65313);
  (19620407, 57022); (19620408, 50701); (19620409, 46280); (19620410, 43199); (19620411, 40768); (19620412, 38687); (19620413, 36235); (19620414, 33174);
  (19620415, 29343); (19620416, 24602); (19620417, 19101); (19620418, 12930); (19620419, 6559); (19620420, 338); (19620421, -5283); (19620422, -10234);
  (19620423, -14155); (19620424, -17436); (19620425, -20127); (19620426, -22728); (19620427, -26029); (19620428, -30440); (19620429, -36681); (19620430, -44842);
  (19620501, -54853); (19620502, -65815); (19620503, -76706); (19620504, -86607); (19620505, -94528); (19620506, -100369); (19620507, -104360); (19620508, -107141);
  (19620509, -109342); (19620510, -111503); (19620511, -114064); (19620512, -117305); (19620513, -121366); (19620514, -126307); (19620515, -131878); (19620516, -138029);
  (19620517, -144260); (19620518, -150221); (19620519, -155522); (19620520, -159923); (19620521, -163584); (19620522, -166415); (19620523, -168846); (19620524, -171257);
  (19620525, -174358); (19620526, -178309); (19620527, -183450); (19620528, -189741); (19620529, -196522); (19620530, -202983); (19620531, -207934); (19620601, -210925);
  (19620602, -211636); (19620603, -210097); (19620604, -206698); (19620605, -201919); (19620606, -196530); (19620607, -191031); (19620608, -185932); (19620609, -181413);
  (19620610, -177694); (19620611, -174565); (19620612, -171687); (19620613, -168878); (19620614, -165709); (19620615, -162110); (19620616, -157641); (19620617, -152182);
  (19620618, -145923); (19620619, -139104); (19620620, -132284); (19620621, -126115); (19620622, -121126); (19620623, -117647); (19620624, -115558); (19620625, -114269);
  (19620626, -113290); (19620627, -111831); (19620628, -109102); (19620629, -104783); (19620630, -98784); (19620701, -91475); (19620702, -83366); (19620703, -74917);
  (19620704, -66738); (19620705, -59299); (19620706, -52700); (19620707, -46921); (19620708, -42052); (19620709, -37803); (19620710, -33884); (19620711, -29995);
  (19620712, -25956); (19620713, -21357); (19620714, -16268); (19620715, -10599); (19620716, -4580); (19620717, 1199); (19620718, 6178); (19620719, 9717);
  (19620720, 11216); (19620721, 10945); (19620722, 9414); (19620723, 7423); (19620724, 5942); (19620725, 5491); (19620726, 6690); (19620727, 9619);
  (19620728, 13938); (19620729, 19367); (19620730, 25156); (19620731, 30976); (19620801, 36315); (19620802, 40924); (19620803, 44943); (19620804, 48302);
  (19620805, 51201); (19620806, 53910); (19620807, 56829); (19620808, 60068); (19620809, 64237); (19620810, 69146); (19620811, 74805); (19620812, 81054);
  (19620813, 87413); (19620814, 93282); (19620815, 98031); (19620816, 100980); (19620817, 101939); (19620818, 101269); (19620819, 99918); (19620820, 98937);
  (19620821, 99086); (19620822, 100875); (19620823, 104634); (19620824, 109733); (19620825, 115962); (19620826, 122621); (19620827, 128930); (19620828, 134739);
  (19620829, 139448); (19620830, 143057); (19620831, 145486); (19620901, 147006); (19620902, 147765); (19620903, 147984); (19620904, 148003); (19620905, 148262);
  (19620906, 148711); (19620907, 149550); (19620908, 150359); (19620909, 151198); (19620910, 151477); (19620911, 150616); (19620912, 147995); (19620913, 143155);
  (19620914, 136304); (19620915, 127863); (19620916, 119142); (19620917, 111231); (19620918, 105470); (19620919, 101909); (19620920, 100638); (19620921, 101057);
  (19620922, 102506); (19620923, 104526); (19620924, 106375); (19620925, 107694); (19620926, 108313); (19620927, 108222); (19620928, 107561); (19620929, 106380);
  (19620930, 105179); (19621001, 104208); (19621002, 103578); (19621003, 103797); (19621004, 104526); (19621005, 105955); (19621006, 107504); (19621007, 108803);
  (19621008, 109162); (19621009, 107901); (19621010, 104390); (19621011, 98240); (19621012, 89789); (19621013, 79758); (19621014, 69227); (19621015, 59606);
  (19621016, 51615); (19621017, 45484); (19621018, 40923); (19621019, 37263); (19621020, 33892); (19621021, 30171); (19621022, 25740); (19621023, 20369);
  (19621024, 13878); (19621025, 6657); (19621026, -1163); (19621027, -9184); (19621028, -16875); (19621029, -24096); (19621030, -30377); (19621031, -35678);
  (19621101, -39819); (19621102, -42959); (19621103, -45610); (19621104, -48531); (19621105, -52152); (19621106, -57163); (19621107, -64094); (19621108, -72885);
  (19621109, -83195); (19621110, -94216); (19621111, -104707); (19621112, -113928); (19621113, -120979); (19621114, -126060); (19621115, -129420); (19621116, -131991);
  (19621117, -134262); (19621118, -136873); (19621119, -140154); (19621120, -144125); (19621121, -148935); (19621122, -154206); (19621123, -159767); (19621124, -165288);
  (19621125, -170549); (19621126, -175250); (19621127, -179400); (19621128, -182851); (19621129, -185552); (19621130, -188063); (19621201, -190924); (19621202, -194534);
  (19621203, -199685); (19621204, -206666); (19621205, -215587); (19621206, -226198); (19621207, -237879); (19621208, -249709); (19621209, -260530); (19621210, -269811);
  (19621211, -277082); (19621212, -282553); (19621213, -286823); (19621214, -290594); (19621215, -294355); (19621216, -298416); (19621217, -302847); (19621218, -307747);
  (19621219, -312948); (19621220, -318209); (19621221, -323200); (19621222, -327601); (19621223, -331041); (19621224, -333402); (19621225, -334703); (19621226, -334714);
  (19621227, -334015); (19621228, -332875); (19621229, -332046); (19621230, -332137); (19621231, -333558); (19630101, -336428); (19630102, -340579); (19630103, -345420);
  (19630104, -350281); (19630105, -354112); (19630106, -356652); (19630107, -357273); (19630108, -356134); (19630109, -353695); (19630110, -350606); (19630111, -347596);
  (19630112, -345147); (19630113, -343188); (19630114, -342049); (19630115, -341289); (19630116, -340870); (19630117, -340241); (19630118, -339292); (19630119, -337602);
  (19630120, -334983); (19630121, -331344); (19630122, -326715); (19630123, -321315); (19630124, -315836); (19630125, -310607); (19630126, -306498); (19630127, -304168);
  (19630128, -303759); (19630129, -305120); (19630130, -307591); (19630131, -310581); (19630201, -312982); (19630202, -314123); (19630203, -313674); (19630204, -311884);
  (19630205, -309185); (19630206, -305966); (19630207, -303107); (19630208, -300937); (19630209, -299778); (19630210, -299719); (19630211, -300740); (19630212, -302400);
  (19630213, -304481); (19630214, -306402); (19630215, -307833); (19630216, -308623); (19630217, -308654); (19630218, -307865); (19630219, -306435); (19630220, -304596);
  (19630221, -302987); (19630222, -302308); (19630223, -303458); (19630224, -306809); (19630225, -312550); (19630226, -319921); (19630227, -328001); (19630228, -335682);
  (19630301, -342123); (19630302, -346843); (19630303, -349754); (19630304, -351255); (19630305, -352105); (19630306, -352806); (19630307, -354047); (19630308, -356148);
  (19630309, -359358); (19630310, -363549); (19630311, -368600); (19630312, -373990); (19630313, -379541); (19630314, -384682); (19630315, -389203); (19630316, -392923);
  (19630317, -395624); (19630318, -397755); (19630319, -399425); (19630320, -401306); (19630321, -403817); (19630322, -407887); (19630323, -414078); (19630324, -422809);
  (19630325, -433859); (19630326, -446290); (19630327, -459171); (19630328, -471071); (19630329, -481232); (19630330, -489213); (19630331, -495393); (19630401, -500454);
  (19630402, -505165); (19630403, -510216); (19630404, -515886); (19630405, -522417); (19630406, -529938); (19630407, -538098); (19630408, -546689); (19630409, -555260);
  (19630410, -563430); (19630411, -570551); (19630412, -576562); (19630413, -581482); (19630414, -585503); (19630415, -588693); (19630416, -591674); (19630417, -594895);
  (19630418, -599115); (19630419, -605026); (19630420, -613057); (19630421, -623617); (19630422, -636078); (19630423, -649439); (19630424, -662489); (19630425, -673870);
  (19630426, -683111); (19630427, -690091); (19630428, -695462); (19630429, -699933); (19630430, -704373); (19630501, -709484); (19630502, -715484); (19630503, -722345);
  (19630504, -729956); (19630505, -738056); (19630506, -746317); (19630507, -754268); (19630508, -761538); (19630509, -767869); (19630510, -772980); (19630511, -776900);
  (19630512, -779841); (19630513, -782181); (19630514, -784452); (19630515, -787043); (19630516, -790763); (19630517, -795964); (19630518, -803114); (19630519, -812005);
  (19630520, -822016); (19630521, -831966); (19630522, -840877); (19630523, -847678); (19630524, -852088); (19630525, -854459); (19630526, -855379); (19630527, -855910);
  (19630528, -856641); (19630529, -858111); (19630530, -860342); (19630531, -863542); (19630601, -867393); (19630602, -871344); (19630603, -875334); (19630604, -878825);
  (19630605, -881715); (19630606, -883626); (19630607, -884607); (19630608, -884607); (19630609, -884068); (19630610, -883278); (19630611, -882929); (19630612, -883609);
  (19630613, -885710); (19630614, -889511); (19630615, -895061); (19630616, -901782); (19630617, -909072); (19630618, -915643); (19630619, -920744); (19630620, -923464);
  (19630621, -923955); (19630622, -922795); (19630623, -920676); (19630624, -918386); (19630625, -916687); (19630626, -915697); (19630627, -915368); (19630628, -915469);
  (19630629, -915749); (19630630, -916040); (19630701, -915660); (19630702, -914421); (19630703, -912021); (19630704, -908502); (19630705, -903763); (19630706, -898163);
  (19630707, -892174); (19630708, -886354); (19630709, -881165); (19630710, -877115); (19630711, -874696); (19630712, -873836); (19630713, -874147); (19630714, -875007);
  (19630715, -875668); (19630716, -875209); (19630717, -873119); (19630718, -869320); (19630719, -863910); (19630720, -857951); (19630721, -851931); (19630722, -846712);
  (19630723, -842552); (19630724, -839493); (19630725, -837293); (19630726, -835714); (19630727, -834244); (19630728, -832575); (19630729, -830275); (19630730, -827216);
  (19630731, -823326); (19630801, -818677); (19630802, -813597); (19630803, -808388); (19630804, -803899); (19630805, -800579); (19630806, -799060); (19630807, -799650);
  (19630808, -802481); (19630809, -807121); (19630810, -812692); (19630811, -818152); (19630812, -822733); (19630813, -825653); (19630814, -826734); (19630815, -826124);
  (19630816, -824515); (19630817, -822755); (19630818, -821456); (19630819, -821096); (19630820, -821727); (19630821, -823407); (19630822, -825678); (19630823, -828018);
  (19630824, -829969); (19630825, -831259); (19630826, -831589); (19630827, -830940); (19630828, -829470); (19630829, -827281); (19630830, -824741); (19630831, -822542);
  (19630901, -821102); (19630902, -821313); (19630903, -823643); (19630904, -828454); (19630905, -835494); (19630906, -844025); (19630907, -852925); (19630908, -861316);
  (19630909, -868106); (19630910, -873207); (19630911, -876547); (19630912, -878928); (19630913, -880828); (19630914, -883208); (19630915, -886519); (19630916, -891029);
  (19630917, -896800); (19630918, -903240); (19630919, -910221); (19630920, -917191); (19630921, -923592); (19630922, -929292); (19630923, -933983); (19630924, -937753);
  (19630925, -940573); (19630926, -942894); (19630927, -945064); (19630928, -947555); (19630929, -951135); (19630930, -956536); (19631001, -964166); (19631002, -974286);
  (19631003, -986217); (19631004, -999137); (19631005, -1011758); (19631006, -1022868); (19631007, -1032029); (19631008, -1039259); (19631009, -1045029); (19631010, -1050160);
  (19631011, -1055510); (19631012, -1061821); (19631013, -1069151); (19631014, -1077842); (19631015, -1087692); (19631016, -1098242); (19631017, -1109023); (19631018, -1119783);
  (19631019, -1130034); (19631020, -1139514); (19631021, -1148114); (19631022, -1156025); (19631023, -1163555); (19631024, -1171026); (19631025, -1178976); (19631026, -1188016);
  (19631027, -1198677); (19631028, -1211727); (19631029, -1227178); (19631030, -1244928); (19631031, -1264278); (19631101, -283989); (19631102, -302639); (19631103, -319240);
  (19631104, -333380); (19631105, -345060); (19631106, -355291); (19631107, -364491); (19631108, -373852); (19631109, -383712); (19631110, -394102); (19631111, -405053);
  (19631112, -415853); (19631113, -426483); (19631114, -436504); (19631115, -445514); (19631116, -453315); (19631117, -459845); (19631118, -465225); (19631119, -469556);
  (19631120, -473236); (19631121, -476876); (19631122, -481257); (19631123, -486767); (19631124, -493837); (19631125, -503038); (19631126, -514288); (19631127, -527349);
  (19631128, -541399); (19631129, -555209); (19631130, -567710); (19631201, -577960); (19631202, -586060); (19631203, -592481); (19631204, -598211); (19631205, -603961);
  (19631206, -610552); (19631207, -618072); (19631208, -626312); (19631209, -635223); (19631210, -644093); (19631211, -652793); (19631212, -660734); (19631213, -667804);
  (19631214, -673634); (19631215, -678385); (19631216, -682105); (19631217, -685125); (19631218, -688036); (19631219, -691306); (19631220, -695606); (19631221, -701457);
  (19631222, -709187); (19631223, -718907); (19631224, -730338); (19631225, -743018); (19631226, -756078); (19631227, -768409); (19631228, -779169); (19631229, -788089);
  (19631230, -795510); (19631231, -802090); (19640101, -808950); (19640102, -814970); (19640103, -822311); (19640104, -831141); (19640105, -840911); (19640106, -851432);
  (19640107, -862012); (19640108, -872232); (19640109, -881673); (19640110, -890143); (19640111, -897703); (19640112, -904373); (19640113, -910244); (19640114, -915864);
  (19640115, -921794); (19640116, -928335); (19640117, -936235); (19640118, -945765); (19640119, -956915); (19640120, -969546); (19640121, -982746); (19640122, -996026);
  (19640123, -1008537); (19640124, -1019747); (19640125, -1029107); (19640126, -1036897); (19640127, -1043468); (19640128, -1049688); (19640129, -1056518); (19640130, -1064438);
  (19640131, -1073469); (19640201, -1083319); (19640202, -1093689); (19640203, -1103889); (19640204, -1113300); (19640205, -1121430); (19640206, -1128330); (19640207, -1133821);
  (19640208, -1138031); (19640209, -1141221); (19640210, -1144031); (19640211, -1146882); (19640212, -1150302); (19640213, -1155012); (19640214, -1161382); (19640215, -1169723);
  (19640216, -1179833); (19640217, -1191013); (19640218, -1202503); (19640219, -1213283); (19640220, -1222494); (19640221, -1229914); (19640222, -1235574); (19640223, -1240044);
  (19640224, -1244015); (19640225, -1248365); (19640226, -1253895); (19640227, -1261035); (19640228, -1269686); (19640229, -1279386); (19640301, -1289826); (19640302, -1300096);
  (19640303, -1309776); (19640304, -1318447); (19640305, -1326027); (19640306, -1332687); (19640307, -1338477); (19640308, -1343797); (19640309, -1349278); (19640310, -1355318);
  (19640311, -1362758); (19640312, -1372108); (19640313, -1383539); (19640314, -1397269); (19640315, -1412529); (19640316, -1428499); (19640317, -1444069); (19640318, -1458150);
  (19640319, -1470260); (19640320, -1480150); (19640321, -1488250); (19640322, -1495470); (19640323, -1502670); (19640324, -1510631); (19640325, -1519811); (19640326, -1530271);
  (19640327, -1541911); (19640328, -1553901); (19640329, -1565912); (19640330, -1577242); (19640331, -1587572); (19640401, -596522); (19640402, -603972); (19640403, -610082);
  (19640404, -615333); (19640405, -620013); (19640406, -624723); (19640407, -630073); (19640408, -636583); (19640409, -644883); (19640410, -654834); (19640411, -666554);
  (19640412, -679434); (19640413, -692344); (19640414, -704174); (19640415, -713684); (19640416, -720945); (19640417, -726255); (19640418, -730595); (19640419, -734915);
  (19640420, -740445); (19640421, -747425); (19640422, -756115); (19640423, -766236); (19640424, -777546); (19640425, -789466); (19640426, -801326); (19640427, -812536);
  (19640428, -822866); (19640429, -831886); (19640430, -840067); (19640501, -847217); (19640502, -853997); (19640503, -860677); (19640504, -867937); (19640505, -875987);
  (19640506, -885637); (19640507, -897187); (19640508, -910728); (19640509, -925788); (19640510, -941398); (19640511, -956468); (19640512, -969818); (19640513, -980908);
  (19640514, -989608); (19640515, -996638); (19640516, -1002888); (19640517, -1009519); (19640518, -1017189); (19640519, -1026129); (19640520, -1036289); (19640521, -1047259);
  (19640522, -1058409); (19640523, -1069279); (19640524, -1079409); (19640525, -1088649); (19640526, -1096510); (19640527, -1103000); (19640528, -1108360); (19640529, -1112870);
  (19640530, -1117180); (19640531, -1121780); (19640601, -1127050); (19640602, -1133360); (19640603, -1141200); (19640604, -1150250); (19640605, -1160770); (19640606, -1172030);
  (19640607, -1183091); (19640608, -1192921); (19640609, -1200361); (19640610, -1204971); (19640611, -1207261); (19640612, -1207891); (19640613, -1207911); (19640614, -1207891);
  (19640615, -1208711); (19640616, -1210091); (19640617, -1211761); (19640618, -1213051); (19640619, -1213181); (19640620, -1212171); (19640621, -1209671); (19640622, -1205602);
  (19640623, -1200042); (19640624, -1193482); (19640625, -1186052); (19640626, -1178472); (19640627, -1171212); (19640628, -1164962); (19640629, -1160522); (19640630, -1157932);
  (19640701, -1157452); (19640702, -1158882); (19640703, -1161932); (19640704, -1165932); (19640705, -1169862); (19640706, -1172792); (19640707, -1173822); (19640708, -1173112);
  (19640709, -1170962); (19640710, -1168372); (19640711, -1166572); (19640712, -1165982); (19640713, -1166692); (19640714, -1168002); (19640715, -1169632); (19640716, -1170782);
  (19640717, -1171082); (19640718, -1170152); (19640719, -1167872); (19640720, -1164132); (19640721, -1159212); (19640722, -1153422); (19640723, -1147142); (19640724, -1141142);
  (19640725, -1135922); (19640726, -1132022); (19640727, -1129932); (19640728, -1129722); (19640729, -1131552); (19640730, -1134722); (19640731, -1138792); (19640801, -1142872);
  (19640802, -1146182); (19640803, -1148222); (19640804, -1148822); (19640805, -1148062); (19640806, -1146862); (19640807, -1146262); (19640808, -1147012); (19640809, -1149352);
  (19640810, -1153082); (19640811, -1157442); (19640812, -1161632); (19640813, -1164592); (19640814, -1165912); (19640815, -1165502); (19640816, -1163112); (19640817, -1159092);
  (19640818, -1153362); (19640819, -1146912); (19640820, -1140082); (19640821, -1133592); (19640822, -1128212); (19640823, -1124232); (19640824, -1122192); (19640825, -1121952);
  (19640826, -1123182); (19640827, -1125272); (19640828, -1127562); (19640829, -1129032); (19640830, -1129302); (19640831, -1128102); (19640901, -125822); (19640902, -123272);
  (19640903, -121311); (19640904, -120961); (19640905, -122791); (19640906, -126771); (19640907, -132621); (19640908, -139451); (19640909, -146311); (19640910, -152591);
  (19640911, -157851); (19640912, -162021); (19640913, -165091); (19640914, -167171); (19640915, -168921); (19640916, -170611); (19640917, -173061); (19640918, -176670);
  (19640919, -182070); (19640920, -189540); (19640921, -199200); (19640922, -210570); (19640923, -223070); (19640924, -235930); (19640925, -247860); (19640926, -258380)].
Definition eop_c04_data_1 : list (Z * Z) := [
  (19640927, -266910); (19640928, -273890); (19640929, -279910); (19640930, -286129); (19641001, -293259); (19641002, -302179); (19641003, -313049); (19641004, -325519);
  (19641005, -339059); (19641006, -352759); (19641007, -365909); (19641008, -377809); (19641009, -388148); (19641010, -396878); (19641011, -404238); (19641012, -410628);
  (19641013, -416518); (19641014, -422638); (19641015, -429518); (19641016, -437698); (19641017, -447638); (19641018, -459487); (19641019, -473327); (19641020, -488587);
  (19641021, -504287); (19641022, -519327); (19641023, -532767); (19641024, -543897); (19641025, -552857); (19641026, -560166); (19641027, -566896); (19641028, -574056);
  (19641029, -582396); (19641030, -592246); (19641031, -603496); (19641101, -615556); (19641102, -627935); (19641103, -639755); (19641104, -650495); (19641105, -659715);
  (19641106, -667365); (19641107, -673435); (19641108, -678354); (19641109, -682644); (19641110, -686794); (19641111, -691664); (19641112, -697714); (19641113, -705304);
  (19641114, -714754); (19641115, -726303); (19641116, -739643); (19641117, -754183); (19641118, -768933); (19641119, -782793); (19641120, -794823); (19641121, -804592);
  (19641122, -812552); (19641123, -819512); (19641124, -826602); (19641125, -834792); (19641126, -844241); (19641127, -855171); (19641128, -867131); (19641129, -879431);
  (19641130, -891491); (19641201, -902890); (19641202, -913000); (19641203, -921620); (19641204, -928860); (19641205, -934960); (19641206, -940450); (19641207, -945909);
  (19641208, -951639); (19641209, -958449); (19641210, -966589); (19641211, -976489); (19641212, -988298); (19641213, -1001768); (19641214, -1016528); (19641215, -1031778);
  (19641216, -1046567); (19641217, -1059807); (19641218, -1071047); (19641219, -1080067); (19641220, -1087547); (19641221, -1094586); (19641222, -1102166); (19641223, -1111156);
  (19641224, -1121516); (19641225, -1132755); (19641226, -1144035); (19641227, -1154655); (19641228, -1163875); (19641229, -1171475); (19641230, -1177154); (19641231, -1180924);
  (19650101, -182914); (19650102, -183784); (19650103, -183863); (19650104, -183853); (19650105, -184453); (19650106, -185953); (19650107, -188992); (19650108, -193612);
  (19650109, -199712); (19650110, -207022); (19650111, -215121); (19650112, -223351); (19650113, -230871); (19650114, -237181); (19650115, -241900); (19650116, -245600);
  (19650117, -249000); (19650118, -253480); (19650119, -259959); (19650120, -268909); (19650121, -279879); (19650122, -291979); (19650123, -304308); (19650124, -315958);
  (19650125, -326358); (19650126, -335277); (19650127, -342747); (19650128, -348777); (19650129, -353777); (19650130, -358156); (19650131, -362596); (19650201, -367716);
  (19650202, -373945); (19650203, -381685); (19650204, -391095); (19650205, -402085); (19650206, -414244); (19650207, -427104); (19650208, -439894); (19650209, -451773);
  (19650210, -462123); (19650211, -470813); (19650212, -477803); (19650213, -484012); (19650214, -490312); (19650215, -498002); (19650216, -507671); (19650217, -519431);
  (19650218, -532731); (19650219, -546330); (19650220, -559360); (19650221, -571010); (19650222, -580849); (19650223, -588909); (19650224, -595509); (19650225, -601048);
  (19650226, -605868); (19650227, -610888); (19650228, -616527); (19650301, 376433); (19650302, 367723); (19650303, 356874); (19650304, 344104); (19650305, 329514);
  (19650306, 313795); (19650307, 297815); (19650308, 282175); (19650309, 267726); (19650310, 254696); (19650311, 242976); (19650312, 232207); (19650313, 221317);
  (19650314, 209217); (19650315, 195248); (19650316, 179038); (19650317, 160898); (19650318, 141699); (19650319, 122479); (19650320, 104349); (19650321, 88120);
  (19650322, 73970); (19650323, 61800); (19650324, 51161); (19650325, 41591); (19650326, 32472); (19650327, 23042); (19650328, 12762); (19650329, 1023);
  (19650330, -12417); (19650331, -27807); (19650401, -44866); (19650402, -63096); (19650403, -81805); (19650404, -99845); (19650405, -116505); (19650406, -131304);
  (19650407, -144264); (19650408, -155804); (19650409, -166823); (19650410, -178463); (19650411, -191642); (19650412, -206682); (19650413, -223642); (19650414, -241851);
  (19650415, -260441); (19650416, -278150); (19650417, -294210); (19650418, -308010); (19650419, -319469); (19650420, -328599); (19650421, -335988); (19650422, -342368);
  (19650423, -348428); (19650424, -354807); (19650425, -361967); (19650426, -370416); (19650427, -380386); (19650428, -392056); (19650429, -404905); (19650430, -418505);
  (19650501, -431914); (19650502, -444254); (19650503, -454583); (19650504, -462993); (19650505, -469863); (19650506, -476062); (19650507, -482492); (19650508, -490281);
  (19650509, -500031); (19650510, -511680); (19650511, -524930); (19650512, -538880); (19650513, -552599); (19650514, -565209); (19650515, -576008); (19650516, -584948);
  (19650517, -591897); (19650518, -597347); (19650519, -601756); (19650520, -605786); (19650521, -610216); (19650522, -615535); (19650523, -622285); (19650524, -630724);
  (19650525, -640824); (19650526, -652523); (19650527, -665273); (19650528, -678442); (19650529, -691092); (19650530, -702101); (19650531, -711241); (19650601, -718310);
  (19650602, -724250); (19650603, -730170); (19650604, -736989); (19650605, -745709); (19650606, -756158); (19650607, -768118); (19650608, -780707); (19650609, -793327);
  (19650610, -804766); (19650611, -814536); (19650612, -822325); (19650613, -828165); (19650614, -832224); (19650615, -834994); (19650616, -837083); (19650617, -838973);
  (19650618, -841372); (19650619, -844552); (19650620, -848801); (19650621, -854301); (19650622, -860940); (19650623, -868200); (19650624, -875449); (19650625, -882219);
  (19650626, -887638); (19650627, -891028); (19650628, -892237); (19650629, -891617); (19650630, -890396); (19650701, 110014); (19650702, 108725); (19650703, 105275);
  (19650704, 99826); (19650705, 93256); (19650706, 86577); (19650707, 80827); (19650708, 76518); (19650709, 73838); (19650710, 72769); (19650711, 73239);
  (19650712, 74600); (19650713, 76361); (19650714, 77691); (19650715, 78272); (19650716, 77492); (19650717, 75123); (19650718, 71063); (19650719, 65524);
  (19650720, 58814); (19650721, 51495); (19650722, 44005); (19650723, 37236); (19650724, 32056); (19650725, 28677); (19650726, 26828); (19650727, 25858);
  (19650728, 24479); (19650729, 21489); (19650730, 16160); (19650731, 8660); (19650801, -339); (19650802, -9629); (19650803, -17938); (19650804, -24497);
  (19650805, -28827); (19650806, -31036); (19650807, -31326); (19650808, -30175); (19650809, -28295); (19650810, -26424); (19650811, -24963); (19650812, -24673);
  (19650813, -25922); (19650814, -28872); (19650815, -33421); (19650816, -39361); (19650817, -46290); (19650818, -53379); (19650819, -60289); (19650820, -66238);
  (19650821, -70838); (19650822, -74197); (19650823, -76836); (19650824, -79766); (19650825, -84205); (19650826, -91065); (19650827, -100834); (19650828, -112953);
  (19650829, -126313); (19650830, -139632); (19650831, -151632); (19650901, 838499); (19650902, 830830); (19650903, 825200); (19650904, 821081); (19650905, 817711);
  (19650906, 814612); (19650907, 811033); (19650908, 806473); (19650909, 800424); (19650910, 792655); (19650911, 783185); (19650912, 772386); (19650913, 760776);
  (19650914, 748817); (19650915, 737348); (19650916, 726898); (19650917, 717839); (19650918, 710200); (19650919, 703560); (19650920, 696981); (19650921, 689441);
  (19650922, 679642); (19650923, 667113); (19650924, 651853); (19650925, 634444); (19650926, 616365); (19650927, 598895); (19650928, 583086); (19650929, 569547);
  (19650930, 558227); (19651001, 548868); (19651002, 540599); (19651003, 532969); (19651004, 525050); (19651005, 516410); (19651006, 506461); (19651007, 495402);
  (19651008, 482652); (19651009, 468613); (19651010, 453584); (19651011, 438254); (19651012, 423415); (19651013, 409926); (19651014, 398136); (19651015, 388347);
  (19651016, 380008); (19651017, 372538); (19651018, 364769); (19651019, 355570); (19651020, 344151); (19651021, 330251); (19651022, 314102); (19651023, 296873);
  (19651024, 279653); (19651025, 263824); (19651026, 249995); (19651027, 238515); (19651028, 228936); (19651029, 220967); (19651030, 213677); (19651031, 206488);
  (19651101, 198489); (19651102, 189229); (19651103, 178330); (19651104, 165661); (19651105, 151192); (19651106, 135212); (19651107, 118283); (19651108, 101254);
  (19651109, 84944); (19651110, 70095); (19651111, 56856); (19651112, 45137); (19651113, 34517); (19651114, 23748); (19651115, 11839); (19651116, -2031);
  (19651117, -17960); (19651118, -35909); (19651119, -55008); (19651120, -74078); (19651121, -91917); (19651122, -107756); (19651123, -121046); (19651124, -132025);
  (19651125, -141004); (19651126, -148543); (19651127, -155513); (19651128, -162632); (19651129, -170511); (19651130, -179590); (19651201, -190180); (19651202, -202059);
  (19651203, -215118); (19651204, -228947); (19651205, -242847); (19651206, -255866); (19651207, -267505); (19651208, -277014); (19651209, -284294); (19651210, -290053);
  (19651211, -294892); (19651212, -300331); (19651213, -307331); (19651214, -316470); (19651215, -327549); (19651216, -339698); (19651217, -352168); (19651218, -363817);
  (19651219, -373936); (19651220, -382055); (19651221, -388525); (19651222, -393354); (19651223, -397103); (19651224, -400582); (19651225, -404491); (19651226, -409691);
  (19651227, -416350); (19651228, -424829); (19651229, -434948); (19651230, -446628); (19651231, -459337); (19660101, -472656); (19660102, -472975); (19660103, -472524);
  (19660104, -470674); (19660105, -466903); (19660106, -461732); (19660107, -455791); (19660108, -450500); (19660109, -446960); (19660110, -445859); (19660111, -447328);
  (19660112, -450377); (19660113, -453816); (19660114, -456636); (19660115, -457715); (19660116, -456584); (19660117, -453303); (19660118, -448272); (19660119, -441862);
  (19660120, -434841); (19660121, -427900); (19660122, -421799); (19660123, -416848); (19660124, -413557); (19660125, -411807); (19660126, -411616); (19660127, -412555);
  (19660128, -414214); (19660129, -416053); (19660130, -417583); (19660131, -418152); (19660201, -417281); (19660202, -414980); (19660203, -411809); (19660204, -408748);
  (19660205, -407128); (19660206, -407977); (19660207, -411746); (19660208, -417695); (19660209, -424654); (19660210, -431173); (19660211, -435872); (19660212, -438132);
  (19660213, -437631); (19660214, -434790); (19660215, -430219); (19660216, -424558); (19660217, -418527); (19660218, -412697); (19660219, -407526); (19660220, -403465);
  (19660221, -400874); (19660222, -399423); (19660223, -398872); (19660224, -398701); (19660225, -398430); (19660226, -397540); (19660227, -395519); (19660228, -392028);
  (19660301, -387397); (19660302, -381796); (19660303, -375985); (19660304, -371384); (19660305, -369144); (19660306, -370243); (19660307, -374522); (19660308, -380931);
  (19660309, -388050); (19660310, -394289); (19660311, -398578); (19660312, -400267); (19660313, -399596); (19660314, -397016); (19660315, -393305); (19660316, -389094);
  (19660317, -385313); (19660318, -382572); (19660319, -381291); (19660320, -381580); (19660321, -383499); (19660322, -386658); (19660323, -390578); (19660324, -394807);
  (19660325, -398586); (19660326, -401325); (19660327, -402724); (19660328, -402493); (19660329, -401132); (19660330, -399131); (19660331, -397550); (19660401, -397789);
  (19660402, -400538); (19660403, -406388); (19660404, -414887); (19660405, -424526); (19660406, -433985); (19660407, -441794); (19660408, -446923); (19660409, -449192);
  (19660410, -449321); (19660411, -447820); (19660412, -445679); (19660413, -443738); (19660414, -442667); (19660415, -443066); (19660416, -445095); (19660417, -448795);
  (19660418, -453774); (19660419, -459803); (19660420, -465982); (19660421, -471831); (19660422, -476450); (19660423, -479519); (19660424, -480748); (19660425, -480247);
  (19660426, -478666); (19660427, -477145); (19660428, -476714); (19660429, -478323); (19660430, -482652); (19660501, -489601); (19660502, -498270); (19660503, -507429);
  (19660504, -515498); (19660505, -521497); (19660506, -524656); (19660507, -525196); (19660508, -523545); (19660509, -520774); (19660510, -517613); (19660511, -514922);
  (19660512, -513161); (19660513, -512580); (19660514, -513469); (19660515, -515298); (19660516, -518027); (19660517, -521036); (19660518, -523685); (19660519, -525374);
  (19660520, -525193); (19660521, -523062); (19660522, -518941); (19660523, -513370); (19660524, -507399); (19660525, -502118); (19660526, -498537); (19660527, -497096);
  (19660528, -497915); (19660529, -500394); (19660530, -503433); (19660531, -505772); (19660601, -506241); (19660602, -504090); (19660603, -499289); (19660604, -491928);
  (19660605, -483057); (19660606, -473596); (19660607, -464365); (19660608, -456024); (19660609, -449083); (19660610, -443692); (19660611, -439771); (19660612, -436930);
  (19660613, -434809); (19660614, -433048); (19660615, -430717); (19660616, -427286); (19660617, -422175); (19660618, -415244); (19660619, -406833); (19660620, -397702);
  (19660621, -389001); (19660622, -381850); (19660623, -376959); (19660624, -374168); (19660625, -373057); (19660626, -372476); (19660627, -371385); (19660628, -368474);
  (19660629, -363342); (19660630, -355551); (19660701, -345360); (19660702, -333529); (19660703, -320668); (19660704, -307727); (19660705, -295406); (19660706, -284195);
  (19660707, -274204); (19660708, -265513); (19660709, -257662); (19660710, -250311); (19660711, -243130); (19660712, -235459); (19660713, -226818); (19660714, -216747);
  (19660715, -204966); (19660716, -191785); (19660717, -177544); (19660718, -163753); (19660719, -151391); (19660720, -141720); (19660721, -134869); (19660722, -130508);
  (19660723, -127287); (19660724, -123956); (19660725, -119185); (19660726, -112254); (19660727, -102953); (19660728, -91642); (19660729, -78951); (19660730, -65580);
  (19660731, -52469); (19660801, -40228); (19660802, -29396); (19660803, -20155); (19660804, -12634); (19660805, -6523); (19660806, -1492); (19660807, 2999);
  (19660808, 7500); (19660809, 12671); (19660810, 18832); (19660811, 26273); (19660812, 35114); (19660813, 44726); (19660814, 54427); (19660815, 62848);
  (19660816, 68869); (19660817, 71550); (19660818, 71321); (19660819, 69012); (19660820, 66223); (19660821, 64454); (19660822, 65045); (19660823, 68037);
  (19660824, 73488); (19660825, 80629); (19660826, 88770); (19660827, 97021); (19660828, 104632); (19660829, 111023); (19660830, 115844); (19660831, 119025);
  (19660901, 120817); (19660902, 121718); (19660903, 122069); (19660904, 122560); (19660905, 123691); (19660906, 125902); (19660907, 129573); (19660908, 134634);
  (19660909, 140816); (19660910, 147407); (19660911, 153248); (19660912, 157249); (19660913, 158170); (19660914, 155641); (19660915, 150322); (19660916, 143624);
  (19660917, 137245); (19660918, 132896); (19660919, 131367); (19660920, 132728); (19660921, 136489); (19660922, 141560); (19660923, 146932); (19660924, 151833);
  (19660925, 155424); (19660926, 157395); (19660927, 157596); (19660928, 156147); (19660929, 153358); (19660930, 149770); (19661001, 146071); (19661002, 142732);
  (19661003, 140553); (19661004, 139804); (19661005, 140735); (19661006, 143007); (19661007, 146348); (19661008, 149629); (19661009, 151630); (19661010, 151421);
  (19661011, 148102); (19661012, 141914); (19661013, 133595); (19661014, 124636); (19661015, 117037); (19661016, 111848); (19661017, 109669); (19661018, 110311);
  (19661019, 112912); (19661020, 116353); (19661021, 119634); (19661022, 121855); (19661023, 122647); (19661024, 121778); (19661025, 119309); (19661026, 115490);
  (19661027, 110981); (19661028, 106082); (19661029, 101634); (19661030, 98245); (19661031, 96156); (19661101, 95847); (19661102, 96948); (19661103, 98940);
  (19661104, 100971); (19661105, 102112); (19661106, 101233); (19661107, 97554); (19661108, 90946); (19661109, 81907); (19661110, 71708); (19661111, 61959);
  (19661112, 54160); (19661113, 49182); (19661114, 47423); (19661115, 48194); (19661116, 50695); (19661117, 53697); (19661118, 56108); (19661119, 57589);
  (19661120, 57660); (19661121, 56201); (19661122, 53613); (19661123, 50224); (19661124, 46755); (19661125, 43626); (19661126, 41728); (19661127, 41389);
  (19661128, 42790); (19661129, 46021); (19661130, 50662); (19661201, 56014); (19661202, 60735); (19661203, 63906); (19661204, 64877); (19661205, 63069);
  (19661206, 58930); (19661207, 53481); (19661208, 47822); (19661209, 43324); (19661210, 41055); (19661211, 41146); (19661212, 43667); (19661213, 47919);
  (19661214, 52840); (19661215, 57531); (19661216, 61162); (19661217, 63514); (19661218, 64495); (19661219, 64306); (19661220, 63297); (19661221, 62199);
  (19661222, 61480); (19661223, 61711); (19661224, 63502); (19661225, 67094); (19661226, 72815); (19661227, 80286); (19661228, 88837); (19661229, 97229);
  (19661230, 104540); (19661231, 109891); (19670101, 112652); (19670102, 113344); (19670103, 112605); (19670104, 111796); (19670105, 112018); (19670106, 114269);
  (19670107, 119130); (19670108, 126181); (19670109, 135003); (19670110, 144434); (19670111, 153395); (19670112, 161347); (19670113, 167578); (19670114, 172009);
  (19670115, 174460); (19670116, 175692); (19670117, 176013); (19670118, 176204); (19670119, 176636); (19670120, 177997); (19670121, 180558); (19670122, 184559);
  (19670123, 189891); (19670124, 196032); (19670125, 202063); (19670126, 206895); (19670127, 209326); (19670128, 208927); (19670129, 205849); (19670130, 201230);
  (19670131, 196301); (19670201, 192562); (19670202, 191154); (19670203, 192405); (19670204, 196636); (19670205, 202818); (19670206, 210029); (19670207, 217270);
  (19670208, 223682); (19670209, 228463); (19670210, 231324); (19670211, 232316); (19670212, 231837); (19670213, 230288); (19670214, 227979); (19670215, 225831);
  (19670216, 224442); (19670217, 224013); (19670218, 224905); (19670219, 226776); (19670220, 229637); (19670221, 232769); (19670222, 234940); (19670223, 235131);
  (19670224, 232553); (19670225, 226624); (19670226, 218165); (19670227, 208627); (19670228, 199778); (19670301, 193259); (19670302, 189841); (19670303, 189602);
  (19670304, 191813); (19670305, 195705); (19670306, 199986); (19670307, 203937); (19670308, 206579); (19670309, 207760); (19670310, 207311); (19670311, 205373);
  (19670312, 202394); (19670313, 199176); (19670314, 196167); (19670315, 194168); (19670316, 193490); (19670317, 194281); (19670318, 196702); (19670319, 200284);
  (19670320, 204425); (19670321, 208286); (19670322, 210608); (19670323, 210219); (19670324, 206420); (19670325, 199192); (19670326, 189683); (19670327, 179635);
  (19670328, 170916); (19670329, 164847); (19670330, 162039); (19670331, 162100); (19670401, 163951); (19670402, 166503); (19670403, 168674); (19670404, 169686);
  (19670405, 169107); (19670406, 166918); (19670407, 163290); (19670408, 158391); (19670409, 152872); (19670410, 147294); (19670411, 142475); (19670412, 138737);
  (19670413, 136568); (19670414, 135919); (19670415, 136671); (19670416, 138372); (19670417, 140253); (19670418, 141185); (19670419, 140186); (19670420, 136268);
  (19670421, 129169); (19670422, 119290); (19670423, 108062); (19670424, 97313); (19670425, 88865); (19670426, 83586); (19670427, 81687); (19670428, 82329);
  (19670429, 84380); (19670430, 86512); (19670501, 87763); (19670502, 87594); (19670503, 85926); (19670504, 82677); (19670505, 78299); (19670506, 73290);
  (19670507, 68251); (19670508, 64013); (19670509, 61024); (19670510, 59776); (19670511, 60287); (19670512, 62508); (19670513, 66050); (19670514, 70091);
  (19670515, 73803); (19670516, 76204); (19670517, 76336); (19670518, 73847); (19670519, 68778); (19670520, 61990); (19670521, 55031); (19670522, 49483);
  (19670523, 46704); (19670524, 47366); (19670525, 51067); (19670526, 56878); (19670527, 63420); (19670528, 69661); (19670529, 74843); (19670530, 78694);
  (19670531, 81396); (19670601, 83067); (19670602, 84418); (19670603, 85920); (19670604, 88381); (19670605, 92173); (19670606, 97704); (19670607, 105176);
  (19670608, 114637); (19670609, 125788); (19670610, 137630); (19670611, 149241); (19670612, 159743); (19670613, 168124); (19670614, 173946); (19670615, 177177);
  (19670616, 178589); (19670617, 179350); (19670618, 180801); (19670619, 184023); (19670620, 190024); (19670621, 198826); (19670622, 209847); (19670623, 221829)].
Definition eop_c04_data_2 : list (Z * Z) := [
  (19670624, 233530); (19670625, 244242); (19670626, 253283); (19670627, 260845); (19670628, 267126); (19670629, 272747); (19670630, 278189); (19670701, 284190);
  (19670702, 291102); (19670703, 299563); (19670704, 309615); (19670705, 321476); (19670706, 334668); (19670707, 348669); (19670708, 362591); (19670709, 375292);
  (19670710, 385834); (19670711, 393875); (19670712, 399287); (19670713, 402848); (19670714, 405710); (19670715, 409341); (19670716, 414762); (19670717, 422844);
  (19670718, 433655); (19670719, 446877); (19670720, 461338); (19670721, 475860); (19670722, 489411); (19670723, 501343); (19670724, 511484); (19670725, 520056);
  (19670726, 527447); (19670727, 534299); (19670728, 541260); (19670729, 548942); (19670730, 557813); (19670731, 568035); (19670801, 579866); (19670802, 592808);
  (19670803, 606479); (19670804, 620181); (19670805, 632762); (19670806, 643164); (19670807, 650685); (19670808, 655047); (19670809, 656938); (19670810, 657510);
  (19670811, 658381); (19670812, 660863); (19670813, 665814); (19670814, 673546); (19670815, 683577); (19670816, 694859); (19670817, 706470); (19670818, 717242);
  (19670819, 726433); (19670820, 733815); (19670821, 739366); (19670822, 743608); (19670823, 747189); (19670824, 750691); (19670825, 754882); (19670826, 760304);
  (19670827, 767155); (19670828, 775657); (19670829, 785638); (19670830, 796720); (19670831, 808221); (19670901, 819303); (19670902, 828874); (19670903, 835826);
  (19670904, 839707); (19670905, 840619); (19670906, 839531); (19670907, 838422); (19670908, 838804); (19670909, 841855); (19670910, 847917); (19670911, 856698);
  (19670912, 867040); (19670913, 877701); (19670914, 887763); (19670915, 896104); (19670916, 902486); (19670917, 906497); (19670918, 908849); (19670919, 910000);
  (19670920, 910662); (19670921, 911623); (19670922, 913385); (19670923, 916567); (19670924, 921248); (19670925, 927310); (19670926, 934601); (19670927, 942563);
  (19670928, 950264); (19670929, 956836); (19670930, 961217); (19671001, 962479); (19671002, 960670); (19671003, 956192); (19671004, 950464); (19671005, 945255);
  (19671006, 942277); (19671007, 942608); (19671008, 946140); (19671009, 952001); (19671010, 958803); (19671011, 965224); (19671012, 970296); (19671013, 973408);
  (19671014, 974549); (19671015, 973971); (19671016, 972062); (19671017, 969464); (19671018, 966865); (19671019, 965007); (19671020, 964388); (19671021, 965260);
  (19671022, 967612); (19671023, 971153); (19671024, 975345); (19671025, 979766); (19671026, 983228); (19671027, 985189); (19671028, 984491); (19671029, 980793);
  (19671030, 974114); (19671031, 965386); (19671101, 956507); (19671102, 948999); (19671103, 944430); (19671104, 943142); (19671105, 944794); (19671106, 947995);
  (19671107, 951517); (19671108, 954048); (19671109, 954870); (19671110, 953931); (19671111, 951223); (19671112, 947435); (19671113, 943146); (19671114, 939008);
  (19671115, 935659); (19671116, 933821); (19671117, 933622); (19671118, 935234); (19671119, 938556); (19671120, 943107); (19671121, 948189); (19671122, 952970);
  (19671123, 956492); (19671124, 958164); (19671125, 957125); (19671126, 953597); (19671127, 947898); (19671128, 941180); (19671129, 934922); (19671130, 930673);
  (19671201, 929415); (19671202, 931206); (19671203, 935128); (19671204, 939810); (19671205, 943771); (19671206, 946043); (19671207, 946154); (19671208, 944476);
  (19671209, 941488); (19671210, 937729); (19671211, 933641); (19671212, 930262); (19671213, 927994); (19671214, 927206); (19671215, 928127); (19671216, 930519);
  (19671217, 934290); (19671218, 938572); (19671219, 942744); (19671220, 945935); (19671221, 947477); (19671222, 946838); (19671223, 943850); (19671224, 939012);
  (19671225, 933153); (19671226, 927645); (19671227, 923866); (19671228, 922758); (19671229, 924700); (19671230, 929241); (19671231, 935273); (19680101, 941515);
  (19680102, 946476); (19680103, 949628); (19680104, 950949); (19680105, 950691); (19680106, 949553); (19680107, 948464); (19680108, 947816); (19680109, 948348);
  (19680110, 950239); (19680111, 953661); (19680112, 958722); (19680113, 964974); (19680114, 971836); (19680115, 978607); (19680116, 984259); (19680117, 987931);
  (19680118, 989212); (19680119, 987694); (19680120, 984085); (19680121, 979227); (19680122, 974289); (19680123, 970530); (19680124, 968972); (19680125, 970014);
  (19680126, 973405); (19680127, 978167); (19680128, 983108); (19680129, 986910); (19680130, 988772); (19680131, 988233); (19680201, -14225); (19680202, -18033);
  (19680203, -22262); (19680204, -26420); (19680205, -29578); (19680206, -31467); (19680207, -31575); (19680208, -30163); (19680209, -27592); (19680210, -24110);
  (19680211, -20569); (19680212, -17757); (19680213, -16645); (19680214, -17924); (19680215, -21962); (19680216, -28470); (19680217, -36529); (19680218, -44537);
  (19680219, -50915); (19680220, -54834); (19680221, -55592); (19680222, -53390); (19680223, -49259); (19680224, -44087); (19680225, -39445); (19680226, -36184);
  (19680227, -34892); (19680228, -35430); (19680229, -37469); (19680301, -40207); (19680302, -42696); (19680303, -44264); (19680304, -44352); (19680305, -42841);
  (19680306, -39489); (19680307, -34637); (19680308, -28656); (19680309, -22314); (19680310, -16472); (19680311, -12061); (19680312, -9909); (19680313, -10667);
  (19680314, -14516); (19680315, -20604); (19680316, -27572); (19680317, -33931); (19680318, -37979); (19680319, -39067); (19680320, -36916); (19680321, -32494);
  (19680322, -27042); (19680323, -21971); (19680324, -18229); (19680325, -16397); (19680326, -16676); (19680327, -18824); (19680328, -22052); (19680329, -25841);
  (19680330, -29299); (19680331, -31747); (19680401, -32865); (19680402, -32504); (19680403, -30822); (19680404, -28610); (19680405, -26099); (19680406, -24157);
  (19680407, -23445); (19680408, -25064); (19680409, -29812); (19680410, -37900); (19680411, -48909); (19680412, -62057); (19680413, -75355); (19680414, -87034);
  (19680415, -95752); (19680416, -101060); (19680417, -103409); (19680418, -103977); (19680419, -104135); (19680420, -105074); (19680421, -107502); (19680422, -111580);
  (19680423, -117028); (19680424, -123257); (19680425, -129435); (19680426, -134983); (19680427, -139132); (19680428, -141370); (19680429, -141558); (19680430, -139667);
  (19680501, -136115); (19680502, -131363); (19680503, -126342); (19680504, -121850); (19680505, -118608); (19680506, -117456); (19680507, -118935); (19680508, -123163);
  (19680509, -129491); (19680510, -136920); (19680511, -143798); (19680512, -148336); (19680513, -149765); (19680514, -147993); (19680515, -144191); (19680516, -139539);
  (19680517, -135778); (19680518, -133726); (19680519, -133794); (19680520, -135613); (19680521, -138671); (19680522, -142019); (19680523, -145128); (19680524, -147136);
  (19680525, -147744); (19680526, -146472); (19680527, -143371); (19680528, -138719); (19680529, -133027); (19680530, -126886); (19680531, -121074); (19680601, -116382);
  (19680602, -113490); (19680603, -112679); (19680604, -114247); (19680605, -117895); (19680606, -122824); (19680607, -127712); (19680608, -130850); (19680609, -131259);
  (19680610, -128247); (19680611, -122455); (19680612, -115133); (19680613, -107832); (19680614, -101800); (19680615, -97428); (19680616, -94657); (19680617, -92765);
  (19680618, -90803); (19680619, -87931); (19680620, -83790); (19680621, -77568); (19680622, -69256); (19680623, -58404); (19680624, -45613); (19680625, -31241);
  (19680626, -16039); (19680627, -808); (19680628, 13544); (19680629, 26326); (19680630, 36958); (19680701, 45179); (19680702, 51271); (19680703, 55513);
  (19680704, 59264); (19680705, 63796); (19680706, 70058); (19680707, 78710); (19680708, 89611); (19680709, 101843); (19680710, 114085); (19680711, 124797);
  (19680712, 133158); (19680713, 138810); (19680714, 142552); (19680715, 145203); (19680716, 147735); (19680717, 151087); (19680718, 155949); (19680719, 162550);
  (19680720, 171062); (19680721, 181214); (19680722, 192716); (19680723, 205017); (19680724, 217359); (19680725, 228701); (19680726, 238362); (19680727, 245664);
  (19680728, 250416); (19680729, 252848); (19680730, 253689); (19680731, 253821); (19680801, 254523); (19680802, 256595); (19680803, 260886); (19680804, 267398);
  (19680805, 275450); (19680806, 283722); (19680807, 290713); (19680808, 295375); (19680809, 297417); (19680810, 296949); (19680811, 294870); (19680812, 292232);
  (19680813, 290154); (19680814, 289505); (19680815, 290727); (19680816, 294079); (19680817, 299611); (19680818, 306762); (19680819, 315034); (19680820, 323686);
  (19680821, 331888); (19680822, 339089); (19680823, 344211); (19680824, 346953); (19680825, 347405); (19680826, 346006); (19680827, 343998); (19680828, 342630);
  (19680829, 343132); (19680830, 346233); (19680831, 351925); (19680901, 359377); (19680902, 367779); (19680903, 375590); (19680904, 381532); (19680905, 385064);
  (19680906, 385926); (19680907, 384677); (19680908, 382349); (19680909, 379941); (19680910, 378483); (19680911, 378504); (19680912, 380306); (19680913, 383948);
  (19680914, 389090); (19680915, 395181); (19680916, 401613); (19680917, 407385); (19680918, 411947); (19680919, 414458); (19680920, 414340); (19680921, 411522);
  (19680922, 406274); (19680923, 399685); (19680924, 393177); (19680925, 388259); (19680926, 386081); (19680927, 386992); (19680928, 390384); (19680929, 395126);
  (19680930, 399848); (19681001, 403399); (19681002, 404981); (19681003, 404273); (19681004, 401595); (19681005, 397826); (19681006, 393958); (19681007, 390960);
  (19681008, 389392); (19681009, 389814); (19681010, 392125); (19681011, 396297); (19681012, 401649); (19681013, 407501); (19681014, 413162); (19681015, 417744);
  (19681016, 420386); (19681017, 420568); (19681018, 417899); (19681019, 412451); (19681020, 404953); (19681021, 396525); (19681022, 388836); (19681023, 383288);
  (19681024, 380690); (19681025, 380882); (19681026, 382883); (19681027, 385425); (19681028, 386927); (19681029, 386629); (19681030, 384110); (19681031, 379732);
  (19681101, 374284); (19681102, 368446); (19681103, 363128); (19681104, 359079); (19681105, 356931); (19681106, 356823); (19681107, 358535); (19681108, 361676);
  (19681109, 365838); (19681110, 369760); (19681111, 373162); (19681112, 375123); (19681113, 375045); (19681114, 372597); (19681115, 367649); (19681116, 360521);
  (19681117, 352052); (19681118, 343574); (19681119, 336656); (19681120, 332448); (19681121, 331229); (19681122, 332601); (19681123, 334993); (19681124, 336955);
  (19681125, 337256); (19681126, 335478); (19681127, 331730); (19681128, 326722); (19681129, 321494); (19681130, 316815); (19681201, 313547); (19681202, 312179);
  (19681203, 312861); (19681204, 315562); (19681205, 319994); (19681206, 325686); (19681207, 331848); (19681208, 337679); (19681209, 342271); (19681210, 345243);
  (19681211, 346085); (19681212, 344687); (19681213, 341198); (19681214, 336230); (19681215, 330542); (19681216, 325624); (19681217, 322675); (19681218, 322407);
  (19681219, 324689); (19681220, 328601); (19681221, 332503); (19681222, 334924); (19681223, 335086); (19681224, 333038); (19681225, 329360); (19681226, 325241);
  (19681227, 321613); (19681228, 319345); (19681229, 318957); (19681230, 320869); (19681231, 324860); (19690101, 330652); (19690102, 337654); (19690103, 345286);
  (19690104, 352557); (19690105, 358829); (19690106, 363471); (19690107, 366083); (19690108, 366545); (19690109, 365046); (19690110, 362138); (19690111, 358550);
  (19690112, 355522); (19690113, 353953); (19690114, 354795); (19690115, 358107); (19690116, 363129); (19690117, 368781); (19690118, 373302); (19690119, 375574);
  (19690120, 375016); (19690121, 372178); (19690122, 368009); (19690123, 363871); (19690124, 360863); (19690125, 359505); (19690126, 360327); (19690127, 362998);
  (19690128, 367350); (19690129, 372782); (19690130, 378744); (19690131, 384355); (19690201, 388817); (19690202, 391549); (19690203, 391941); (19690204, 389713);
  (19690205, 385214); (19690206, 379026); (19690207, 371818); (19690208, 364750); (19690209, 358831); (19690210, 355013); (19690211, 353405); (19690212, 353697);
  (19690213, 354809); (19690214, 355420); (19690215, 354172); (19690216, 350214); (19690217, 343646); (19690218, 335457); (19690219, 326709); (19690220, 318621);
  (19690221, 312303); (19690222, 308025); (19690223, 306086); (19690224, 306078); (19690225, 307700); (19690226, 310112); (19690227, 312624); (19690228, 314235);
  (19690301, 314387); (19690302, 312389); (19690303, 307881); (19690304, 300982); (19690305, 291974); (19690306, 281916); (19690307, 271978); (19690308, 263220);
  (19690309, 256601); (19690310, 252343); (19690311, 250295); (19690312, 249317); (19690313, 248188); (19690314, 245570); (19690315, 240482); (19690316, 232564);
  (19690317, 222216); (19690318, 210377); (19690319, 198639); (19690320, 187901); (19690321, 179083); (19690322, 172655); (19690323, 168526); (19690324, 166198);
  (19690325, 165130); (19690326, 164552); (19690327, 163663); (19690328, 161695); (19690329, 157977); (19690330, 151939); (19690331, 143611); (19690401, 133142);
  (19690402, 121214); (19690403, 109066); (19690404, 97898); (19690405, 88929); (19690406, 82751); (19690407, 79103); (19690408, 77205); (19690409, 75757);
  (19690410, 73298); (19690411, 68910); (19690412, 62012); (19690413, 52784); (19690414, 42096); (19690415, 30927); (19690416, 20569); (19690417, 11851);
  (19690418, 5353); (19690419, 1184); (19690420, -834); (19690421, -1252); (19690422, -800); (19690423, -198); (19690424, -197); (19690425, -1495);
  (19690426, -4573); (19690427, -9631); (19690428, -16630); (19690429, -25048); (19690430, -33986); (19690501, -42414); (19690502, -49052); (19690503, -52861);
  (19690504, -53629); (19690505, -52117); (19690506, -49615); (19690507, -47684); (19690508, -47392); (19690509, -49400); (19690510, -53588); (19690511, -59266);
  (19690512, -65535); (19690513, -71243); (19690514, -75461); (19690515, -77799); (19690516, -77897); (19690517, -75996); (19690518, -72444); (19690519, -68122);
  (19690520, -63710); (19690521, -59979); (19690522, -57627); (19690523, -57145); (19690524, -58833); (19690525, -62751); (19690526, -68650); (19690527, -75708);
  (19690528, -83146); (19690529, -89654); (19690530, -94123); (19690531, -95871); (19690601, -95029); (19690602, -92787); (19690603, -90475); (19690604, -89704);
  (19690605, -91022); (19690606, -94500); (19690607, -99348); (19690608, -104367); (19690609, -108535); (19690610, -110953); (19690611, -110921); (19690612, -108199);
  (19690613, -102878); (19690614, -95226); (19690615, -86144); (19690616, -76172); (19690617, -66121); (19690618, -56759); (19690619, -48657); (19690620, -42095);
  (19690621, -37223); (19690622, -33922); (19690623, -31430); (19690624, -29388); (19690625, -26776); (19690626, -22465); (19690627, -15993); (19690628, -7121);
  (19690629, 3361); (19690630, 14083); (19690701, 23554); (19690702, 30456); (19690703, 34328); (19690704, 35950); (19690705, 36281); (19690706, 36773);
  (19690707, 38465); (19690708, 41927); (19690709, 47519); (19690710, 55220); (19690711, 64662); (19690712, 75264); (19690713, 86426); (19690714, 97257);
  (19690715, 107009); (19690716, 115221); (19690717, 121533); (19690718, 125964); (19690719, 128546); (19690720, 129968); (19690721, 130920); (19690722, 132162);
  (19690723, 134713); (19690724, 139305); (19690725, 146347); (19690726, 155289); (19690727, 165250); (19690728, 174722); (19690729, 182154); (19690730, 186826);
  (19690731, 188738); (19690801, 189029); (19690802, 189291); (19690803, 190753); (19690804, 194425); (19690805, 200646); (19690806, 209538); (19690807, 220510);
  (19690808, 232952); (19690809, 246133); (19690810, 259165); (19690811, 271307); (19690812, 281809); (19690813, 290221); (19690814, 296422); (19690815, 300554);
  (19690816, 303016); (19690817, 304538); (19690818, 305899); (19690819, 308211); (19690820, 312063); (19690821, 317695); (19690822, 324906); (19690823, 333058);
  (19690824, 340660); (19690825, 346352); (19690826, 348893); (19690827, 348255); (19690828, 344697); (19690829, 339649); (19690830, 334691); (19690831, 331092);
  (19690901, 329654); (19690902, 330646); (19690903, 333748); (19690904, 338229); (19690905, 343521); (19690906, 348713); (19690907, 352905); (19690908, 355736);
  (19690909, 356458); (19690910, 354930); (19690911, 351302); (19690912, 345853); (19690913, 339295); (19690914, 332677); (19690915, 327089); (19690916, 323140);
  (19690917, 321472); (19690918, 321834); (19690919, 323606); (19690920, 325637); (19690921, 326549); (19690922, 325171); (19690923, 320963); (19690924, 313985);
  (19690925, 305146); (19690926, 296098); (19690927, 288220); (19690928, 282432); (19690929, 279473); (19690930, 279155); (19691001, 280947); (19691002, 284099);
  (19691003, 287640); (19691004, 290762); (19691005, 292714); (19691006, 292936); (19691007, 290877); (19691008, 286749); (19691009, 280601); (19691010, 272993);
  (19691011, 264804); (19691012, 257166); (19691013, 251078); (19691014, 247100); (19691015, 245291); (19691016, 245123); (19691017, 245385); (19691018, 244927);
  (19691019, 242448); (19691020, 237250); (19691021, 229482); (19691022, 219574); (19691023, 208965); (19691024, 198817); (19691025, 190409); (19691026, 184721);
  (19691027, 181852); (19691028, 181394); (19691029, 182876); (19691030, 185378); (19691031, 188129); (19691101, 190361); (19691102, 191373); (19691103, 190745);
  (19691104, 188326); (19691105, 184528); (19691106, 179330); (19691107, 173331); (19691108, 167673); (19691109, 163105); (19691110, 160487); (19691111, 160098);
  (19691112, 161770); (19691113, 164312); (19691114, 166194); (19691115, 166025); (19691116, 163177); (19691117, 157549); (19691118, 149601); (19691119, 140462);
  (19691120, 131244); (19691121, 123166); (19691122, 117088); (19691123, 113249); (19691124, 111621); (19691125, 111893); (19691126, 112995); (19691127, 114416);
  (19691128, 115248); (19691129, 114840); (19691130, 112761); (19691201, 108913); (19691202, 103335); (19691203, 96227); (19691204, 88408); (19691205, 80450);
  (19691206, 73362); (19691207, 68064); (19691208, 65155); (19691209, 64657); (19691210, 65909); (19691211, 67471); (19691212, 67962); (19691213, 66094);
  (19691214, 61756); (19691215, 55277); (19691216, 47869); (19691217, 40861); (19691218, 35193); (19691219, 31714); (19691220, 30736); (19691221, 32068);
  (19691222, 35260); (19691223, 39641); (19691224, 44313); (19691225, 48585); (19691226, 51586); (19691227, 53008); (19691228, 52430); (19691229, 49992);
  (19691230, 45843); (19691231, 40385); (19700101, 34537); (19700102, 28768); (19700103, 24100); (19700104, 20982); (19700105, 19874); (19700106, 20255);
  (19700107, 20947); (19700108, 20619); (19700109, 17580); (19700110, 11312); (19700111, 2054); (19700112, -9004); (19700113, -20213); (19700114, -30251);
  (19700115, -38119); (19700116, -43268); (19700117, -45796); (19700118, -46194); (19700119, -45052); (19700120, -43141); (19700121, -41249); (19700122, -40207);
  (19700123, -40546); (19700124, -42464); (19700125, -45982); (19700126, -51040); (19700127, -56949); (19700128, -63277); (19700129, -69185); (19700130, -73964);
  (19700131, -77092); (19700201, -78360); (19700202, -77718); (19700203, -76177); (19700204, -75085); (19700205, -75953); (19700206, -79912); (19700207, -87440);
  (19700208, -97708); (19700209, -109197); (19700210, -120165); (19700211, -129313); (19700212, -135811); (19700213, -139820); (19700214, -141648); (19700215, -141926);
  (19700216, -141595); (19700217, -141503); (19700218, -142251); (19700219, -144380); (19700220, -148348); (19700221, -154076); (19700222, -161464); (19700223, -169763);
  (19700224, -178601); (19700225, -187009); (19700226, -194448); (19700227, -200056); (19700228, -203424); (19700301, -204913); (19700302, -205041); (19700303, -204879);
  (19700304, -205968); (19700305, -209506); (19700306, -216334); (19700307, -226263); (19700308, -238261); (19700309, -250429); (19700310, -261357); (19700311, -269736);
  (19700312, -275134); (19700313, -277832); (19700314, -278671); (19700315, -278449); (19700316, -278167); (19700317, -278636); (19700318, -280484); (19700319, -284192)].
Definition eop_c04_data_3 : list (Z * Z) := [
  (19700320, -289941); (19700321, -297669); (19700322, -306997); (19700323, -317326); (19700324, -327954); (19700325, -337862); (19700326, -346421); (19700327, -353199);
  (19700328, -358067); (19700329, -361546); (19700330, -364784); (19700331, -368742); (19700401, -374681); (19700402, -383619); (19700403, -395647); (19700404, -409965);
  (19700405, -425404); (19700406, -440112); (19700407, -452810); (19700408, -462539); (19700409, -469197); (19700410, -473315); (19700411, -475574); (19700412, -477252);
  (19700413, -479010); (19700414, -481459); (19700415, -485307); (19700416, -490735); (19700417, -497754); (19700418, -506112); (19700419, -515410); (19700420, -524819);
  (19700421, -533627); (19700422, -540915); (19700423, -546174); (19700424, -549252); (19700425, -550521); (19700426, -550739); (19700427, -551337); (19700428, -553426);
  (19700429, -558004); (19700430, -565332); (19700501, -575021); (19700502, -586069); (19700503, -597197); (19700504, -606756); (19700505, -613934); (19700506, -618092);
  (19700507, -619461); (19700508, -618749); (19700509, -616907); (19700510, -614876); (19700511, -613444); (19700512, -613062); (19700513, -614171); (19700514, -616819);
  (19700515, -620757); (19700516, -625666); (19700517, -631044); (19700518, -635953); (19700519, -639891); (19700520, -641849); (19700521, -641678); (19700522, -639506);
  (19700523, -635994); (19700524, -632423); (19700525, -630021); (19700526, -629859); (19700527, -632248); (19700528, -636956); (19700529, -642934); (19700530, -649153);
  (19700531, -654091); (19700601, -656870); (19700602, -656948); (19700603, -654586); (19700604, -650195); (19700605, -644423); (19700606, -638391); (19700607, -632740);
  (19700608, -628328); (19700609, -625327); (19700610, -623935); (19700611, -623843); (19700612, -624682); (19700613, -625910); (19700614, -626788); (19700615, -626817);
  (19700616, -625185); (19700617, -621414); (19700618, -615502); (19700619, -607780); (19700620, -599599); (19700621, -592147); (19700622, -586875); (19700623, -584224);
  (19700624, -584152); (19700625, -585601); (19700626, -587379); (19700627, -587907); (19700628, -586466); (19700629, -582324); (19700630, -575622); (19700701, -566821);
  (19700702, -556659); (19700703, -546038); (19700704, -535906); (19700705, -526744); (19700706, -519243); (19700707, -513341); (19700708, -509070); (19700709, -506178);
  (19700710, -503956); (19700711, -501795); (19700712, -499143); (19700713, -495272); (19700714, -489700); (19700715, -482178); (19700716, -472867); (19700717, -462805);
  (19700718, -452984); (19700719, -445142); (19700720, -439980); (19700721, -437999); (19700722, -438077); (19700723, -439026); (19700724, -438974); (19700725, -436582);
  (19700726, -431171); (19700727, -422829); (19700728, -411848); (19700729, -399136); (19700730, -385574); (19700731, -372223); (19700801, -359591); (19700802, -348310);
  (19700803, -338628); (19700804, -330526); (19700805, -323895); (19700806, -318233); (19700807, -312912); (19700808, -307280); (19700809, -300848); (19700810, -293117);
  (19700811, -283955); (19700812, -273354); (19700813, -262112); (19700814, -251001); (19700815, -241709); (19700816, -235327); (19700817, -232736); (19700818, -233434);
  (19700819, -236133); (19700820, -239121); (19700821, -240560); (19700822, -239108); (19700823, -234636); (19700824, -227495); (19700825, -218543); (19700826, -208672);
  (19700827, -198900); (19700828, -190009); (19700829, -182537); (19700830, -176815); (19700831, -172894); (19700901, -170662); (19700902, -169441); (19700903, -168809);
  (19700904, -168078); (19700905, -166396); (19700906, -163464); (19700907, -158903); (19700908, -152761); (19700909, -145590); (19700910, -138248); (19700911, -131977);
  (19700912, -127955); (19700913, -127284); (19700914, -130192); (19700915, -135910); (19700916, -142999); (19700917, -149467); (19700918, -153696); (19700919, -154874);
  (19700920, -153163); (19700921, -149301); (19700922, -144290); (19700923, -139068); (19700924, -134706); (19700925, -131645); (19700926, -130343); (19700927, -130922);
  (19700928, -133070); (19700929, -136469); (19700930, -140467); (19701001, -144246); (19701002, -147224); (19701003, -148813); (19701004, -148651); (19701005, -146829);
  (19701006, -143398); (19701007, -139526); (19701008, -136195); (19701009, -134583); (19701010, -135922); (19701011, -140520); (19701012, -148319); (19701013, -158127);
  (19701014, -168526); (19701015, -177574); (19701016, -184123); (19701017, -187761); (19701018, -188870); (19701019, -188408); (19701020, -187417); (19701021, -186915);
  (19701022, -187723); (19701023, -190202); (19701024, -194410); (19701025, -200199); (19701026, -207347); (19701027, -215266); (19701028, -223314); (19701029, -230973);
  (19701030, -237431); (19701031, -242210); (19701101, -245278); (19701102, -246967); (19701103, -247775); (19701104, -248814); (19701105, -251212); (19701106, -255971);
  (19701107, -263529); (19701108, -273738); (19701109, -286026); (19701110, -298945); (19701111, -310953); (19701112, -320642); (19701113, -327370); (19701114, -331039);
  (19701115, -332317); (19701116, -332256); (19701117, -331844); (19701118, -332153); (19701119, -333491); (19701120, -336360); (19701121, -340578); (19701122, -346117);
  (19701123, -352345); (19701124, -358764); (19701125, -364742); (19701126, -369651); (19701127, -372989); (19701128, -374348); (19701129, -374046); (19701130, -372435);
  (19701201, -370663); (19701202, -369702); (19701203, -370710); (19701204, -374199); (19701205, -380237); (19701206, -388016); (19701207, -396394); (19701208, -404023);
  (19701209, -409671); (19701210, -412510); (19701211, -412448); (19701212, -409917); (19701213, -405805); (19701214, -401024); (19701215, -396423); (19701216, -392971);
  (19701217, -390900); (19701218, -390248); (19701219, -390867); (19701220, -392635); (19701221, -394834); (19701222, -397032); (19701223, -398551); (19701224, -398989);
  (19701225, -398198); (19701226, -395856); (19701227, -392505); (19701228, -388893); (19701229, -386082); (19701230, -385581); (19701231, -387929); (19710101, -393358);
  (19710102, -401116); (19710103, -409825); (19710104, -418123); (19710105, -424642); (19710106, -428610); (19710107, -429859); (19710108, -428777); (19710109, -425946);
  (19710110, -422525); (19710111, -419353); (19710112, -417292); (19710113, -416590); (19710114, -417639); (19710115, -419977); (19710116, -423386); (19710117, -427144);
  (19710118, -430813); (19710119, -433712); (19710120, -435340); (19710121, -435359); (19710122, -433647); (19710123, -430436); (19710124, -426344); (19710125, -422343);
  (19710126, -419791); (19710127, -419730); (19710128, -422789); (19710129, -428477); (19710130, -435596); (19710131, -442434); (19710201, -447403); (19710202, -449541);
  (19710203, -448450); (19710204, -444619); (19710205, -438847); (19710206, -432156); (19710207, -425604); (19710208, -419873); (19710209, -415702); (19710210, -413080);
  (19710211, -412049); (19710212, -412247); (19710213, -413136); (19710214, -414204); (19710215, -414793); (19710216, -414202); (19710217, -412240); (19710218, -408469);
  (19710219, -403297); (19710220, -397226); (19710221, -390985); (19710222, -385973); (19710223, -383242); (19710224, -383810); (19710225, -387929); (19710226, -394858);
  (19710227, -403006); (19710228, -410565); (19710301, -416003); (19710302, -418482); (19710303, -418231); (19710304, -416169); (19710305, -413508); (19710306, -410996);
  (19710307, -409725); (19710308, -410244); (19710309, -412642); (19710310, -417231); (19710311, -423469); (19710312, -430968); (19710313, -439007); (19710314, -446955);
  (19710315, -454114); (19710316, -460053); (19710317, -464471); (19710318, -467430); (19710319, -469308); (19710320, -470687); (19710321, -472596); (19710322, -476264);
  (19710323, -482703); (19710324, -492471); (19710325, -505520); (19710326, -520369); (19710327, -535437); (19710328, -548786); (19710329, -559035); (19710330, -565833);
  (19710331, -569792); (19710401, -571931); (19710402, -573539); (19710403, -575438); (19710404, -578476); (19710405, -582805); (19710406, -588664); (19710407, -595802);
  (19710408, -603691); (19710409, -612010); (19710410, -619998); (19710411, -627157); (19710412, -632786); (19710413, -636824); (19710414, -639153); (19710415, -640082);
  (19710416, -640210); (19710417, -640409); (19710418, -641727); (19710419, -645046); (19710420, -651265); (19710421, -660423); (19710422, -671852); (19710423, -684391);
  (19710424, -696299); (19710425, -705958); (19710426, -712607); (19710427, -716295); (19710428, -717954); (19710429, -718823); (19710430, -719931); (19710501, -722260);
  (19710502, -726219); (19710503, -731917); (19710504, -739076); (19710505, -747455); (19710506, -756443); (19710507, -765462); (19710508, -773911); (19710509, -781159);
  (19710510, -786888); (19710511, -791087); (19710512, -793895); (19710513, -795744); (19710514, -797563); (19710515, -800341); (19710516, -804880); (19710517, -811769);
  (19710518, -821278); (19710519, -832916); (19710520, -845675); (19710521, -858024); (19710522, -868532); (19710523, -876271); (19710524, -880670); (19710525, -882408);
  (19710526, -882417); (19710527, -881906); (19710528, -881864); (19710529, -882743); (19710530, -884912); (19710531, -888221); (19710601, -892429); (19710602, -896938);
  (19710603, -901297); (19710604, -904915); (19710605, -907164); (19710606, -907863); (19710607, -906762); (19710608, -904100); (19710609, -900219); (19710610, -895908);
  (19710611, -892246); (19710612, -890115); (19710613, -890234); (19710614, -892692); (19710615, -897311); (19710616, -903050); (19710617, -908639); (19710618, -912777);
  (19710619, -914476); (19710620, -913305); (19710621, -909444); (19710622, -903792); (19710623, -897271); (19710624, -891240); (19710625, -886308); (19710626, -882917);
  (19710627, -881016); (19710628, -880165); (19710629, -879973); (19710630, -879842); (19710701, -879291); (19710702, -877780); (19710703, -874908); (19710704, -870487);
  (19710705, -864636); (19710706, -857635); (19710707, -850223); (19710708, -843502); (19710709, -838411); (19710710, -835870); (19710711, -836358); (19710712, -839467);
  (19710713, -844526); (19710714, -849755); (19710715, -854073); (19710716, -856142); (19710717, -855611); (19710718, -852650); (19710719, -847838); (19710720, -842197);
  (19710721, -836676); (19710722, -832145); (19710723, -828923); (19710724, -827282); (19710725, -826981); (19710726, -827430); (19710727, -828128); (19710728, -828227);
  (19710729, -827486); (19710730, -825165); (19710731, -821333); (19710801, -815852); (19710802, -808891); (19710803, -801190); (19710804, -793499); (19710805, -787007);
  (19710806, -782736); (19710807, -781525); (19710808, -783294); (19710809, -787432); (19710810, -792291); (19710811, -796340); (19710812, -798199); (19710813, -797318);
  (19710814, -793796); (19710815, -788445); (19710816, -782184); (19710817, -776213); (19710818, -771412); (19710819, -768360); (19710820, -767289); (19710821, -768088);
  (19710822, -770407); (19710823, -773476); (19710824, -776854); (19710825, -779603); (19710826, -781562); (19710827, -782121); (19710828, -781540); (19710829, -779698);
  (19710830, -777117); (19710831, -774516); (19710901, -772865); (19710902, -773004); (19710903, -776002); (19710904, -782181); (19710905, -791190); (19710906, -801739);
  (19710907, -812178); (19710908, -820797); (19710909, -826455); (19710910, -828774); (19710911, -828463); (19710912, -826492); (19710913, -824201); (19710914, -822549);
  (19710915, -822218); (19710916, -823467); (19710917, -826266); (19710918, -830395); (19710919, -835444); (19710920, -840782); (19710921, -845681); (19710922, -849790);
  (19710923, -852749); (19710924, -854448); (19710925, -854997); (19710926, -854996); (19710927, -854934); (19710928, -855623); (19710929, -857932); (19710930, -862921);
  (19711001, -871270); (19711002, -882999); (19711003, -897287); (19711004, -912916); (19711005, -927785); (19711006, -940634); (19711007, -950353); (19711008, -957112);
  (19711009, -961941); (19711010, -966039); (19711011, -970498); (19711012, -976117); (19711013, -983246); (19711014, -991985); (19711015, -1001964); (19711016, -1012623);
  (19711017, -1023511); (19711018, -1034120); (19711019, -1043779); (19711020, -1052178); (19711021, -1059107); (19711022, -1064766); (19711023, -1069245); (19711024, -1073184);
  (19711025, -1077312); (19711026, -1082611); (19711027, -1089830); (19711028, -1099669); (19711029, -1112448); (19711030, -1127987); (19711031, -1145136); (19711101, -1162485);
  (19711102, -1178534); (19711103, -1191862); (19711104, -1202131); (19711105, -1209970); (19711106, -1216549); (19711107, -1223158); (19711108, -1230727); (19711109, -1239776);
  (19711110, -1250365); (19711111, -1262324); (19711112, -1274883); (19711113, -1287741); (19711114, -1300110); (19711115, -1311669); (19711116, -1321648); (19711117, -1330007);
  (19711118, -1336556); (19711119, -1341535); (19711120, -1345434); (19711121, -1348853); (19711122, -1352622); (19711123, -1357731); (19711124, -1364629); (19711125, -1373748);
  (19711126, -1384947); (19711127, -1397546); (19711128, -1410415); (19711129, -1422264); (19711130, -1431903); (19711201, -1438632); (19711202, -1442481); (19711203, -1444490);
  (19711204, -1445799); (19711205, -1447678); (19711206, -1450797); (19711207, -1455376); (19711208, -1461374); (19711209, -1468013); (19711210, -1475012); (19711211, -1481581);
  (19711212, -1487310); (19711213, -1491629); (19711214, -1494378); (19711215, -1495377); (19711216, -1494826); (19711217, -1493365); (19711218, -1491444); (19711219, -1489903);
  (19711220, -1489652); (19711221, -1491511); (19711222, -1495580); (19711223, -1501849); (19711224, -1509658); (19711225, -1517957); (19711226, -1525556); (19711227, -1531444);
  (19711228, -1534953); (19711229, -1535992); (19711230, -1535161); (19711231, -1533590); (19720101, -454859); (19720102, -481008); (19720103, -509077); (19720104, -538936);
  (19720105, -570195); (19720106, -602134); (19720107, -634283); (19720108, -665972); (19720109, -696791); (19720110, -726460); (19720111, -754839); (19720112, -782088);
  (19720113, -808457); (19720114, -834756); (19720115, -861595); (19720116, -889954); (19720117, -920563); (19720118, -953802); (19720119, -989651); (19720120, -1027570);
  (19720121, -1066459); (19720122, -1104778); (19720123, -1141587); (19720124, -1176086); (19720125, -1208075); (19720126, -1238134); (19720127, -1267113); (19720128, -1296192);
  (19720129, -1326401); (19720130, -1358340); (19720131, -1392209); (19720201, -1427668); (19720202, -1464147); (19720203, -1501106); (19720204, -1537675); (19720205, -1573194);
  (19720206, -1607483); (19720207, -1640172); (19720208, -1671311); (19720209, -1701220); (19720210, -1730219); (19720211, -1759038); (19720212, -1788787); (19720213, -1820136);
  (19720214, -1853935); (19720215, -1890314); (19720216, -1929123); (19720217, -1969072); (19720218, -2008901); (19720219, -2047060); (19720220, -2082679); (19720221, -2115408);
  (19720222, -2145778); (19720223, -2174737); (19720224, -2203586); (19720225, -2233065); (19720226, -2264074); (19720227, -2296923); (19720228, -2331582); (19720229, -2367521);
  (19720301, -2403950); (19720302, -2440249); (19720303, -2475898); (19720304, -2510217); (19720305, -2543156); (19720306, -2574615); (19720307, -2604714); (19720308, -2633983);
  (19720309, -2662972); (19720310, -2692491); (19720311, -2723520); (19720312, -2756800); (19720313, -2792889); (19720314, -2831778); (19720315, -2872767); (19720316, -2914486);
  (19720317, -2955415); (19720318, -2993964); (19720319, -3029563); (19720320, -3062392); (19720321, -3093421); (19720322, -3123650); (19720323, -3154329); (19720324, -3186218);
  (19720325, -3219687); (19720326, -3254717); (19720327, -3290956); (19720328, -3327855); (19720329, -3364864); (19720330, -3401333); (19720331, -3436732); (19720401, -3470731);
  (19720402, -3503250); (19720403, -3534539); (19720404, -3564968); (19720405, -3595117); (19720406, -3625677); (19720407, -3657436); (19720408, -3691205); (19720409, -3727434);
  (19720410, -3766533); (19720411, -3808232); (19720412, -3851471); (19720413, -3894780); (19720414, -3936569); (19720415, -3975619); (19720416, -4011628); (19720417, -4045077);
  (19720418, -4077136); (19720419, -4109075); (19720420, -4141874); (19720421, -4175983); (19720422, -4211392); (19720423, -4247781); (19720424, -4284641); (19720425, -4321390);
  (19720426, -4357519); (19720427, -4392418); (19720428, -4425917); (19720429, -4457746); (19720430, -4488115); (19720501, -4517355); (19720502, -4545874); (19720503, -4574613);
  (19720504, -4604112); (19720505, -4635241); (19720506, -4668640); (19720507, -4704579); (19720508, -4743259); (19720509, -4783888); (19720510, -4825487); (19720511, -4866536);
  (19720512, -4905835); (19720513, -4942744); (19720514, -4977083); (19720515, -5009773); (19720516, -5042002); (19720517, -5074951); (19720518, -5109020); (19720519, -5144409);
  (19720520, -5180888); (19720521, -5217768); (19720522, -5254537); (19720523, -5290426); (19720524, -5325015); (19720525, -5357864); (19720526, -5388853); (19720527, -5418043);
  (19720528, -5445712); (19720529, -5472231); (19720530, -5498350); (19720531, -5524879); (19720601, -5552298); (19720602, -5581348); (19720603, -5612377); (19720604, -5645296);
  (19720605, -5679805); (19720606, -5714994); (19720607, -5749814); (19720608, -5783093); (19720609, -5813852); (19720610, -5842071); (19720611, -5868070); (19720612, -5893159);
  (19720613, -5918409); (19720614, -5944888); (19720615, -5972967); (19720616, -6002416); (19720617, -6032425); (19720618, -6062565); (19720619, -6091954); (19720620, -6120173);
  (19720621, -6146922); (19720622, -6171812); (19720623, -6194931); (19720624, -6216600); (19720625, -6237279); (19720626, -6257598); (19720627, -6278378); (19720628, -6300337);
  (19720629, -6324066); (19720630, -6349935); (19720701, 3621956); (19720702, 3592006); (19720703, 3561097); (19720704, 3530268); (19720705, 3500439); (19720706, 3472639);
  (19720707, 3447110); (19720708, 3423751); (19720709, 3401592); (19720710, 3379592); (19720711, 3356723); (19720712, 3332844); (19720713, 3307405); (19720714, 3280816);
  (19720715, 3253726); (19720716, 3226967); (19720717, 3201008); (19720718, 3176409); (19720719, 3153199); (19720720, 3131630); (19720721, 3111441); (19720722, 3092012);
  (19720723, 3072862); (19720724, 3053273); (19720725, 3032384); (19720726, 3009495); (19720727, 2984135); (19720728, 2956176); (19720729, 2925977); (19720730, 2894227);
  (19720731, 2862148); (19720801, 2830859); (19720802, 2801290); (19720803, 2773810); (19720804, 2748301); (19720805, 2723912); (19720806, 2700003); (19720807, 2675373);
  (19720808, 2649414); (19720809, 2621645); (19720810, 2592475); (19720811, 2562806); (19720812, 2533167); (19720813, 2504588); (19720814, 2477338); (19720815, 2452079);
  (19720816, 2428730); (19720817, 2407260); (19720818, 2387111); (19720819, 2367862); (19720820, 2348643); (19720821, 2328693); (19720822, 2307274); (19720823, 2283655);
  (19720824, 2257515); (19720825, 2228886); (19720826, 2198547); (19720827, 2167317); (19720828, 2136628); (19720829, 2107649); (19720830, 2080740); (19720831, 2055960);
  (19720901, 2032421); (19720902, 2009152); (19720903, 1985182); (19720904, 1959473); (19720905, 1931764); (19720906, 1901914); (19720907, 1870595); (19720908, 1838536);
  (19720909, 1806376); (19720910, 1775007); (19720911, 1744928); (19720912, 1716338); (19720913, 1688999); (19720914, 1662820); (19720915, 1637230); (19720916, 1611721);
  (19720917, 1585382); (19720918, 1557772); (19720919, 1527943); (19720920, 1495584); (19720921, 1460474); (19720922, 1423065); (19720923, 1384286); (19720924, 1345356);
  (19720925, 1307847); (19720926, 1272448); (19720927, 1239578); (19720928, 1208569); (19720929, 1178350); (19720930, 1147850); (19721001, 1116131); (19721002, 1082811);
  (19721003, 1047742); (19721004, 1011273); (19721005, 974223); (19721006, 937204); (19721007, 901025); (19721008, 866235); (19721009, 833036); (19721010, 801607);
  (19721011, 771827); (19721012, 743188); (19721013, 715018); (19721014, 686849); (19721015, 657940); (19721016, 627610); (19721017, 595471); (19721018, 560992);
  (19721019, 524442); (19721020, 486223); (19721021, 447563); (19721022, 409634); (19721023, 373825); (19721024, 340675); (19721025, 310106); (19721026, 281106);
  (19721027, 252537); (19721028, 223188); (19721029, 192408); (19721030, 160329); (19721031, 126969); (19721101, 93150); (19721102, 59321); (19721103, 26121);
  (19721104, -5848); (19721105, -36308); (19721106, -65167); (19721107, -92726); (19721108, -119246); (19721109, -145245); (19721110, -171555); (19721111, -198624);
  (19721112, -227224); (19721113, -257643); (19721114, -290322); (19721115, -325392); (19721116, -362481); (19721117, -400841); (19721118, -439390); (19721119, -476940);
  (19721120, -512579); (19721121, -546098); (19721122, -578008); (19721123, -609437); (19721124, -641647); (19721125, -675406); (19721126, -711126); (19721127, -748375);
  (19721128, -786364); (19721129, -824264); (19721130, -861503); (19721201, -897383); (19721202, -931682); (19721203, -964192); (19721204, -994761); (19721205, -1023891);
  (19721206, -1052090); (19721207, -1079840); (19721208, -1107919); (19721209, -1136778); (19721210, -1166898); (19721211, -1198767); (19721212, -1232337); (19721213, -1267456)].
Definition eop_c04_data_4 : list (Z * Z) := [
  (19721214, -1303706); (19721215, -1340125); (19721216, -1375735); (19721217, -1409774); (19721218, -1441854); (19721219, -1472073); (19721220, -1501363); (19721221, -1530952);
  (19721222, -1561932); (19721223, -1594781); (19721224, -1629631); (19721225, -1665510); (19721226, -1701840); (19721227, -1737559); (19721228, -1771979); (19721229, -1804908);
  (19721230, -1836158); (19721231, -1865687); (19730101, 8105944); (19730102, 8078584); (19730103, 8051525); (19730104, 8024015); (19730105, 7995416); (19730106, 7965306);
  (19730107, 7933287); (19730108, 7899097); (19730109, 7863177); (19730110, 7826208); (19730111, 7788958); (19730112, 7752289); (19730113, 7717109); (19730114, 7683970);
  (19730115, 7653050); (19730116, 7623651); (19730117, 7594751); (19730118, 7565292); (19730119, 7534322); (19730120, 7501683); (19730121, 7467603); (19730122, 7432924);
  (19730123, 7398474); (19730124, 7365095); (19730125, 7333215); (19730126, 7303046); (19730127, 7274526); (19730128, 7247257); (19730129, 7220887); (19730130, 7194757);
  (19730131, 7168188); (19730201, 7140608); (19730202, 7111109); (19730203, 7079499); (19730204, 7045700); (19730205, 7009800); (19730206, 6972361); (19730207, 6934291);
  (19730208, 6896492); (19730209, 6859972); (19730210, 6825032); (19730211, 6792013); (19730212, 6760223); (19730213, 6728844); (19730214, 6696794); (19730215, 6663255);
  (19730216, 6627585); (19730217, 6590055); (19730218, 6551316); (19730219, 6512426); (19730220, 6474257); (19730221, 6437687); (19730222, 6403188); (19730223, 6370878);
  (19730224, 6340458); (19730225, 6311749); (19730226, 6284009); (19730227, 6256820); (19730228, 6229080); (19730301, 6200251); (19730302, 6169801); (19730303, 6137421);
  (19730304, 6103022); (19730305, 6067022); (19730306, 6030073); (19730307, 5993143); (19730308, 5957253); (19730309, 5922824); (19730310, 5890194); (19730311, 5858875);
  (19730312, 5828015); (19730313, 5796535); (19730314, 5763516); (19730315, 5728156); (19730316, 5690297); (19730317, 5650497); (19730318, 5609337); (19730319, 5568028);
  (19730320, 5527518); (19730321, 5488569); (19730322, 5451369); (19730323, 5415929); (19730324, 5382250); (19730325, 5349760); (19730326, 5317740); (19730327, 5285651);
  (19730328, 5252851); (19730329, 5218782); (19730330, 5182932); (19730331, 5145222); (19730401, 5105833); (19730402, 5065233); (19730403, 5024243); (19730404, 4984214);
  (19730405, 4945984); (19730406, 4910034); (19730407, 4876275); (19730408, 4844035); (19730409, 4812026); (19730410, 4779246); (19730411, 4745136); (19730412, 4709417);
  (19730413, 4672347); (19730414, 4634527); (19730415, 4596818); (19730416, 4559808); (19730417, 4524208); (19730418, 4490389); (19730419, 4458319); (19730420, 4427969);
  (19730421, 4398850); (19730422, 4370380); (19730423, 4341930); (19730424, 4312921); (19730425, 4282781); (19730426, 4251011); (19730427, 4217562); (19730428, 4182122);
  (19730429, 4145122); (19730430, 4107153); (19730501, 4069183); (19730502, 4032163); (19730503, 3996674); (19730504, 3962954); (19730505, 3930764); (19730506, 3898895);
  (19730507, 3866395); (19730508, 3832445); (19730509, 3796995); (19730510, 3760196); (19730511, 3722876); (19730512, 3685706); (19730513, 3649667); (19730514, 3615247);
  (19730515, 3582797); (19730516, 3552538); (19730517, 3524238); (19730518, 3497638); (19730519, 3472129); (19730520, 3447089); (19730521, 3421939); (19730522, 3395929);
  (19730523, 3368690); (19730524, 3339860); (19730525, 3309410); (19730526, 3277531); (19730527, 3244481); (19730528, 3211101); (19730529, 3178141); (19730530, 3146612);
  (19730531, 3116972); (19730601, 3088922); (19730602, 3061542); (19730603, 3033863); (19730604, 3004843); (19730605, 2973873); (19730606, 2941294); (19730607, 2907594);
  (19730608, 2873864); (19730609, 2841024); (19730610, 2809475); (19730611, 2779655); (19730612, 2751855); (19730613, 2725865); (19730614, 2701476); (19730615, 2678286);
  (19730616, 2655536); (19730617, 2632776); (19730618, 2609497); (19730619, 2585257); (19730620, 2559937); (19730621, 2533407); (19730622, 2505848); (19730623, 2477848);
  (19730624, 2449728); (19730625, 2422308); (19730626, 2396369); (19730627, 2372319); (19730628, 2349999); (19730629, 2328999); (19730630, 2308099); (19730701, 2286230);
  (19730702, 2262580); (19730703, 2236880); (19730704, 2209650); (19730705, 2181871); (19730706, 2154591); (19730707, 2128531); (19730708, 2104131); (19730709, 2081511);
  (19730710, 2060532); (19730711, 2040902); (19730712, 2022032); (19730713, 2003262); (19730714, 1984063); (19730715, 1963743); (19730716, 1941833); (19730717, 1918163);
  (19730718, 1892473); (19730719, 1865164); (19730720, 1836504); (19730721, 1807224); (19730722, 1777604); (19730723, 1748724); (19730724, 1721265); (19730725, 1695385);
  (19730726, 1670945); (19730727, 1647325); (19730728, 1623235); (19730729, 1597815); (19730730, 1570406); (19730731, 1541386); (19730801, 1511876); (19730802, 1482516);
  (19730803, 1454456); (19730804, 1428337); (19730805, 1404357); (19730806, 1382427); (19730807, 1362127); (19730808, 1343097); (19730809, 1324477); (19730810, 1305748);
  (19730811, 1286168); (19730812, 1265108); (19730813, 1242328); (19730814, 1217448); (19730815, 1190738); (19730816, 1162539); (19730817, 1133479); (19730818, 1104209);
  (19730819, 1075549); (19730820, 1048049); (19730821, 1021959); (19730822, 996949); (19730823, 972420); (19730824, 947310); (19730825, 920820); (19730826, 892270);
  (19730827, 861540); (19730828, 828940); (19730829, 795610); (19730830, 762701); (19730831, 731071); (19730901, 701501); (19730902, 673921); (19730903, 648301);
  (19730904, 624181); (19730905, 600981); (19730906, 578212); (19730907, 555122); (19730908, 531152); (19730909, 505842); (19730910, 478872); (19730911, 450222);
  (19730912, 420062); (19730913, 389052); (19730914, 357853); (19730915, 327283); (19730916, 297933); (19730917, 270033); (19730918, 243603); (19730919, 217843);
  (19730920, 191813); (19730921, 164683); (19730922, 135693); (19730923, 104413); (19730924, 71054); (19730925, 36264); (19730926, 1144); (19730927, -33406);
  (19730928, -66416); (19730929, -97736); (19730930, -127216); (19731001, -155186); (19731002, -182206); (19731003, -208776); (19731004, -235626); (19731005, -262955);
  (19731006, -291615); (19731007, -321735); (19731008, -353425); (19731009, -386575); (19731010, -420775); (19731011, -455475); (19731012, -489655); (19731013, -522815);
  (19731014, -554185); (19731015, -583805); (19731016, -612165); (19731017, -640255); (19731018, -669075); (19731019, -699394); (19731020, -731494); (19731021, -765554);
  (19731022, -800764); (19731023, -836604); (19731024, -872024); (19731025, -906454); (19731026, -939234); (19731027, -970334); (19731028, -999864); (19731029, -1028374);
  (19731030, -1056244); (19731031, -1084214); (19731101, -1112934); (19731102, -1142804); (19731103, -1174254); (19731104, -1207274); (19731105, -1242104); (19731106, -1278434);
  (19731107, -1315774); (19731108, -1353444); (19731109, -1390764); (19731110, -1426943); (19731111, -1461533); (19731112, -1494883); (19731113, -1527733); (19731114, -1560923);
  (19731115, -1595283); (19731116, -1631173); (19731117, -1668623); (19731118, -1706893); (19731119, -1745073); (19731120, -1782333); (19731121, -1818003); (19731122, -1851653);
  (19731123, -1883233); (19731124, -1912653); (19731125, -1940353); (19731126, -1966903); (19731127, -1993063); (19731128, -2019243); (19731129, -2046013); (19731130, -2073823);
  (19731201, -2102863); (19731202, -2133323); (19731203, -2164933); (19731204, -2197423); (19731205, -2230213); (19731206, -2262823); (19731207, -2294513); (19731208, -2324903);
  (19731209, -2353963); (19731210, -2382213); (19731211, -2410503); (19731212, -2439953); (19731213, -2471313); (19731214, -2504603); (19731215, -2539163); (19731216, -2574283);
  (19731217, -2608694); (19731218, -2641794); (19731219, -2672954); (19731220, -2701864); (19731221, -2728754); (19731222, -2753864); (19731223, -2777674); (19731224, -2800674);
  (19731225, -2823434); (19731226, -2846674); (19731227, -2870884); (19731228, -2896134); (19731229, -2922654); (19731230, -2950164); (19731231, -2978324); (19740101, 6992996);
  (19740102, 6964546); (19740103, 6936686); (19740104, 6909966); (19740105, 6884556); (19740106, 6860146); (19740107, 6836126); (19740108, 6811506); (19740109, 6785365);
  (19740110, 6757235); (19740111, 6727395); (19740112, 6696825); (19740113, 6666705); (19740114, 6638005); (19740115, 6611475); (19740116, 6587335); (19740117, 6565245);
  (19740118, 6544935); (19740119, 6525595); (19740120, 6506765); (19740121, 6487825); (19740122, 6468045); (19740123, 6446894); (19740124, 6424204); (19740125, 6399744);
  (19740126, 6373754); (19740127, 6346374); (19740128, 6317774); (19740129, 6288794); (19740130, 6260054); (19740131, 6232074); (19740201, 6205064); (19740202, 6178754);
  (19740203, 6153063); (19740204, 6126973); (19740205, 6099583); (19740206, 6070043); (19740207, 6038293); (19740208, 6004823); (19740209, 5970833); (19740210, 5937513);
  (19740211, 5905853); (19740212, 5876392); (19740213, 5849132); (19740214, 5823852); (19740215, 5799802); (19740216, 5776482); (19740217, 5753322); (19740218, 5729602);
  (19740219, 5704952); (19740220, 5678932); (19740221, 5651601); (19740222, 5622751); (19740223, 5592991); (19740224, 5562451); (19740225, 5531931); (19740226, 5501911);
  (19740227, 5472851); (19740228, 5444930); (19740301, 5418140); (19740302, 5391900); (19740303, 5365450); (19740304, 5337820); (19740305, 5308100); (19740306, 5275810);
  (19740307, 5241239); (19740308, 5204959); (19740309, 5168239); (19740310, 5132389); (19740311, 5098049); (19740312, 5065759); (19740313, 5035369); (19740314, 5006488);
  (19740315, 4978518); (19740316, 4950828); (19740317, 4923028); (19740318, 4894498); (19740319, 4865028); (19740320, 4834317); (19740321, 4802427); (19740322, 4769567);
  (19740323, 4736037); (19740324, 4702557); (19740325, 4669587); (19740326, 4637886); (19740327, 4607716); (19740328, 4579106); (19740329, 4551686); (19740330, 4524856);
  (19740331, 4497516); (19740401, 4469075); (19740402, 4438905); (19740403, 4407115); (19740404, 4373895); (19740405, 4340105); (19740406, 4306734); (19740407, 4274674);
  (19740408, 4244394); (19740409, 4216014); (19740410, 4189124); (19740411, 4162993); (19740412, 4137043); (19740413, 4110093); (19740414, 4082213); (19740415, 4052663);
  (19740416, 4021472); (19740417, 3988352); (19740418, 3953302); (19740419, 3916922); (19740420, 3879752); (19740421, 3842271); (19740422, 3805301); (19740423, 3769211);
  (19740424, 3734491); (19740425, 3700831); (19740426, 3667790); (19740427, 3634510); (19740428, 3600470); (19740429, 3564940); (19740430, 3527799); (19740501, 3489619);
  (19740502, 3450979); (19740503, 3412889); (19740504, 3376118); (19740505, 3341398); (19740506, 3309008); (19740507, 3278758); (19740508, 3250278); (19740509, 3222797);
  (19740510, 3195767); (19740511, 3168647); (19740512, 3140887); (19740513, 3112306); (19740514, 3082576); (19740515, 3051746); (19740516, 3020226); (19740517, 2988155);
  (19740518, 2955945); (19740519, 2924235); (19740520, 2893645); (19740521, 2864374); (19740522, 2836404); (19740523, 2809174); (19740524, 2782024); (19740525, 2753953);
  (19740526, 2724443); (19740527, 2693293); (19740528, 2660873); (19740529, 2628032); (19740530, 2595572); (19740531, 2564382); (19740601, 2535041); (19740602, 2507921);
  (19740603, 2482901); (19740604, 2459831); (19740605, 2438000); (19740606, 2416970); (19740607, 2396180); (19740608, 2375059); (19740609, 2353279); (19740610, 2330809);
  (19740611, 2307459); (19740612, 2283538); (19740613, 2259228); (19740614, 2234948); (19740615, 2211077); (19740616, 2188057); (19740617, 2166087); (19740618, 2145437);
  (19740619, 2125746); (19740620, 2106296); (19740621, 2086146); (19740622, 2064465); (19740623, 2040845); (19740624, 2015525); (19740625, 1989214); (19740626, 1963144);
  (19740627, 1938204); (19740628, 1914954); (19740629, 1893763); (19740630, 1874433); (19740701, 1856753); (19740702, 1840222); (19740703, 1824082); (19740704, 1807812);
  (19740705, 1790921); (19740706, 1772941); (19740707, 1753791); (19740708, 1733370); (19740709, 1712050); (19740710, 1689940); (19740711, 1667629); (19740712, 1645529);
  (19740713, 1624069); (19740714, 1603698); (19740715, 1584568); (19740716, 1566548); (19740717, 1549207); (19740718, 1531587); (19740719, 1512627); (19740720, 1491866);
  (19740721, 1469086); (19740722, 1445006); (19740723, 1420525); (19740724, 1396895); (19740725, 1374875); (19740726, 1354914); (19740727, 1336894); (19740728, 1320374);
  (19740729, 1304983); (19740730, 1289843); (19740731, 1274463); (19740801, 1258212); (19740802, 1240662); (19740803, 1221691); (19740804, 1201121); (19740805, 1179211);
  (19740806, 1156060); (19740807, 1132360); (19740808, 1108320); (19740809, 1084499); (19740810, 1061209); (19740811, 1038849); (19740812, 1017428); (19740813, 996378);
  (19740814, 975187); (19740815, 952837); (19740816, 928577); (19740817, 901956); (19740818, 873206); (19740819, 843186); (19740820, 813185); (19740821, 784555);
  (19740822, 757954); (19740823, 733834); (19740824, 711914); (19740825, 691553); (19740826, 672103); (19740827, 653002); (19740828, 633632); (19740829, 613692);
  (19740830, 592811); (19740831, 570851); (19740901, 547800); (19740902, 523900); (19740903, 499540); (19740904, 475079); (19740905, 451049); (19740906, 427638);
  (19740907, 404998); (19740908, 383178); (19740909, 361907); (19740910, 340367); (19740911, 317856); (19740912, 293446); (19740913, 266595); (19740914, 237165);
  (19740915, 205535); (19740916, 172814); (19740917, 140394); (19740918, 109303); (19740919, 80373); (19740920, 53663); (19740921, 28842); (19740922, 5042);
  (19740923, -18249); (19740924, -41619); (19740925, -65560); (19740926, -90430); (19740927, -116520); (19740928, -143611); (19740929, -171851); (19740930, -200792);
  (19741001, -230102); (19741002, -259203); (19741003, -287783); (19741004, -315524); (19741005, -342454); (19741006, -368794); (19741007, -395055); (19741008, -421955);
  (19741009, -450186); (19741010, -480596); (19741011, -513377); (19741012, -548127); (19741013, -584388); (19741014, -620988); (19741015, -656749); (19741016, -690799);
  (19741017, -722760); (19741018, -752600); (19741019, -780840); (19741020, -808081); (19741021, -835001); (19741022, -862032); (19741023, -889742); (19741024, -918073);
  (19741025, -947193); (19741026, -977084); (19741027, -1007384); (19741028, -1038015); (19741029, -1068355); (19741030, -1098146); (19741031, -1127036); (19741101, -1154847);
  (19741102, -1181767); (19741103, -1208208); (19741104, -1235068); (19741105, -1263019); (19741106, -1292669); (19741107, -1324360); (19741108, -1357960); (19741109, -1392951);
  (19741110, -1428491); (19741111, -1463692); (19741112, -1497512); (19741113, -1529563); (19741114, -1559773); (19741115, -1588394); (19741116, -1616104); (19741117, -1643505);
  (19741118, -1671155); (19741119, -1699486); (19741120, -1728766); (19741121, -1758967); (19741122, -1790237); (19741123, -1822158); (19741124, -1854418); (19741125, -1886739);
  (19741126, -1918609); (19741127, -1949570); (19741128, -1979490); (19741129, -2008341); (19741130, -2036301); (19741201, -2063892); (19741202, -2092102); (19741203, -2121423);
  (19741204, -2152243); (19741205, -2184684); (19741206, -2217974); (19741207, -2251495); (19741208, -2284266); (19741209, -2315746); (19741210, -2345297); (19741211, -2373027);
  (19741212, -2399048); (19741213, -2423758); (19741214, -2447979); (19741215, -2472219); (19741216, -2496960); (19741217, -2522410); (19741218, -2548761); (19741219, -2575871);
  (19741220, -2603752); (19741221, -2631833); (19741222, -2660033); (19741223, -2687794); (19741224, -2714904); (19741225, -2740985); (19741226, -2766195); (19741227, -2790476);
  (19741228, -2814426); (19741229, -2838697); (19741230, -2864298); (19741231, -2891688); (19750101, 7078931); (19750102, 7048071); (19750103, 7016570); (19750104, 6985700);
  (19750105, 6956009); (19750106, 6928118); (19750107, 6902078); (19750108, 6877557); (19750109, 6854077); (19750110, 6831036); (19750111, 6807936); (19750112, 6784155);
  (19750113, 6759234); (19750114, 6733104); (19750115, 6705873); (19750116, 6677733); (19750117, 6648852); (19750118, 6619791); (19750119, 6590711); (19750120, 6562140);
  (19750121, 6534220); (19750122, 6507059); (19750123, 6480649); (19750124, 6454728); (19750125, 6428557); (19750126, 6401287); (19750127, 6372266); (19750128, 6341176);
  (19750129, 6308075); (19750130, 6273794); (19750131, 6239354); (19750201, 6206013); (19750202, 6174183); (19750203, 6144482); (19750204, 6116611); (19750205, 6089931);
  (19750206, 6063930); (19750207, 6037769); (19750208, 6011129); (19750209, 5983668); (19750210, 5955048); (19750211, 5925307); (19750212, 5894696); (19750213, 5863366);
  (19750214, 5831875); (19750215, 5800485); (19750216, 5769774); (19750217, 5739993); (19750218, 5711293); (19750219, 5683632); (19750220, 5656821); (19750221, 5630341);
  (19750222, 5603550); (19750223, 5575489); (19750224, 5545629); (19750225, 5513728); (19750226, 5480238); (19750227, 5446127); (19750228, 5412646); (19750301, 5381126);
  (19750302, 5351785); (19750303, 5324964); (19750304, 5299814); (19750305, 5275853); (19750306, 5252212); (19750307, 5228372); (19750308, 5203731); (19750309, 5178050);
  (19750310, 5151120); (19750311, 5122879); (19750312, 5093759); (19750313, 5063748); (19750314, 5033357); (19750315, 5003037); (19750316, 4973026); (19750317, 4943575);
  (19750318, 4914845); (19750319, 4886424); (19750320, 4858193); (19750321, 4829383); (19750322, 4799352); (19750323, 4767401); (19750324, 4733281); (19750325, 4697100);
  (19750326, 4659439); (19750327, 4621619); (19750328, 4584918); (19750329, 4550297); (19750330, 4518277); (19750331, 4488576); (19750401, 4460695); (19750402, 4433814);
  (19750403, 4407284); (19750404, 4380493); (19750405, 4353232); (19750406, 4325122); (19750407, 4296341); (19750408, 4267030); (19750409, 4237270); (19750410, 4207509);
  (19750411, 4177818); (19750412, 4148638); (19750413, 4119867); (19750414, 4091936); (19750415, 4064586); (19750416, 4037495); (19750417, 4010094); (19750418, 3981803);
  (19750419, 3951873); (19750420, 3919832); (19750421, 3885781); (19750422, 3849781); (19750423, 3812920); (19750424, 3776269); (19750425, 3740778); (19750426, 3707218);
  (19750427, 3675657); (19750428, 3645926); (19750429, 3617346); (19750430, 3589235); (19750501, 3561094); (19750502, 3532573); (19750503, 3503573); (19750504, 3473952);
  (19750505, 3444001); (19750506, 3413951); (19750507, 3383920); (19750508, 3354359); (19750509, 3325488); (19750510, 3297578); (19750511, 3270837); (19750512, 3245006);
  (19750513, 3219935); (19750514, 3195105); (19750515, 3169784); (19750516, 3143443); (19750517, 3115423); (19750518, 3085812); (19750519, 3054681); (19750520, 3022640);
  (19750521, 2990760); (19750522, 2959809); (19750523, 2930398); (19750524, 2902967); (19750525, 2877467); (19750526, 2853216); (19750527, 2829715); (19750528, 2806234);
  (19750529, 2782514); (19750530, 2758113); (19750531, 2733182); (19750601, 2707721); (19750602, 2682001); (19750603, 2656130); (19750604, 2630649); (19750605, 2605778);
  (19750606, 2581698); (19750607, 2558617); (19750608, 2536456); (19750609, 2515005); (19750610, 2493825); (19750611, 2472284); (19750612, 2449613); (19750613, 2425302);
  (19750614, 2399191); (19750615, 2371561); (19750616, 2343150); (19750617, 2314619); (19750618, 2286868); (19750619, 2260758); (19750620, 2236377); (19750621, 2213806);
  (19750622, 2192645); (19750623, 2172524); (19750624, 2152684); (19750625, 2132683); (19750626, 2112302); (19750627, 2091351); (19750628, 2069981); (19750629, 2048410);
  (19750630, 2026909); (19750701, 2005818); (19750702, 1985457); (19750703, 1965907); (19750704, 1947436); (19750705, 1930075); (19750706, 1913674); (19750707, 1897663);
  (19750708, 1881473); (19750709, 1864592); (19750710, 1846181); (19750711, 1825900); (19750712, 1804119); (19750713, 1781169); (19750714, 1758128); (19750715, 1736007);
  (19750716, 1715406); (19750717, 1696785); (19750718, 1679885); (19750719, 1664314); (19750720, 1649633); (19750721, 1635202); (19750722, 1620271); (19750723, 1604541);
  (19750724, 1587700); (19750725, 1569889); (19750726, 1551188); (19750727, 1531867); (19750728, 1512366); (19750729, 1492846); (19750730, 1473745); (19750731, 1455114);
  (19750801, 1437173); (19750802, 1419662); (19750803, 1402571); (19750804, 1385121); (19750805, 1366810); (19750806, 1347139); (19750807, 1325248); (19750808, 1300997);
  (19750809, 1274856); (19750810, 1247766); (19750811, 1220715); (19750812, 1194934); (19750813, 1170993); (19750814, 1148952); (19750815, 1128431); (19750816, 1108741);
  (19750817, 1089310); (19750818, 1069669); (19750819, 1049258); (19750820, 1028127); (19750821, 1006016); (19750822, 983136); (19750823, 959745); (19750824, 936194);
  (19750825, 912833); (19750826, 890042); (19750827, 867981); (19750828, 846940); (19750829, 826660); (19750830, 807039); (19750831, 787648); (19750901, 767817);
  (19750902, 746836); (19750903, 723925); (19750904, 698794); (19750905, 671334); (19750906, 642403); (19750907, 612952); (19750908, 584231); (19750909, 557280)].
Definition eop_c04_data_5 : list (Z * Z) := [
  (19750910, 532199); (19750911, 509078); (19750912, 487137); (19750913, 465757); (19750914, 444286); (19750915, 422135); (19750916, 399194); (19750917, 375143);
  (19750918, 350022); (19750919, 324131); (19750920, 297780); (19750921, 271240); (19750922, 244809); (19750923, 218748); (19750924, 193207); (19750925, 168176);
  (19750926, 143605); (19750927, 118964); (19750928, 93943); (19750929, 67912); (19750930, 40132); (19751001, 10151); (19751002, -22200); (19751003, -56741);
  (19751004, -92432); (19751005, -128333); (19751006, -163184); (19751007, -196205); (19751008, -227256); (19751009, -256597); (19751010, -284947); (19751011, -313018);
  (19751012, -341399); (19751013, -370430); (19751014, -400161); (19751015, -430692); (19751016, -461693); (19751017, -493124); (19751018, -524555); (19751019, -555536);
  (19751020, -585897); (19751021, -615377); (19751022, -644038); (19751023, -671859); (19751024, -699240); (19751025, -726581); (19751026, -754362); (19751027, -783273);
  (19751028, -813904); (19751029, -846465); (19751030, -880886); (19751031, -916877); (19751101, -953478); (19751102, -989519); (19751103, -1024339); (19751104, -1057220);
  (19751105, -1088331); (19751106, -1118182); (19751107, -1147503); (19751108, -1176754); (19751109, -1206575); (19751110, -1237036); (19751111, -1268167); (19751112, -1299738);
  (19751113, -1331649); (19751114, -1363610); (19751115, -1395121); (19751116, -1426072); (19751117, -1456283); (19751118, -1485484); (19751119, -1513734); (19751120, -1541465);
  (19751121, -1568826); (19751122, -1596367); (19751123, -1624708); (19751124, -1654259); (19751125, -1685390); (19751126, -1718071); (19751127, -1751752); (19751128, -1786063);
  (19751129, -1819994); (19751130, -1852935); (19751201, -1884006); (19751202, -1913287); (19751203, -1940948); (19751204, -1967589); (19751205, -1994000); (19751206, -2020501);
  (19751207, -2047592); (19751208, -2075083); (19751209, -2103064); (19751210, -2131205); (19751211, -2159436); (19751212, -2187556); (19751213, -2215097); (19751214, -2242138);
  (19751215, -2268559); (19751216, -2294230); (19751217, -2319521); (19751218, -2344782); (19751219, -2370283); (19751220, -2396594); (19751221, -2424235); (19751222, -2453416);
  (19751223, -2484117); (19751224, -2515988); (19751225, -2548229); (19751226, -2580170); (19751227, -2611001); (19751228, -2640112); (19751229, -2667423); (19751230, -2693124);
  (19751231, -2717695); (19760101, 7258224); (19760102, 7233963); (19760103, 7209292); (19760104, 7183831); (19760105, 7157740); (19760106, 7131179); (19760107, 7104348);
  (19760108, 7077667); (19760109, 7051216); (19760110, 7025425); (19760111, 7000254); (19760112, 6975683); (19760113, 6951652); (19760114, 6927751); (19760115, 6903350);
  (19760116, 6877959); (19760117, 6850998); (19760118, 6822017); (19760119, 6790806); (19760120, 6757775); (19760121, 6723654); (19760122, 6689343); (19760123, 6655612);
  (19760124, 6623221); (19760125, 6592360); (19760126, 6562849); (19760127, 6534228); (19760128, 6506107); (19760129, 6477876); (19760130, 6449255); (19760131, 6419804);
  (19760201, 6389723); (19760202, 6359212); (19760203, 6328471); (19760204, 6297960); (19760205, 6267819); (19760206, 6238478); (19760207, 6210037); (19760208, 6182526);
  (19760209, 6155855); (19760210, 6129773); (19760211, 6103852); (19760212, 6077681); (19760213, 6050400); (19760214, 6021659); (19760215, 5991008); (19760216, 5958627);
  (19760217, 5925106); (19760218, 5891295); (19760219, 5858384); (19760220, 5827123); (19760221, 5797892); (19760222, 5770501); (19760223, 5744390); (19760224, 5718939);
  (19760225, 5693428); (19760226, 5667447); (19760227, 5640576); (19760228, 5612685); (19760229, 5583884); (19760301, 5554223); (19760302, 5524262); (19760303, 5494011);
  (19760304, 5464020); (19760305, 5434559); (19760306, 5405537); (19760307, 5377126); (19760308, 5349025); (19760309, 5320894); (19760310, 5292463); (19760311, 5263042);
  (19760312, 5232021); (19760313, 5199000); (19760314, 5163739); (19760315, 5126528); (19760316, 5088207); (19760317, 5049686); (19760318, 5012245); (19760319, 4976554);
  (19760320, 4942783); (19760321, 4910722); (19760322, 4879550); (19760323, 4848779); (19760324, 4817668); (19760325, 4785847); (19760326, 4753376); (19760327, 4719945);
  (19760328, 4685924); (19760329, 4651513); (19760330, 4617122); (19760331, 4583081); (19760401, 4549620); (19760402, 4516779); (19760403, 4484658); (19760404, 4453107);
  (19760405, 4422085); (19760406, 4390984); (19760407, 4359603); (19760408, 4327152); (19760409, 4293221); (19760410, 4257340); (19760411, 4219749); (19760412, 4180688);
  (19760413, 4140997); (19760414, 4101926); (19760415, 4064285); (19760416, 4028803); (19760417, 3995382); (19760418, 3963531); (19760419, 3932540); (19760420, 3901699);
  (19760421, 3870788); (19760422, 3839317); (19760423, 3807486); (19760424, 3775145); (19760425, 3742604); (19760426, 3710243); (19760427, 3678071); (19760428, 3646550);
  (19760429, 3615709); (19760430, 3585688); (19760501, 3556297); (19760502, 3527196); (19760503, 3498155); (19760504, 3468824); (19760505, 3438503); (19760506, 3406901);
  (19760507, 3373660); (19760508, 3338529); (19760509, 3301858); (19760510, 3264027); (19760511, 3226036); (19760512, 3188745); (19760513, 3152964); (19760514, 3118903);
  (19760515, 3086521); (19760516, 3055240); (19760517, 3024259); (19760518, 2993168); (19760519, 2961827); (19760520, 2930106); (19760521, 2898275); (19760522, 2866564);
  (19760523, 2835142); (19760524, 2804581); (19760525, 2774830); (19760526, 2746189); (19760527, 2718788); (19760528, 2692547); (19760529, 2667066); (19760530, 2642225);
  (19760531, 2617413); (19760601, 2592152); (19760602, 2566191); (19760603, 2538980); (19760604, 2510469); (19760605, 2480808); (19760606, 2450287); (19760607, 2419756);
  (19760608, 2389874); (19760609, 2361213); (19760610, 2334382); (19760611, 2309181); (19760612, 2285410); (19760613, 2262319); (19760614, 2239398); (19760615, 2216076);
  (19760616, 2192445); (19760617, 2168584); (19760618, 2144753); (19760619, 2121162); (19760620, 2098221); (19760621, 2076060); (19760622, 2054808); (19760623, 2034517);
  (19760624, 2015176); (19760625, 1996475); (19760626, 1978204); (19760627, 1959863); (19760628, 1940961); (19760629, 1920850); (19760630, 1899319); (19760701, 1875928);
  (19760702, 1850987); (19760703, 1824836); (19760704, 1798115); (19760705, 1771613); (19760706, 1745752); (19760707, 1720991); (19760708, 1697390); (19760709, 1674679);
  (19760710, 1652418); (19760711, 1629966); (19760712, 1606935); (19760713, 1583024); (19760714, 1558463); (19760715, 1533442); (19760716, 1508421); (19760717, 1483649);
  (19760718, 1459528); (19760719, 1436077); (19760720, 1413616); (19760721, 1392145); (19760722, 1371314); (19760723, 1351032); (19760724, 1330721); (19760725, 1309980);
  (19760726, 1288319); (19760727, 1265168); (19760728, 1240266); (19760729, 1213825); (19760730, 1185974); (19760731, 1157603); (19760801, 1129422); (19760802, 1102241);
  (19760803, 1076469); (19760804, 1052168); (19760805, 1029087); (19760806, 1006906); (19760807, 984935); (19760808, 962863); (19760809, 940212); (19760810, 916921);
  (19760811, 893270); (19760812, 869499); (19760813, 846018); (19760814, 823086); (19760815, 800955); (19760816, 779814); (19760817, 759583); (19760818, 740162);
  (19760819, 721220); (19760820, 702319); (19760821, 683058); (19760822, 662857); (19760823, 640986); (19760824, 617254); (19760825, 591283); (19760826, 563432);
  (19760827, 534111); (19760828, 504420); (19760829, 475178); (19760830, 447017); (19760831, 420046); (19760901, 394245); (19760902, 369004); (19760903, 343632);
  (19760904, 317761); (19760905, 290880); (19760906, 262909); (19760907, 233717); (19760908, 203646); (19760909, 173095); (19760910, 142434); (19760911, 112083);
  (19760912, 82061); (19760913, 52650); (19760914, 23809); (19760915, -4562); (19760916, -32853); (19760917, -61265); (19760918, -90316); (19760919, -120597);
  (19760920, -152578); (19760921, -186400); (19760922, -222151); (19760923, -259592); (19760924, -297713); (19760925, -335634); (19760926, -372376); (19760927, -407487);
  (19760928, -440998); (19760929, -473209); (19760930, -504771); (19761001, -536302); (19761002, -568343); (19761003, -600904); (19761004, -634105); (19761005, -667777);
  (19761006, -701538); (19761007, -735139); (19761008, -768240); (19761009, -800482); (19761010, -831943); (19761011, -862404); (19761012, -892135); (19761013, -921367);
  (19761014, -950658); (19761015, -980239); (19761016, -1010690); (19761017, -1042362); (19761018, -1075863); (19761019, -1111074); (19761020, -1148185); (19761021, -1186497);
  (19761022, -1225198); (19761023, -1263529); (19761024, -1300540); (19761025, -1335871); (19761026, -1369813); (19761027, -1402724); (19761028, -1435265); (19761029, -1468146);
  (19761030, -1501348); (19761031, -1534989); (19761101, -1568820); (19761102, -1602691); (19761103, -1636143); (19761104, -1668944); (19761105, -1700765); (19761106, -1731516);
  (19761107, -1761078); (19761108, -1789559); (19761109, -1817260); (19761110, -1844302); (19761111, -1871273); (19761112, -1898584); (19761113, -1926465); (19761114, -1955487);
  (19761115, -1985998); (19761116, -2017899); (19761117, -2051050); (19761118, -2084982); (19761119, -2118953); (19761120, -2152134); (19761121, -2184005); (19761122, -2214477);
  (19761123, -2243948); (19761124, -2273079); (19761125, -2302440); (19761126, -2332312); (19761127, -2362843); (19761128, -2393994); (19761129, -2425256); (19761130, -2456437);
  (19761201, -2487168); (19761202, -2517309); (19761203, -2546611); (19761204, -2574982); (19761205, -2602513); (19761206, -2629314); (19761207, -2655656); (19761208, -2681927);
  (19761209, -2708398); (19761210, -2735600); (19761211, -2763751); (19761212, -2793082); (19761213, -2823333); (19761214, -2854705); (19761215, -2886586); (19761216, -2918387);
  (19761217, -2949678); (19761218, -2979610); (19761219, -3008261); (19761220, -3035542); (19761221, -3062154); (19761222, -3088705); (19761223, -3115666); (19761224, -3143167);
  (19761225, -3171259); (19761226, -3199610); (19761227, -3227861); (19761228, -3255753); (19761229, -3282924); (19761230, -3309315); (19761231, -3334846); (19770101, 6640352);
  (19770102, 6616291); (19770103, 6592480); (19770104, 6568658); (19770105, 6544407); (19770106, 6519226); (19770107, 6492834); (19770108, 6465003); (19770109, 6435602);
  (19770110, 6405021); (19770111, 6373489); (19770112, 6341788); (19770113, 6310277); (19770114, 6279635); (19770115, 6250104); (19770116, 6221523); (19770117, 6193602);
  (19770118, 6165790); (19770119, 6137639); (19770120, 6108678); (19770121, 6078976); (19770122, 6048795); (19770123, 6018584); (19770124, 5988762); (19770125, 5959701);
  (19770126, 5931640); (19770127, 5904778); (19770128, 5878927); (19770129, 5854146); (19770130, 5829965); (19770131, 5806223); (19770201, 5782372); (19770202, 5757991);
  (19770203, 5732659); (19770204, 5706048); (19770205, 5678047); (19770206, 5648885); (19770207, 5618814); (19770208, 5588563); (19770209, 5558831); (19770210, 5530070);
  (19770211, 5502639); (19770212, 5476487); (19770213, 5451186); (19770214, 5426215); (19770215, 5400904); (19770216, 5374792); (19770217, 5347681); (19770218, 5319660);
  (19770219, 5290978); (19770220, 5262117); (19770221, 5233516); (19770222, 5205614); (19770223, 5178393); (19770224, 5152112); (19770225, 5126590); (19770226, 5101619);
  (19770227, 5076868); (19770228, 5052026); (19770301, 5026605); (19770302, 5000074); (19770303, 4972222); (19770304, 4942701); (19770305, 4911490); (19770306, 4878888);
  (19770307, 4845607); (19770308, 4812376); (19770309, 4779884); (19770310, 4748543); (19770311, 4718602); (19770312, 4689480); (19770313, 4660659); (19770314, 4631568);
  (19770315, 4601616); (19770316, 4570435); (19770317, 4538154); (19770318, 4504472); (19770319, 4470271); (19770320, 4435880); (19770321, 4401718); (19770322, 4368237);
  (19770323, 4335376); (19770324, 4303494); (19770325, 4272443); (19770326, 4242062); (19770327, 4211980); (19770328, 4181859); (19770329, 4151228); (19770330, 4119776);
  (19770331, 4087055); (19770401, 4052984); (19770402, 4017732); (19770403, 3981631); (19770404, 3945510); (19770405, 3910098); (19770406, 3876107); (19770407, 3843966);
  (19770408, 3813254); (19770409, 3783423); (19770410, 3753792); (19770411, 3724020); (19770412, 3693299); (19770413, 3661757); (19770414, 3629276); (19770415, 3596345);
  (19770416, 3563023); (19770417, 3529772); (19770418, 3496791); (19770419, 3464569); (19770420, 3433028); (19770421, 3402147); (19770422, 3371705); (19770423, 3341514);
  (19770424, 3311153); (19770425, 3280321); (19770426, 3248700); (19770427, 3215919); (19770428, 3181937); (19770429, 3146576); (19770430, 3109924); (19770501, 3072673);
  (19770502, 3035552); (19770503, 2999150); (19770504, 2964229); (19770505, 2930838); (19770506, 2898796); (19770507, 2867445); (19770508, 2836324); (19770509, 2804842);
  (19770510, 2773091); (19770511, 2740999); (19770512, 2709038); (19770513, 2677417); (19770514, 2646545); (19770515, 2616514); (19770516, 2587703); (19770517, 2560071);
  (19770518, 2533560); (19770519, 2508149); (19770520, 2483347); (19770521, 2458916); (19770522, 2434464); (19770523, 2409613); (19770524, 2384002); (19770525, 2357500);
  (19770526, 2329889); (19770527, 2301248); (19770528, 2271736); (19770529, 2242005); (19770530, 2212593); (19770531, 2184252); (19770601, 2157001); (19770602, 2131109);
  (19770603, 2105848); (19770604, 2080907); (19770605, 2055515); (19770606, 2029674); (19770607, 2003492); (19770608, 1977301); (19770609, 1951570); (19770610, 1926448);
  (19770611, 1902397); (19770612, 1879506); (19770613, 1857934); (19770614, 1837543); (19770615, 1818351); (19770616, 1799870); (19770617, 1781749); (19770618, 1763817);
  (19770619, 1745486); (19770620, 1726545); (19770621, 1706743); (19770622, 1685962); (19770623, 1664170); (19770624, 1641699); (19770625, 1618958); (19770626, 1596236);
  (19770627, 1574295); (19770628, 1553383); (19770629, 1533612); (19770630, 1514621); (19770701, 1495879); (19770702, 1476938); (19770703, 1457227); (19770704, 1436925);
  (19770705, 1416254); (19770706, 1395562); (19770707, 1375351); (19770708, 1356020); (19770709, 1337718); (19770710, 1320497); (19770711, 1304165); (19770712, 1288634);
  (19770713, 1273543); (19770714, 1258641); (19770715, 1243430); (19770716, 1227308); (19770717, 1210257); (19770718, 1191886); (19770719, 1172074); (19770720, 1150873);
  (19770721, 1128631); (19770722, 1105750); (19770723, 1082829); (19770724, 1060357); (19770725, 1038636); (19770726, 1017914); (19770727, 997993); (19770728, 978572);
  (19770729, 959070); (19770730, 938919); (19770731, 918097); (19770801, 896656); (19770802, 874965); (19770803, 853653); (19770804, 833322); (19770805, 814000);
  (19770806, 796029); (19770807, 779328); (19770808, 763646); (19770809, 748755); (19770810, 734103); (19770811, 719482); (19770812, 704171); (19770813, 687999);
  (19770814, 670448); (19770815, 651316); (19770816, 630715); (19770817, 608624); (19770818, 585622); (19770819, 562231); (19770820, 538919); (19770821, 515968);
  (19770822, 493717); (19770823, 471815); (19770824, 449964); (19770825, 427552); (19770826, 404051); (19770827, 379020); (19770828, 352608); (19770829, 325087);
  (19770830, 296675); (19770831, 268344); (19770901, 240352); (19770902, 213191); (19770903, 186920); (19770904, 161378); (19770905, 136557); (19770906, 111935);
  (19770907, 87314); (19770908, 62273); (19770909, 36291); (19770910, 9200); (19770911, -19162); (19770912, -48973); (19770913, -80084); (19770914, -112206);
  (19770915, -144687); (19770916, -176849); (19770917, -208150); (19770918, -238402); (19770919, -267373); (19770920, -295754); (19770921, -323946); (19770922, -352377);
  (19770923, -381439); (19770924, -411530); (19770925, -442321); (19770926, -473533); (19770927, -504684); (19770928, -535286); (19770929, -564817); (19770930, -593189);
  (19771001, -620520); (19771002, -646931); (19771003, -672623); (19771004, -698134); (19771005, -723796); (19771006, -750197); (19771007, -777549); (19771008, -806270);
  (19771009, -836851); (19771010, -869123); (19771011, -902884); (19771012, -937736); (19771013, -972997); (19771014, -1008089); (19771015, -1042320); (19771016, -1075741);
  (19771017, -1108333); (19771018, -1140864); (19771019, -1173586); (19771020, -1207027); (19771021, -1241309); (19771022, -1276270); (19771023, -1311691); (19771024, -1347063);
  (19771025, -1381964); (19771026, -1415896); (19771027, -1448677); (19771028, -1480149); (19771029, -1510290); (19771030, -1539521); (19771031, -1567963); (19771101, -1596034);
  (19771102, -1624306); (19771103, -1653027); (19771104, -1682729); (19771105, -1713450); (19771106, -1745521); (19771107, -1778783); (19771108, -1813194); (19771109, -1848046);
  (19771110, -1882837); (19771111, -1916959); (19771112, -1950050); (19771113, -1982091); (19771114, -2013493); (19771115, -2044794); (19771116, -2076516); (19771117, -2108767);
  (19771118, -2141629); (19771119, -2174640); (19771120, -2207572); (19771121, -2239883); (19771122, -2271404); (19771123, -2301746); (19771124, -2330817); (19771125, -2358629);
  (19771126, -2385380); (19771127, -2411352); (19771128, -2437093); (19771129, -2462824); (19771130, -2488956); (19771201, -2515897); (19771202, -2543879); (19771203, -2572970);
  (19771204, -2603252); (19771205, -2634793); (19771206, -2667095); (19771207, -2699986); (19771208, -2732927); (19771209, -2765679); (19771210, -2797760); (19771211, -2829652);
  (19771212, -2861733); (19771213, -2894775); (19771214, -2928796); (19771215, -2964058); (19771216, -2999979); (19771217, -3036210); (19771218, -3072182); (19771219, -3107373);
  (19771220, -3141505); (19771221, -3174416); (19771222, -3206028); (19771223, -3236489); (19771224, -3265971); (19771225, -3295002); (19771226, -3323783); (19771227, -3352605);
  (19771228, -3381936); (19771229, -3411978); (19771230, -3442809); (19771231, -3474531); (19780101, 6492998); (19780102, 6459906); (19780103, 6426775); (19780104, 6393814);
  (19780105, 6361472); (19780106, 6329911); (19780107, 6298989); (19780108, 6268418); (19780109, 6237586); (19780110, 6205895); (19780111, 6173233); (19780112, 6139692);
  (19780113, 6105830); (19780114, 6072239); (19780115, 6039358); (19780116, 6007496); (19780117, 5976695); (19780118, 5947233); (19780119, 5918642); (19780120, 5891000);
  (19780121, 5863729); (19780122, 5836677); (19780123, 5809336); (19780124, 5781365); (19780125, 5752633); (19780126, 5722862); (19780127, 5692010); (19780128, 5660219);
  (19780129, 5627657); (19780130, 5594696); (19780131, 5561644); (19780201, 5528953); (19780202, 5496701); (19780203, 5464890); (19780204, 5433149); (19780205, 5401087);
  (19780206, 5367946); (19780207, 5333264); (19780208, 5296943); (19780209, 5259551); (19780210, 5221490); (19780211, 5183328); (19780212, 5145787); (19780213, 5109255);
  (19780214, 5073584); (19780215, 5038952); (19780216, 5004831); (19780217, 4971110); (19780218, 4937468); (19780219, 4903477); (19780220, 4868775); (19780221, 4833234);
  (19780222, 4797062); (19780223, 4760161); (19780224, 4722489); (19780225, 4684548); (19780226, 4646716); (19780227, 4609295); (19780228, 4572814); (19780301, 4537292);
  (19780302, 4502961); (19780303, 4469499); (19780304, 4436448); (19780305, 4403166); (19780306, 4369185); (19780307, 4334333); (19780308, 4298412); (19780309, 4261880);
  (19780310, 4225339); (19780311, 4189387); (19780312, 4154566); (19780313, 4121095); (19780314, 4088783); (19780315, 4057622); (19780316, 4027210); (19780317, 3997279);
  (19780318, 3967217); (19780319, 3936706); (19780320, 3905354); (19780321, 3872923); (19780322, 3839231); (19780323, 3804380); (19780324, 3768408); (19780325, 3731727);
  (19780326, 3694896); (19780327, 3658494); (19780328, 3622893); (19780329, 3588361); (19780330, 3554600); (19780331, 3521228); (19780401, 3487807); (19780402, 3453855);
  (19780403, 3418944); (19780404, 3383022); (19780405, 3346281); (19780406, 3309219); (19780407, 3272448); (19780408, 3236417); (19780409, 3201575); (19780410, 3168054);
  (19780411, 3135832); (19780412, 3104491); (19780413, 3073879); (19780414, 3043518); (19780415, 3013086); (19780416, 2982085); (19780417, 2950213); (19780418, 2917442);
  (19780419, 2883590); (19780420, 2848809); (19780421, 2813337); (19780422, 2777516); (19780423, 2742145); (19780424, 2707583); (19780425, 2674132); (19780426, 2641900);
  (19780427, 2610569); (19780428, 2579517); (19780429, 2548256); (19780430, 2516524); (19780501, 2484253); (19780502, 2451361); (19780503, 2418130); (19780504, 2384998);
  (19780505, 2352397); (19780506, 2320805); (19780507, 2290244); (19780508, 2260883); (19780509, 2232431); (19780510, 2204610); (19780511, 2177058); (19780512, 2149387);
  (19780513, 2121325); (19780514, 2092534); (19780515, 2062742); (19780516, 2031771); (19780517, 1999789); (19780518, 1966798); (19780519, 1933326); (19780520, 1899555);
  (19780521, 1866223); (19780522, 1833622); (19780523, 1802001); (19780524, 1771229); (19780525, 1740938); (19780526, 1710426); (19780527, 1679425); (19780528, 1647893);
  (19780529, 1616022); (19780530, 1584150); (19780531, 1552859); (19780601, 1522577); (19780602, 1493756); (19780603, 1466504); (19780604, 1440873); (19780605, 1416781)].
Definition eop_c04_data_6 : list (Z * Z) := [
  (19780606, 1393900); (19780607, 1371988); (19780608, 1350457); (19780609, 1329166); (19780610, 1307554); (19780611, 1285593); (19780612, 1263051); (19780613, 1239760);
  (19780614, 1215908); (19780615, 1191717); (19780616, 1167275); (19780617, 1143154); (19780618, 1119502); (19780619, 1096791); (19780620, 1074899); (19780621, 1053518);
  (19780622, 1032056); (19780623, 1009985); (19780624, 987053); (19780625, 963492); (19780626, 939421); (19780627, 915379); (19780628, 892108); (19780629, 869796);
  (19780630, 848755); (19780701, 828973); (19780702, 810352); (19780703, 792540); (19780704, 775379); (19780705, 758527); (19780706, 741696); (19780707, 724564);
  (19780708, 706783); (19780709, 688361); (19780710, 669190); (19780711, 649418); (19780712, 629137); (19780713, 608616); (19780714, 588254); (19780715, 568393);
  (19780716, 549291); (19780717, 530820); (19780718, 513008); (19780719, 495287); (19780720, 477015); (19780721, 457694); (19780722, 437332); (19780723, 416131);
  (19780724, 394699); (19780725, 373758); (19780726, 353826); (19780727, 335155); (19780728, 317713); (19780729, 301502); (19780730, 286041); (19780731, 271009);
  (19780801, 256088); (19780802, 240816); (19780803, 224835); (19780804, 207753); (19780805, 189502); (19780806, 170000); (19780807, 149229); (19780808, 127447);
  (19780809, 104936); (19780810, 81834); (19780811, 58783); (19780812, 35871); (19780813, 13290); (19780814, -9172); (19780815, -31723); (19780816, -55064);
  (19780817, -79396); (19780818, -105157); (19780819, -132319); (19780820, -160190); (19780821, -188192); (19780822, -215373); (19780823, -241325); (19780824, -266026);
  (19780825, -289228); (19780826, -311449); (19780827, -332871); (19780828, -353982); (19780829, -375204); (19780830, -396925); (19780831, -419286); (19780901, -442568);
  (19780902, -466919); (19780903, -492171); (19780904, -518222); (19780905, -544564); (19780906, -571035); (19780907, -597107); (19780908, -622538); (19780909, -647010);
  (19780910, -670751); (19780911, -694053); (19780912, -717524); (19780913, -741676); (19780914, -766857); (19780915, -793409); (19780916, -821360); (19780917, -849891);
  (19780918, -878433); (19780919, -906464); (19780920, -933536); (19780921, -959517); (19780922, -984589); (19780923, -1009140); (19780924, -1033552); (19780925, -1058203);
  (19780926, -1083495); (19780927, -1109706); (19780928, -1137198); (19780929, -1166129); (19780930, -1196471); (19781001, -1227972); (19781002, -1260323); (19781003, -1293295);
  (19781004, -1326106); (19781005, -1358468); (19781006, -1390089); (19781007, -1420931); (19781008, -1451242); (19781009, -1481434); (19781010, -1511945); (19781011, -1543447);
  (19781012, -1575968); (19781013, -1609440); (19781014, -1643631); (19781015, -1677763); (19781016, -1711224); (19781017, -1743475); (19781018, -1774157); (19781019, -1803268);
  (19781020, -1831050); (19781021, -1858041); (19781022, -1884463); (19781023, -1910824); (19781024, -1937556); (19781025, -1964947); (19781026, -1993259); (19781027, -2022550);
  (19781028, -2052682); (19781029, -2083723); (19781030, -2115385); (19781031, -2147056); (19781101, -2178537); (19781102, -2209349); (19781103, -2239440); (19781104, -2268882);
  (19781105, -2298163); (19781106, -2327755); (19781107, -2358166); (19781108, -2389628); (19781109, -2422199); (19781110, -2455541); (19781111, -2489352); (19781112, -2522994);
  (19781113, -2555765); (19781114, -2587516); (19781115, -2617988); (19781116, -2647419); (19781117, -2675971); (19781118, -2704032); (19781119, -2732074); (19781120, -2760415);
  (19781121, -2789407); (19781122, -2819258); (19781123, -2850030); (19781124, -2881761); (19781125, -2914233); (19781126, -2947264); (19781127, -2980565); (19781128, -3013647);
  (19781129, -3046348); (19781130, -3078100); (19781201, -3109181); (19781202, -3139673); (19781203, -3170074); (19781204, -3201016); (19781205, -3232717); (19781206, -3265209);
  (19781207, -3298280); (19781208, -3331352); (19781209, -3364043); (19781210, -3395724); (19781211, -3426146); (19781212, -3455077); (19781213, -3482659); (19781214, -3509030);
  (19781215, -3534612); (19781216, -3559803); (19781217, -3584985); (19781218, -3610356); (19781219, -3636308); (19781220, -3663079); (19781221, -3690641); (19781222, -3718902);
  (19781223, -3748043); (19781224, -3777635); (19781225, -3807476); (19781226, -3837288); (19781227, -3866879); (19781228, -3896031); (19781229, -3925102); (19781230, -3954394);
  (19781231, -3984455); (19790101, 5984263); (19790102, 5951622); (19790103, 5918001); (19790104, 5883829); (19790105, 5849888); (19790106, 5816736); (19790107, 5784855);
  (19790108, 5754283); (19790109, 5725162); (19790110, 5697150); (19790111, 5670139); (19790112, 5643717); (19790113, 5617396); (19790114, 5590965); (19790115, 5564233);
  (19790116, 5536742); (19790117, 5508620); (19790118, 5479819); (19790119, 5450467); (19790120, 5420616); (19790121, 5390594); (19790122, 5360443); (19790123, 5330532);
  (19790124, 5300820); (19790125, 5271489); (19790126, 5242107); (19790127, 5211946); (19790128, 5180644); (19790129, 5148003); (19790130, 5113961); (19790131, 5079010);
  (19790201, 5044128); (19790202, 5010037); (19790203, 4977356); (19790204, 4946474); (19790205, 4917293); (19790206, 4889641); (19790207, 4863160); (19790208, 4837458);
  (19790209, 4812007); (19790210, 4786625); (19790211, 4760814); (19790212, 4734463); (19790213, 4707521); (19790214, 4679880); (19790215, 4651758); (19790216, 4623327);
  (19790217, 4594745); (19790218, 4566424); (19790219, 4538572); (19790220, 4511191); (19790221, 4484250); (19790222, 4457468); (19790223, 4430207); (19790224, 4402005);
  (19790225, 4372324); (19790226, 4340862); (19790227, 4307961); (19790228, 4274319); (19790301, 4240708); (19790302, 4208067); (19790303, 4176905); (19790304, 4147414);
  (19790305, 4119392); (19790306, 4092521); (19790307, 4066359); (19790308, 4040348); (19790309, 4014276); (19790310, 3987685); (19790311, 3960324); (19790312, 3932032);
  (19790313, 3902821); (19790314, 3872689); (19790315, 3841948); (19790316, 3810876); (19790317, 3779725); (19790318, 3748934); (19790319, 3718622); (19790320, 3688811);
  (19790321, 3659369); (19790322, 3629808); (19790323, 3599646); (19790324, 3568385); (19790325, 3535613); (19790326, 3501152); (19790327, 3465651); (19790328, 3429729);
  (19790329, 3394278); (19790330, 3359986); (19790331, 3327445); (19790401, 3296543); (19790402, 3267072); (19790403, 3238571); (19790404, 3210639); (19790405, 3182738);
  (19790406, 3154566); (19790407, 3125715); (19790408, 3096073); (19790409, 3065412); (19790410, 3033951); (19790411, 3001669); (19790412, 2968818); (19790413, 2935866);
  (19790414, 2903145); (19790415, 2870843); (19790416, 2839172); (19790417, 2807971); (19790418, 2777079); (19790419, 2745898); (19790420, 2713986); (19790421, 2680945);
  (19790422, 2646663); (19790423, 2611182); (19790424, 2575231); (19790425, 2539339); (19790426, 2504418); (19790427, 2471146); (19790428, 2439785); (19790429, 2410043);
  (19790430, 2381802); (19790501, 2354451); (19790502, 2327589); (19790503, 2300708); (19790504, 2273566); (19790505, 2245825); (19790506, 2217363); (19790507, 2188202);
  (19790508, 2158541); (19790509, 2128279); (19790510, 2097948); (19790511, 2067846); (19790512, 2038135); (19790513, 2009103); (19790514, 1980842); (19790515, 1952971);
  (19790516, 1925219); (19790517, 1896938); (19790518, 1867946); (19790519, 1837805); (19790520, 1806884); (19790521, 1775412); (19790522, 1744101); (19790523, 1713559);
  (19790524, 1684358); (19790525, 1656986); (19790526, 1631375); (19790527, 1607544); (19790528, 1584872); (19790529, 1562941); (19790530, 1541529); (19790531, 1520078);
  (19790601, 1498397); (19790602, 1476235); (19790603, 1453594); (19790604, 1430512); (19790605, 1407201); (19790606, 1383860); (19790607, 1360518); (19790608, 1337537);
  (19790609, 1315165); (19790610, 1293314); (19790611, 1271922); (19790612, 1250511); (19790613, 1228610); (19790614, 1205618); (19790615, 1181307); (19790616, 1155685);
  (19790617, 1129294); (19790618, 1102653); (19790619, 1076441); (19790620, 1051020); (19790621, 1026928); (19790622, 1004267); (19790623, 982776); (19790624, 962264);
  (19790625, 942163); (19790626, 922181); (19790627, 901940); (19790628, 881379); (19790629, 860197); (19790630, 838356); (19790701, 816164); (19790702, 793623);
  (19790703, 771012); (19790704, 748520); (19790705, 726349); (19790706, 704827); (19790707, 684006); (19790708, 664025); (19790709, 644293); (19790710, 624592);
  (19790711, 604150); (19790712, 582589); (19790713, 560078); (19790714, 536706); (19790715, 513345); (19790716, 490643); (19790717, 469312); (19790718, 449531);
  (19790719, 431459); (19790720, 415008); (19790721, 399696); (19790722, 385145); (19790723, 370804); (19790724, 356382); (19790725, 341491); (19790726, 325949);
  (19790727, 309578); (19790728, 292367); (19790729, 274485); (19790730, 256134); (19790731, 237382); (19790801, 218541); (19790802, 199700); (19790803, 180868);
  (19790804, 162237); (19790805, 143425); (19790806, 124074); (19790807, 103613); (19790808, 81381); (19790809, 57360); (19790810, 31729); (19790811, 5067);
  (19790812, -21664); (19790813, -47596); (19790814, -72187); (19790815, -95028); (19790816, -116140); (19790817, -135841); (19790818, -154743); (19790819, -173164);
  (19790820, -191465); (19790821, -209957); (19790822, -228968); (19790823, -248489); (19790824, -268531); (19790825, -288972); (19790826, -309514); (19790827, -330065);
  (19790828, -350286); (19790829, -370168); (19790830, -389479); (19790831, -408430); (19790901, -427092); (19790902, -446043); (19790903, -465685); (19790904, -486826);
  (19790905, -509827); (19790906, -534889); (19790907, -561580); (19790908, -589101); (19790909, -616393); (19790910, -642544); (19790911, -667156); (19790912, -689987);
  (19790913, -711428); (19790914, -731970); (19790915, -751901); (19790916, -771932); (19790917, -792264); (19790918, -813125); (19790919, -834837); (19790920, -857348);
  (19790921, -880699); (19790922, -904591); (19790923, -928972); (19790924, -953563); (19790925, -977975); (19790926, -1002226); (19790927, -1026177); (19790928, -1049979);
  (19790929, -1074050); (19790930, -1098792); (19791001, -1124633); (19791002, -1152234); (19791003, -1181816); (19791004, -1213397); (19791005, -1246198); (19791006, -1279320);
  (19791007, -1311931); (19791008, -1343112); (19791009, -1372514); (19791010, -1400185); (19791011, -1426566); (19791012, -1452078); (19791013, -1477339); (19791014, -1502721);
  (19791015, -1528442); (19791016, -1554943); (19791017, -1581995); (19791018, -1609706); (19791019, -1637867); (19791020, -1666199); (19791021, -1694130); (19791022, -1721551);
  (19791023, -1748223); (19791024, -1774014); (19791025, -1798975); (19791026, -1823267); (19791027, -1847558); (19791028, -1872299); (19791029, -1897981); (19791030, -1925102);
  (19791031, -1953784); (19791101, -1983705); (19791102, -2014256); (19791103, -2044558); (19791104, -2073829); (19791105, -2101320); (19791106, -2127112); (19791107, -2151193);
  (19791108, -2174344); (19791109, -2196866); (19791110, -2219497); (19791111, -2242328); (19791112, -2265940); (19791113, -2290291); (19791114, -2315232); (19791115, -2340844);
  (19791116, -2366845); (19791117, -2392866); (19791118, -2418818); (19791119, -2444159); (19791120, -2468960); (19791121, -2492952); (19791122, -2516363); (19791123, -2539624);
  (19791124, -2563306); (19791125, -2587997); (19791126, -2614018); (19791127, -2641470); (19791128, -2670301); (19791129, -2699922); (19791130, -2729864); (19791201, -2759295);
  (19791202, -2787596); (19791203, -2814428); (19791204, -2839849); (19791205, -2864190); (19791206, -2887822); (19791207, -2911353); (19791208, -2935174); (19791209, -2959496);
  (19791210, -2984327); (19791211, -3009998); (19791212, -3036140); (19791213, -3062551); (19791214, -3089152); (19791215, -3115504); (19791216, -3141475); (19791217, -3166746);
  (19791218, -3191318); (19791219, -3215149); (19791220, -3238650); (19791221, -3262171); (19791222, -3286413); (19791223, -3311794); (19791224, -3338485); (19791225, -3366387);
  (19791226, -3394808); (19791227, -3423349); (19791228, -3451201); (19791229, -3477952); (19791230, -3503143); (19791231, -3526975); (19800101, 6450414); (19800102, 6428473);
  (19800103, 6406841); (19800104, 6384880); (19800105, 6362489); (19800106, 6339388); (19800107, 6315316); (19800108, 6290515); (19800109, 6265034); (19800110, 6239112);
  (19800111, 6213091); (19800112, 6187000); (19800113, 6161208); (19800114, 6135817); (19800115, 6110716); (19800116, 6085694); (19800117, 6060563); (19800118, 6034802);
  (19800119, 6007981); (19800120, 5979729); (19800121, 5950198); (19800122, 5919927); (19800123, 5889685); (19800124, 5860064); (19800125, 5831983); (19800126, 5805671);
  (19800127, 5781250); (19800128, 5758479); (19800129, 5736818); (19800130, 5715946); (19800131, 5695265); (19800201, 5674584); (19800202, 5653602); (19800203, 5631961);
  (19800204, 5609840); (19800205, 5587229); (19800206, 5564517); (19800207, 5541976); (19800208, 5519955); (19800209, 5498833); (19800210, 5478242); (19800211, 5458231);
  (19800212, 5438250); (19800213, 5417948); (19800214, 5396317); (19800215, 5372916); (19800216, 5347254); (19800217, 5319073); (19800218, 5288722); (19800219, 5257211);
  (19800220, 5225509); (19800221, 5194428); (19800222, 5164487); (19800223, 5136095); (19800224, 5109424); (19800225, 5084233); (19800226, 5060082); (19800227, 5036660);
  (19800228, 5013529); (19800229, 4990458); (19800301, 4967296); (19800302, 4943945); (19800303, 4920534); (19800304, 4897273); (19800305, 4874211); (19800306, 4851660);
  (19800307, 4829639); (19800308, 4807998); (19800309, 4786916); (19800310, 4766125); (19800311, 4745264); (19800312, 4723893); (19800313, 4701431); (19800314, 4677030);
  (19800315, 4650469); (19800316, 4621707); (19800317, 4591076); (19800318, 4559655); (19800319, 4528554); (19800320, 4498732); (19800321, 4470511); (19800322, 4443910);
  (19800323, 4418309); (19800324, 4393467); (19800325, 4368586); (19800326, 4343385); (19800327, 4317434); (19800328, 4290712); (19800329, 4263231); (19800330, 4235130);
  (19800331, 4206639); (19800401, 4178067); (19800402, 4149706); (19800403, 4121945); (19800404, 4095004); (19800405, 4069052); (19800406, 4044211); (19800407, 4020120);
  (19800408, 3996249); (19800409, 3972197); (19800410, 3947126); (19800411, 3920625); (19800412, 3892234); (19800413, 3862142); (19800414, 3831091); (19800415, 3799870);
  (19800416, 3769469); (19800417, 3740427); (19800418, 3713256); (19800419, 3687575); (19800420, 3663044); (19800421, 3638942); (19800422, 3614641); (19800423, 3589800);
  (19800424, 3564309); (19800425, 3538157); (19800426, 3511376); (19800427, 3484235); (19800428, 3457044); (19800429, 3430293); (19800430, 3404381); (19800501, 3379320);
  (19800502, 3355279); (19800503, 3332068); (19800504, 3309556); (19800505, 3287305); (19800506, 3264904); (19800507, 3241703); (19800508, 3217271); (19800509, 3191210);
  (19800510, 3163369); (19800511, 3134248); (19800512, 3104507); (19800513, 3075135); (19800514, 3047014); (19800515, 3020653); (19800516, 2995992); (19800517, 2972680);
  (19800518, 2950249); (19800519, 2928178); (19800520, 2905937); (19800521, 2883276); (19800522, 2860004); (19800523, 2836203); (19800524, 2812102); (19800525, 2788181);
  (19800526, 2764659); (19800527, 2741968); (19800528, 2720267); (19800529, 2699636); (19800530, 2680115); (19800531, 2661613); (19800601, 2643932); (19800602, 2626371);
  (19800603, 2608490); (19800604, 2589699); (19800605, 2569677); (19800606, 2548296); (19800607, 2525695); (19800608, 2502544); (19800609, 2479223); (19800610, 2456431);
  (19800611, 2434860); (19800612, 2414869); (19800613, 2396238); (19800614, 2378437); (19800615, 2360965); (19800616, 2343224); (19800617, 2325023); (19800618, 2306232);
  (19800619, 2286781); (19800620, 2266979); (19800621, 2246928); (19800622, 2226997); (19800623, 2207436); (19800624, 2188595); (19800625, 2170443); (19800626, 2153262);
  (19800627, 2137101); (19800628, 2121650); (19800629, 2106569); (19800630, 2091317); (19800701, 2075326); (19800702, 2058245); (19800703, 2039804); (19800704, 2020393);
  (19800705, 2000492); (19800706, 1980640); (19800707, 1961599); (19800708, 1943838); (19800709, 1927437); (19800710, 1912296); (19800711, 1898264); (19800712, 1884583);
  (19800713, 1870792); (19800714, 1856631); (19800715, 1841650); (19800716, 1825999); (19800717, 1809647); (19800718, 1792796); (19800719, 1775665); (19800720, 1758584);
  (19800721, 1741753); (19800722, 1725482); (19800723, 1709830); (19800724, 1694679); (19800725, 1679888); (19800726, 1665267); (19800727, 1650136); (19800728, 1634065);
  (19800729, 1616533); (19800730, 1597562); (19800731, 1577421); (19800801, 1556700); (19800802, 1536259); (19800803, 1516898); (19800804, 1499126); (19800805, 1483125);
  (19800806, 1468674); (19800807, 1455553); (19800808, 1442792); (19800809, 1430091); (19800810, 1416760); (19800811, 1402698); (19800812, 1387757); (19800813, 1371856);
  (19800814, 1355185); (19800815, 1337874); (19800816, 1320323); (19800817, 1302701); (19800818, 1285440); (19800819, 1268409); (19800820, 1251718); (19800821, 1235007);
  (19800822, 1218276); (19800823, 1200975); (19800824, 1182533); (19800825, 1162522); (19800826, 1140391); (19800827, 1116410); (19800828, 1091049); (19800829, 1065238);
  (19800830, 1040107); (19800831, 1016295); (19800901, 994354); (19800902, 974073); (19800903, 955172); (19800904, 937001); (19800905, 918830); (19800906, 900159);
  (19800907, 880538); (19800908, 859906); (19800909, 838155); (19800910, 815584); (19800911, 792403); (19800912, 768822); (19800913, 745191); (19800914, 721720);
  (19800915, 698829); (19800916, 676547); (19800917, 654636); (19800918, 633165); (19800919, 611604); (19800920, 589613); (19800921, 566482); (19800922, 541871);
  (19800923, 515240); (19800924, 486928); (19800925, 457547); (19800926, 428006); (19800927, 399405); (19800928, 372624); (19800929, 347853); (19800930, 324722);
  (19801001, 302861); (19801002, 281620); (19801003, 260268); (19801004, 238407); (19801005, 215976); (19801006, 192635); (19801007, 168594); (19801008, 143953);
  (19801009, 119042); (19801010, 94141); (19801011, 69510); (19801012, 45499); (19801013, 21967); (19801014, -1054); (19801015, -23645); (19801016, -46236);
  (19801017, -69107); (19801018, -93008); (19801019, -118519); (19801020, -145990); (19801021, -175661); (19801022, -207212); (19801023, -239754); (19801024, -271985);
  (19801025, -302976); (19801026, -331997); (19801027, -358988); (19801028, -384339); (19801029, -408540); (19801030, -432471); (19801031, -456562); (19801101, -481093);
  (19801102, -506104); (19801103, -531525); (19801104, -557397); (19801105, -583118); (19801106, -608529); (19801107, -633290); (19801108, -657111); (19801109, -680042);
  (19801110, -701933); (19801111, -723084); (19801112, -743815); (19801113, -764576); (19801114, -785807); (19801115, -808328); (19801116, -832609); (19801117, -858910);
  (19801118, -887222); (19801119, -917103); (19801120, -947874); (19801121, -978095); (19801122, -1007126); (19801123, -1034467); (19801124, -1060158); (19801125, -1084429);
  (19801126, -1107880); (19801127, -1131301); (19801128, -1154812); (19801129, -1178743); (19801130, -1202874); (19801201, -1227065); (19801202, -1251286); (19801203, -1275107);
  (19801204, -1298498); (19801205, -1321379); (19801206, -1343501); (19801207, -1364992); (19801208, -1385873); (19801209, -1406564); (19801210, -1427405); (19801211, -1448916);
  (19801212, -1471637); (19801213, -1495988); (19801214, -1522099); (19801215, -1549940); (19801216, -1579061); (19801217, -1608672); (19801218, -1637773); (19801219, -1665554);
  (19801220, -1691585); (19801221, -1715446); (19801222, -1737807); (19801223, -1759178); (19801224, -1780399); (19801225, -1801930); (19801226, -1823911); (19801227, -1846662);
  (19801228, -1869903); (19801229, -1893524); (19801230, -1917225); (19801231, -1941006); (19810101, -1964497); (19810102, -1987358); (19810103, -2009620); (19810104, -2031241);
  (19810105, -2052312); (19810106, -2073213); (19810107, -2094434); (19810108, -2116565); (19810109, -2140046); (19810110, -2165177); (19810111, -2191768); (19810112, -2219649);
  (19810113, -2248060); (19810114, -2276201); (19810115, -2303522); (19810116, -2329463); (19810117, -2353934); (19810118, -2377095); (19810119, -2399446); (19810120, -2421727);
  (19810121, -2444388); (19810122, -2467739); (19810123, -2491940); (19810124, -2516401); (19810125, -2540912); (19810126, -2565103); (19810127, -2588614); (19810128, -2611195);
  (19810129, -2632416); (19810130, -2652217); (19810131, -2670718); (19810201, -2688349); (19810202, -2705390); (19810203, -2722341); (19810204, -2739722); (19810205, -2758783);
  (19810206, -2780274); (19810207, -2804145); (19810208, -2830126); (19810209, -2857387); (19810210, -2885138); (19810211, -2912729); (19810212, -2939090); (19810213, -2964181);
  (19810214, -2988092); (19810215, -3011143); (19810216, -3033554); (19810217, -3056024); (19810218, -3078685); (19810219, -3101576); (19810220, -3124537); (19810221, -3147348);
  (19810222, -3170149); (19810223, -3192710); (19810224, -3214981); (19810225, -3236942); (19810226, -3258893); (19810227, -3280904); (19810228, -3303205); (19810301, -3325926)].
Definition eop_c04_data_7 : list (Z * Z) := [
  (19810302, -3349447); (19810303, -3374038); (19810304, -3400339); (19810305, -3428670); (19810306, -3459241); (19810307, -3491752); (19810308, -3525693); (19810309, -3560014);
  (19810310, -3593595); (19810311, -3625676); (19810312, -3656017); (19810313, -3684808); (19810314, -3712119); (19810315, -3738220); (19810316, -3763880); (19810317, -3789601);
  (19810318, -3815412); (19810319, -3841673); (19810320, -3867994); (19810321, -3894175); (19810322, -3919946); (19810323, -3945047); (19810324, -3969178); (19810325, -3992119);
  (19810326, -4014040); (19810327, -4035031); (19810328, -4055332); (19810329, -4075603); (19810330, -4096464); (19810331, -4118355); (19810401, -4142086); (19810402, -4167926);
  (19810403, -4196227); (19810404, -4226618); (19810405, -4258339); (19810406, -4290220); (19810407, -4321191); (19810408, -4350502); (19810409, -4378183); (19810410, -4404494);
  (19810411, -4430285); (19810412, -4455936); (19810413, -4482257); (19810414, -4509278); (19810415, -4537188); (19810416, -4565899); (19810417, -4595040); (19810418, -4624281);
  (19810419, -4653262); (19810420, -4681683); (19810421, -4709154); (19810422, -4735555); (19810423, -4760956); (19810424, -4785517); (19810425, -4809528); (19810426, -4833429);
  (19810427, -4857869); (19810428, -4883240); (19810429, -4910021); (19810430, -4938592); (19810501, -4968823); (19810502, -5000184); (19810503, -5031785); (19810504, -5062456);
  (19810505, -5091167); (19810506, -5117328); (19810507, -5141308); (19810508, -5163879); (19810509, -5185840); (19810510, -5207871); (19810511, -5230682); (19810512, -5254243);
  (19810513, -5278494); (19810514, -5303385); (19810515, -5328526); (19810516, -5353686); (19810517, -5378307); (19810518, -5402468); (19810519, -5425569); (19810520, -5447800);
  (19810521, -5469211); (19810522, -5490002); (19810523, -5510603); (19810524, -5531333); (19810525, -5552524); (19810526, -5574755); (19810527, -5598366); (19810528, -5623417);
  (19810529, -5649858); (19810530, -5677009); (19810531, -5704230); (19810601, -5730380); (19810602, -5754961); (19810603, -5777522); (19810604, -5798593); (19810605, -5819074);
  (19810606, -5839635); (19810607, -5860686); (19810608, -5882526); (19810609, -5905167); (19810610, -5928198); (19810611, -5951519); (19810612, -5974380); (19810613, -5996431);
  (19810614, -6017532); (19810615, -6037202); (19810616, -6055373); (19810617, -6072274); (19810618, -6087845); (19810619, -6102476); (19810620, -6116477); (19810621, -6130477);
  (19810622, -6144948); (19810623, -6160229); (19810624, -6176620); (19810625, -6193951); (19810626, -6211862); (19810627, -6229823); (19810628, -6247153); (19810629, -6263314);
  (19810630, -6277815); (19810701, 3709024); (19810702, 3696753); (19810703, 3684492); (19810704, 3671722); (19810705, 3658111); (19810706, 3643760); (19810707, 3628899);
  (19810708, 3613858); (19810709, 3599317); (19810710, 3585557); (19810711, 3573046); (19810712, 3561855); (19810713, 3552214); (19810714, 3543883); (19810715, 3536653);
  (19810716, 3529872); (19810717, 3522871); (19810718, 3514990); (19810719, 3505609); (19810720, 3494169); (19810721, 3480738); (19810722, 3465307); (19810723, 3448506);
  (19810724, 3430865); (19810725, 3413274); (19810726, 3396374); (19810727, 3380493); (19810728, 3365682); (19810729, 3351461); (19810730, 3337350); (19810731, 3322650);
  (19810801, 3306819); (19810802, 3289818); (19810803, 3271957); (19810804, 3253746); (19810805, 3235486); (19810806, 3217815); (19810807, 3200894); (19810808, 3184913);
  (19810809, 3170073); (19810810, 3156152); (19810811, 3143121); (19810812, 3130530); (19810813, 3118049); (19810814, 3105049); (19810815, 3090828); (19810816, 3074947);
  (19810817, 3057546); (19810818, 3038655); (19810819, 3018905); (19810820, 2999194); (19810821, 2980443); (19810822, 2963272); (19810823, 2948192); (19810824, 2934981);
  (19810825, 2923210); (19810826, 2912219); (19810827, 2901009); (19810828, 2888868); (19810829, 2875397); (19810830, 2860806); (19810831, 2845315); (19810901, 2829375);
  (19810902, 2813454); (19810903, 2797853); (19810904, 2782902); (19810905, 2768742); (19810906, 2755251); (19810907, 2742400); (19810908, 2729709); (19810909, 2716869);
  (19810910, 2703278); (19810911, 2688447); (19810912, 2671566); (19810913, 2652476); (19810914, 2630935); (19810915, 2607284); (19810916, 2582333); (19810917, 2557193);
  (19810918, 2532692); (19810919, 2509461); (19810920, 2487681); (19810921, 2467020); (19810922, 2446799); (19810923, 2426318); (19810924, 2404988); (19810925, 2382307);
  (19810926, 2358466); (19810927, 2333645); (19810928, 2308345); (19810929, 2282874); (19810930, 2257983); (19811001, 2233912); (19811002, 2211122); (19811003, 2189581);
  (19811004, 2169090); (19811005, 2149570); (19811006, 2130449); (19811007, 2111408); (19811008, 2091727); (19811009, 2071107); (19811010, 2048716); (19811011, 2024175);
  (19811012, 1997645); (19811013, 1969584); (19811014, 1940903); (19811015, 1912802); (19811016, 1886202); (19811017, 1861451); (19811018, 1838380); (19811019, 1816550);
  (19811020, 1794949); (19811021, 1773048); (19811022, 1750348); (19811023, 1726657); (19811024, 1702096); (19811025, 1676935); (19811026, 1651635); (19811027, 1626644);
  (19811028, 1602363); (19811029, 1579193); (19811030, 1557162); (19811031, 1536271); (19811101, 1516481); (19811102, 1497240); (19811103, 1478149); (19811104, 1458689);
  (19811105, 1438348); (19811106, 1416597); (19811107, 1392857); (19811108, 1367176); (19811109, 1339585); (19811110, 1310884); (19811111, 1281994); (19811112, 1253863);
  (19811113, 1227442); (19811114, 1203042); (19811115, 1180411); (19811116, 1158810); (19811117, 1137360); (19811118, 1115749); (19811119, 1093618); (19811120, 1071038);
  (19811121, 1048367); (19811122, 1026026); (19811123, 1004216); (19811124, 983335); (19811125, 963784); (19811126, 945144); (19811127, 927343); (19811128, 910253);
  (19811129, 893652); (19811130, 876931); (19811201, 859661); (19811202, 841310); (19811203, 821399); (19811204, 799779); (19811205, 776138); (19811206, 750677);
  (19811207, 723737); (19811208, 696036); (19811209, 668695); (19811210, 642535); (19811211, 618164); (19811212, 595474); (19811213, 573893); (19811214, 552522);
  (19811215, 530722); (19811216, 507881); (19811217, 484200); (19811218, 459990); (19811219, 435649); (19811220, 411758); (19811221, 388608); (19811222, 366377);
  (19811223, 345467); (19811224, 325716); (19811225, 307005); (19811226, 289205); (19811227, 271834); (19811228, 254454); (19811229, 236553); (19811230, 217482);
  (19811231, 197032); (19820101, 174851); (19820102, 151090); (19820103, 125990); (19820104, 100039); (19820105, 74079); (19820106, 48848); (19820107, 25047);
  (19820108, 2927); (19820109, -17894); (19820110, -38054); (19820111, -58605); (19820112, -79956); (19820113, -102366); (19820114, -125537); (19820115, -148927);
  (19820116, -172048); (19820117, -194349); (19820118, -215359); (19820119, -235000); (19820120, -253210); (19820121, -269951); (19820122, -285601); (19820123, -300452);
  (19820124, -315143); (19820125, -330223); (19820126, -346314); (19820127, -363704); (19820128, -382935); (19820129, -403855); (19820130, -426286); (19820131, -449497);
  (19820201, -472897); (19820202, -495878); (19820203, -517778); (19820204, -538389); (19820205, -557749); (19820206, -576650); (19820207, -595651); (19820208, -615771);
  (19820209, -637102); (19820210, -659652); (19820211, -683183); (19820212, -706923); (19820213, -730324); (19820214, -753174); (19820215, -774895); (19820216, -795536);
  (19820217, -815226); (19820218, -833967); (19820219, -852437); (19820220, -871028); (19820221, -890338); (19820222, -910849); (19820223, -933359); (19820224, -957970);
  (19820225, -984740); (19820226, -1013631); (19820227, -1043622); (19820228, -1074132); (19820301, -1103923); (19820302, -1132053); (19820303, -1157884); (19820304, -1181794);
  (19820305, -1204265); (19820306, -1225955); (19820307, -1247646); (19820308, -1270196); (19820309, -1293647); (19820310, -1317697); (19820311, -1341908); (19820312, -1365778);
  (19820313, -1389319); (19820314, -1411869); (19820315, -1433460); (19820316, -1453930); (19820317, -1473511); (19820318, -1492391); (19820319, -1510922); (19820320, -1529882);
  (19820321, -1549763); (19820322, -1571004); (19820323, -1594224); (19820324, -1619545); (19820325, -1646855); (19820326, -1675696); (19820327, -1705206); (19820328, -1734397);
  (19820329, -1762457); (19820330, -1789047); (19820331, -1814228); (19820401, -1838558); (19820402, -1862709); (19820403, -1887589); (19820404, -1913630); (19820405, -1941180);
  (19820406, -1970091); (19820407, -1999821); (19820408, -2029822); (19820409, -2059062); (19820410, -2086953); (19820411, -2113233); (19820412, -2137784); (19820413, -2160694);
  (19820414, -2182265); (19820415, -2203035); (19820416, -2223746); (19820417, -2244726); (19820418, -2266767); (19820419, -2290307); (19820420, -2315598); (19820421, -2343148);
  (19820422, -2372478); (19820423, -2402959); (19820424, -2433869); (19820425, -2464010); (19820426, -2492860); (19820427, -2520091); (19820428, -2546311); (19820429, -2572022);
  (19820430, -2597902); (19820501, -2624513); (19820502, -2652033); (19820503, -2680524); (19820504, -2709484); (19820505, -2738374); (19820506, -2766425); (19820507, -2793075);
  (19820508, -2817966); (19820509, -2840786); (19820510, -2861527); (19820511, -2880517); (19820512, -2898107); (19820513, -2914918); (19820514, -2931518); (19820515, -2948639);
  (19820516, -2966729); (19820517, -2986480); (19820518, -3008280); (19820519, -3032390); (19820520, -3058191); (19820521, -3084971); (19820522, -3111612); (19820523, -3137232);
  (19820524, -3161293); (19820525, -3183813); (19820526, -3205243); (19820527, -3226574); (19820528, -3248504); (19820529, -3271475); (19820530, -3295425); (19820531, -3319845);
  (19820601, -3344306); (19820602, -3368176); (19820603, -3390907); (19820604, -3412347); (19820605, -3432258); (19820606, -3450618); (19820607, -3467738); (19820608, -3483779);
  (19820609, -3499249); (19820610, -3514710); (19820611, -3530600); (19820612, -3547390); (19820613, -3565431); (19820614, -3584941); (19820615, -3605931); (19820616, -3628302);
  (19820617, -3651272); (19820618, -3674143); (19820619, -3696083); (19820620, -3716193); (19820621, -3734254); (19820622, -3750824); (19820623, -3766745); (19820624, -3782875);
  (19820625, -3799785); (19820626, -3817836); (19820627, -3836516); (19820628, -3855456); (19820629, -3873897); (19820630, -3891197); (19820701, 6092862); (19820702, 6078552);
  (19820703, 6065772); (19820704, 6054231); (19820705, 6043801); (19820706, 6033951); (19820707, 6024070); (19820708, 6013590); (19820709, 6002040); (19820710, 5988939);
  (19820711, 5974219); (19820712, 5957739); (19820713, 5939718); (19820714, 5920888); (19820715, 5901657); (19820716, 5882997); (19820717, 5865787); (19820718, 5850306);
  (19820719, 5836596); (19820720, 5824016); (19820721, 5811485); (19820722, 5798135); (19820723, 5783565); (19820724, 5767804); (19820725, 5751354); (19820726, 5735084);
  (19820727, 5719503); (19820728, 5705233); (19820729, 5692423); (19820730, 5681022); (19820731, 5670832); (19820801, 5661832); (19820802, 5653301); (19820803, 5644991);
  (19820804, 5636211); (19820805, 5626571); (19820806, 5615440); (19820807, 5602760); (19820808, 5588250); (19820809, 5572429); (19820810, 5555469); (19820811, 5538029);
  (19820812, 5520848); (19820813, 5504358); (19820814, 5488978); (19820815, 5474747); (19820816, 5460817); (19820817, 5446717); (19820818, 5431137); (19820819, 5413606);
  (19820820, 5394086); (19820821, 5372786); (19820822, 5350695); (19820823, 5328695); (19820824, 5307505); (19820825, 5287544); (19820826, 5269144); (19820827, 5251924);
  (19820828, 5235974); (19820829, 5220473); (19820830, 5205013); (19820831, 5188923); (19820901, 5171682); (19820902, 5152742); (19820903, 5131522); (19820904, 5107952);
  (19820905, 5082631); (19820906, 5055811); (19820907, 5028391); (19820908, 5001321); (19820909, 4975060); (19820910, 4950760); (19820911, 4928540); (19820912, 4908070);
  (19820913, 4888509); (19820914, 4868859); (19820915, 4848339); (19820916, 4826068); (19820917, 4801988); (19820918, 4776718); (19820919, 4751238); (19820920, 4726217);
  (19820921, 4702487); (19820922, 4680247); (19820923, 4659637); (19820924, 4640326); (19820925, 4621996); (19820926, 4604006); (19820927, 4585796); (19820928, 4566955);
  (19820929, 4546815); (19820930, 4524985); (19821001, 4501445); (19821002, 4476105); (19821003, 4449244); (19821004, 4421654); (19821005, 4394264); (19821006, 4367864);
  (19821007, 4343163); (19821008, 4320153); (19821009, 4298693); (19821010, 4278053); (19821011, 4257223); (19821012, 4235612); (19821013, 4212602); (19821014, 4188222);
  (19821015, 4162802); (19821016, 4137041); (19821017, 4111691); (19821018, 4087511); (19821019, 4064881); (19821020, 4044101); (19821021, 4024940); (19821022, 4006790);
  (19821023, 3989230); (19821024, 3971590); (19821025, 3953340); (19821026, 3933879); (19821027, 3912819); (19821028, 3890029); (19821029, 3865669); (19821030, 3839829);
  (19821031, 3812958); (19821101, 3785808); (19821102, 3759418); (19821103, 3734498); (19821104, 3711118); (19821105, 3689187); (19821106, 3667837); (19821107, 3646217);
  (19821108, 3623557); (19821109, 3599317); (19821110, 3573327); (19821111, 3545966); (19821112, 3517816); (19821113, 3489726); (19821114, 3462226); (19821115, 3436156);
  (19821116, 3411785); (19821117, 3388955); (19821118, 3367545); (19821119, 3347235); (19821120, 3327175); (19821121, 3306955); (19821122, 3286035); (19821123, 3263914);
  (19821124, 3240304); (19821125, 3215004); (19821126, 3188184); (19821127, 3159994); (19821128, 3130994); (19821129, 3102203); (19821130, 3074373); (19821201, 3048183);
  (19821202, 3023773); (19821203, 3000533); (19821204, 2977793); (19821205, 2954343); (19821206, 2929492); (19821207, 2903172); (19821208, 2875402); (19821209, 2846932);
  (19821210, 2818502); (19821211, 2790682); (19821212, 2764102); (19821213, 2738961); (19821214, 2715421); (19821215, 2693201); (19821216, 2672101); (19821217, 2651621);
  (19821218, 2631171); (19821219, 2610111); (19821220, 2588171); (19821221, 2564851); (19821222, 2539940); (19821223, 2513570); (19821224, 2485770); (19821225, 2457090);
  (19821226, 2428000); (19821227, 2399350); (19821228, 2371910); (19821229, 2346080); (19821230, 2321700); (19821231, 2298089); (19830101, 2274139); (19830102, 2248920);
  (19830103, 2221998); (19830104, 2193742); (19830105, 2164497); (19830106, 2135318); (19830107, 2106995); (19830108, 2079900); (19830109, 2054331); (19830110, 2030334);
  (19830111, 2007747); (19830112, 1986043); (19830113, 1964667); (19830114, 1942883); (19830115, 1920135); (19830116, 1895914); (19830117, 1869842); (19830118, 1841722);
  (19830119, 1811458); (19830120, 1779643); (19830121, 1746630); (19830122, 1712927); (19830123, 1679259); (19830124, 1646172); (19830125, 1614335); (19830126, 1583904);
  (19830127, 1554486); (19830128, 1525037); (19830129, 1494700); (19830130, 1462532); (19830131, 1428617); (19830201, 1393290); (19830202, 1357705); (19830203, 1322885);
  (19830204, 1289596); (19830205, 1258336); (19830206, 1229055); (19830207, 1201407); (19830208, 1175005); (19830209, 1149700); (19830210, 1125113); (19830211, 1100726);
  (19830212, 1075981); (19830213, 1050423); (19830214, 1023750); (19830215, 995907); (19830216, 967034); (19830217, 937352); (19830218, 907174); (19830219, 876923);
  (19830220, 847063); (19830221, 818097); (19830222, 790093); (19830223, 762733); (19830224, 735310); (19830225, 706779); (19830226, 676288); (19830227, 643376);
  (19830228, 608254); (19830301, 571754); (19830302, 535217); (19830303, 500042); (19830304, 467206); (19830305, 436929); (19830306, 409113); (19830307, 383385);
  (19830308, 359107); (19830309, 335549); (19830310, 311825); (19830311, 287226); (19830312, 261271); (19830313, 233586); (19830314, 204153); (19830315, 173195);
  (19830316, 141076); (19830317, 108470); (19830318, 76067); (19830319, 44712); (19830320, 14743); (19830321, -13681); (19830322, -40875); (19830323, -67561);
  (19830324, -94672); (19830325, -123155); (19830326, -153706); (19830327, -186451); (19830328, -220837); (19830329, -256019); (19830330, -290900); (19830331, -324519);
  (19830401, -356268); (19830402, -385999); (19830403, -413914); (19830404, -440363); (19830405, -465923); (19830406, -491202); (19830407, -516738); (19830408, -542924);
  (19830409, -569893); (19830410, -597917); (19830411, -627125); (19830412, -657270); (19830413, -688113); (19830414, -719069); (19830415, -749399); (19830416, -778466);
  (19830417, -806106); (19830418, -832528); (19830419, -858050); (19830420, -883266); (19830421, -908989); (19830422, -936029); (19830423, -964682); (19830424, -994786);
  (19830425, -1025721); (19830426, -1056543); (19830427, -1086421); (19830428, -1114512); (19830429, -1140275); (19830430, -1163480); (19830501, -1184737); (19830502, -1204711);
  (19830503, -1224207); (19830504, -1244086); (19830505, -1264583); (19830506, -1285981); (19830507, -1308660); (19830508, -1332768); (19830509, -1358366); (19830510, -1385196);
  (19830511, -1412763); (19830512, -1440478); (19830513, -1467500); (19830514, -1493171); (19830515, -1517448); (19830516, -1540603); (19830517, -1563364); (19830518, -1586395);
  (19830519, -1610444); (19830520, -1635937); (19830521, -1662661); (19830522, -1690196); (19830523, -1717842); (19830524, -1744822); (19830525, -1770601); (19830526, -1794382);
  (19830527, -1815952); (19830528, -1835600); (19830529, -1853901); (19830530, -1871457); (19830531, -1888850); (19830601, -1906756); (19830602, -1925776); (19830603, -1946124);
  (19830604, -1967801); (19830605, -1990622); (19830606, -2014437); (19830607, -2038866); (19830608, -2063268); (19830609, -2087029); (19830610, -2109519); (19830611, -2130523);
  (19830612, -2150155); (19830613, -2169154); (19830614, -2188550); (19830615, -2209165); (19830616, -2231365); (19830617, -2255070); (19830618, -2279622); (19830619, -2304195);
  (19830620, -2327899); (19830621, -2350016); (19830622, -2370091); (19830623, -2387940); (19830624, -2403662); (19830625, -2417704); (19830626, -2430647); (19830627, -2443083);
  (19830628, -2455579); (19830629, -2468588); (19830630, -2482162); (19830701, 7503454); (19830702, 7487712); (19830703, 7471018); (19830704, 7453772); (19830705, 7436557);
  (19830706, 7420043); (19830707, 7404733); (19830708, 7391148); (19830709, 7379310); (19830710, 7368699); (19830711, 7358474); (19830712, 7347332); (19830713, 7334473);
  (19830714, 7319515); (19830715, 7302855); (19830716, 7285160); (19830717, 7267334); (19830718, 7250372); (19830719, 7234833); (19830720, 7220719); (19830721, 7208153);
  (19830722, 7196876); (19830723, 7186684); (19830724, 7176849); (19830725, 7166795); (19830726, 7155956); (19830727, 7143883); (19830728, 7130414); (19830729, 7115604);
  (19830730, 7099479); (19830731, 7082291); (19830801, 7064435); (19830802, 7046435); (19830803, 7028792); (19830804, 7012119); (19830805, 6996820); (19830806, 6982671);
  (19830807, 6968878); (19830808, 6954366); (19830809, 6938059); (19830810, 6919539); (19830811, 6898931); (19830812, 6877026); (19830813, 6854847); (19830814, 6833738);
  (19830815, 6814504); (19830816, 6797436); (19830817, 6782142); (19830818, 6768354); (19830819, 6755786); (19830820, 6743567); (19830821, 6731052); (19830822, 6717679);
  (19830823, 6703001); (19830824, 6686976); (19830825, 6669660); (19830826, 6651203); (19830827, 6632026); (19830828, 6612571); (19830829, 6593256); (19830830, 6574539);
  (19830831, 6556452); (19830901, 6539592); (19830902, 6523992); (19830903, 6509125); (19830904, 6494102); (19830905, 6477877); (19830906, 6459505); (19830907, 6438944);
  (19830908, 6416356); (19830909, 6392589); (19830910, 6369144); (19830911, 6346932); (19830912, 6326824); (19830913, 6309019); (19830914, 6293371); (19830915, 6279028);
  (19830916, 6265332); (19830917, 6251761); (19830918, 6237629); (19830919, 6222464); (19830920, 6205975); (19830921, 6187916); (19830922, 6168443); (19830923, 6147933);
  (19830924, 6126866); (19830925, 6105879); (19830926, 6085536); (19830927, 6066332); (19830928, 6048375); (19830929, 6031320); (19830930, 6014558); (19831001, 5997207);
  (19831002, 5978235); (19831003, 5956803); (19831004, 5932548); (19831005, 5905749); (19831006, 5877388); (19831007, 5848843); (19831008, 5821668); (19831009, 5796833);
  (19831010, 5774653); (19831011, 5754933); (19831012, 5737200); (19831013, 5720344); (19831014, 5703185); (19831015, 5685858); (19831016, 5668136); (19831017, 5649593);
  (19831018, 5630045); (19831019, 5609264); (19831020, 5587332); (19831021, 5564531); (19831022, 5541459); (19831023, 5518743); (19831024, 5496828); (19831025, 5475987);
  (19831026, 5456149); (19831027, 5436772); (19831028, 5417047); (19831029, 5396060); (19831030, 5372935); (19831031, 5347012); (19831101, 5318293); (19831102, 5287424);
  (19831103, 5255558); (19831104, 5223974); (19831105, 5193714); (19831106, 5165776); (19831107, 5140458); (19831108, 5117632); (19831109, 5096739); (19831110, 5076621);
  (19831111, 5056380); (19831112, 5035506); (19831113, 5013634); (19831114, 4990392); (19831115, 4965799); (19831116, 4940048); (19831117, 4913533); (19831118, 4886823);
  (19831119, 4860595); (19831120, 4835504); (19831121, 4812060); (19831122, 4790402); (19831123, 4770381); (19831124, 4751150); (19831125, 4731607); (19831126, 4710852)].
Definition eop_c04_data_8 : list (Z * Z) := [
  (19831127, 4688292); (19831128, 4663778); (19831129, 4637758); (19831130, 4611109); (19831201, 4584829); (19831202, 4559977); (19831203, 4537068); (19831204, 4516330);
  (19831205, 4497635); (19831206, 4480520); (19831207, 4464437); (19831208, 4448884); (19831209, 4433036); (19831210, 4416367); (19831211, 4398579); (19831212, 4379403);
  (19831213, 4358837); (19831214, 4337070); (19831215, 4314572); (19831216, 4291936); (19831217, 4269803); (19831218, 4248931); (19831219, 4229682); (19831220, 4211981);
  (19831221, 4195154); (19831222, 4178220); (19831223, 4160144); (19831224, 4140157); (19831225, 4118017); (19831226, 4094005); (19831227, 4068896); (19831228, 4043797);
  (19831229, 4019680); (19831230, 3997242); (19831231, 3976841); (19840101, 3957414); (19840102, 3940313); (19840103, 3924517); (19840104, 3909482); (19840105, 3894625);
  (19840106, 3879423); (19840107, 3863464); (19840108, 3846474); (19840109, 3828345); (19840110, 3809173); (19840111, 3789307); (19840112, 3769387); (19840113, 3750304);
  (19840114, 3733049); (19840115, 3718412); (19840116, 3706615); (19840117, 3697026); (19840118, 3688168); (19840119, 3678099); (19840120, 3665050); (19840121, 3648064);
  (19840122, 3627352); (19840123, 3604203); (19840124, 3580530); (19840125, 3558261); (19840126, 3538824); (19840127, 3522890); (19840128, 3510316); (19840129, 3500329);
  (19840130, 3491820); (19840131, 3483617); (19840201, 3474704); (19840202, 3464347); (19840203, 3452144); (19840204, 3438038); (19840205, 3422284); (19840206, 3405375);
  (19840207, 3387918); (19840208, 3370503); (19840209, 3353585); (19840210, 3337434); (19840211, 3322101); (19840212, 3307437); (19840213, 3293107); (19840214, 3278603);
  (19840215, 3263326); (19840216, 3246807); (19840217, 3228827); (19840218, 3209435); (19840219, 3188899); (19840220, 3167575); (19840221, 3145522); (19840222, 3123049);
  (19840223, 3101820); (19840224, 3083846); (19840225, 3070007); (19840226, 3056955); (19840227, 3045456); (19840228, 3037610); (19840229, 3026583); (19840301, 3005269);
  (19840302, 2981546); (19840303, 2961903); (19840304, 2947181); (19840305, 2935325); (19840306, 2922528); (19840307, 2906072); (19840308, 2885431); (19840309, 2862133);
  (19840310, 2838933); (19840311, 2818368); (19840312, 2801215); (19840313, 2786248); (19840314, 2770981); (19840315, 2752822); (19840316, 2730322); (19840317, 2704347);
  (19840318, 2676698); (19840319, 2649163); (19840320, 2623192); (19840321, 2599522); (19840322, 2578263); (19840323, 2559084); (19840324, 2541438); (19840325, 2524740);
  (19840326, 2508409); (19840327, 2491856); (19840328, 2474520); (19840329, 2455970); (19840330, 2436054); (19840331, 2414999); (19840401, 2393400); (19840402, 2372084);
  (19840403, 2351858); (19840404, 2333239); (19840405, 2316283); (19840406, 2300536); (19840407, 2285227); (19840408, 2269546); (19840409, 2252854); (19840410, 2234776);
  (19840411, 2215267); (19840412, 2194335); (19840413, 2171850); (19840414, 2147546); (19840415, 2120333); (19840416, 2091658); (19840417, 2064804); (19840418, 2042569);
  (19840419, 2025360); (19840420, 2007777); (19840421, 1992697); (19840422, 1981034); (19840423, 1965591); (19840424, 1942256); (19840425, 1920742); (19840426, 1902319);
  (19840427, 1881831); (19840428, 1860806); (19840429, 1840134); (19840430, 1819488); (19840501, 1799025); (19840502, 1779246); (19840503, 1760706); (19840504, 1743807);
  (19840505, 1728582); (19840506, 1714551); (19840507, 1700770); (19840508, 1686050); (19840509, 1669284); (19840510, 1649827); (19840511, 1627786); (19840512, 1604075);
  (19840513, 1580170); (19840514, 1557657); (19840515, 1537731); (19840516, 1520854); (19840517, 1506721); (19840518, 1494487); (19840519, 1483113); (19840520, 1471667);
  (19840521, 1459504); (19840522, 1446300); (19840523, 1432010); (19840524, 1416794); (19840525, 1400943); (19840526, 1384814); (19840527, 1368801); (19840528, 1353329);
  (19840529, 1338824); (19840530, 1325651); (19840531, 1313989); (19840601, 1303703); (19840602, 1294279); (19840603, 1284889); (19840604, 1274585); (19840605, 1262566);
  (19840606, 1248429); (19840607, 1232329); (19840608, 1214984); (19840609, 1197522); (19840610, 1181190); (19840611, 1166999); (19840612, 1155445); (19840613, 1146397);
  (19840614, 1139195); (19840615, 1132904); (19840616, 1126591); (19840617, 1119530); (19840618, 1111286); (19840619, 1101707); (19840620, 1090874); (19840621, 1079037);
  (19840622, 1066561); (19840623, 1053870); (19840624, 1041406); (19840625, 1029592); (19840626, 1018792); (19840627, 1009259); (19840628, 1001035); (19840629, 993891);
  (19840630, 987376); (19840701, 980924); (19840702, 974005); (19840703, 966260); (19840704, 957530); (19840705, 947762); (19840706, 937034); (19840707, 925650);
  (19840708, 914251); (19840709, 903847); (19840710, 895761); (19840711, 891158); (19840712, 890388); (19840713, 892598); (19840714, 895760); (19840715, 896877);
  (19840716, 893350); (19840717, 884765); (19840718, 873404); (19840719, 862171); (19840720, 852360); (19840721, 843858); (19840722, 836068); (19840723, 829679);
  (19840724, 826735); (19840725, 824141); (19840726, 819329); (19840727, 812340); (19840728, 803961); (19840729, 794980); (19840730, 785105); (19840731, 772345);
  (19840801, 756737); (19840802, 739801); (19840803, 723622); (19840804, 709781); (19840805, 698963); (19840806, 691016); (19840807, 685227); (19840808, 680767);
  (19840809, 676603); (19840810, 671743); (19840811, 665473); (19840812, 657354); (19840813, 647215); (19840814, 635118); (19840815, 621344); (19840816, 606383);
  (19840817, 590881); (19840818, 575580); (19840819, 561237); (19840820, 548504); (19840821, 537763); (19840822, 528950); (19840823, 521410); (19840824, 513875);
  (19840825, 504753); (19840826, 492641); (19840827, 476901); (19840828, 457960); (19840829, 437008); (19840830, 415623); (19840831, 395419); (19840901, 377412);
  (19840902, 361593); (19840903, 347983); (19840904, 336459); (19840905, 326329); (19840906, 316711); (19840907, 306772); (19840908, 295943); (19840909, 283967);
  (19840910, 270844); (19840911, 256744); (19840912, 241909); (19840913, 226562); (19840914, 210923); (19840915, 195265); (19840916, 179960); (19840917, 165462);
  (19840918, 152198); (19840919, 140312); (19840920, 129406); (19840921, 118441); (19840922, 105933); (19840923, 90438); (19840924, 71168); (19840925, 48429);
  (19840926, 23618); (19840927, -1245); (19840928, -24210); (19840929, -44045); (19840930, -60540); (19841001, -74411); (19841002, -86928); (19841003, -99471);
  (19841004, -113164); (19841005, -128640); (19841006, -145994); (19841007, -164842); (19841008, -184476); (19841009, -204088); (19841010, -222999); (19841011, -240827);
  (19841012, -257538); (19841013, -273408); (19841014, -288821); (19841015, -304048); (19841016, -319138); (19841017, -333985); (19841018, -348510); (19841019, -363035);
  (19841020, -378492); (19841021, -396182); (19841022, -417183); (19841023, -442118); (19841024, -470010); (19841025, -497135); (19841026, -519418); (19841027, -535037);
  (19841028, -546445); (19841029, -558452); (19841030, -574907); (19841031, -595577); (19841101, -617476); (19841102, -637919); (19841103, -655561); (19841104, -670608);
  (19841105, -684553); (19841106, -699303); (19841107, -716047); (19841108, -734810); (19841109, -754557); (19841110, -773650); (19841111, -790527); (19841112, -804398);
  (19841113, -815521); (19841114, -825121); (19841115, -835056); (19841116, -847276); (19841117, -863213); (19841118, -883341); (19841119, -907003); (19841120, -932565);
  (19841121, -957901); (19841122, -981086); (19841123, -1000967); (19841124, -1017426); (19841125, -1031255); (19841126, -1043742); (19841127, -1056176); (19841128, -1069499);
  (19841129, -1084192); (19841130, -1100317); (19841201, -1117647); (19841202, -1135799); (19841203, -1154319); (19841204, -1172735); (19841205, -1190594); (19841206, -1207487);
  (19841207, -1223094); (19841208, -1237253); (19841209, -1250049); (19841210, -1261871); (19841211, -1273400); (19841212, -1285485); (19841213, -1298955); (19841214, -1314385);
  (19841215, -1331916); (19841216, -1351160); (19841217, -1371234); (19841218, -1390943); (19841219, -1409083); (19841220, -1424781); (19841221, -1437756); (19841222, -1448388);
  (19841223, -1457574); (19841224, -1466447); (19841225, -1476070); (19841226, -1487220); (19841227, -1500295); (19841228, -1515312); (19841229, -1531968); (19841230, -1549751);
  (19841231, -1568080); (19850101, -1585983); (19850102, -1604066); (19850103, -1621330); (19850104, -1637405); (19850105, -1652107); (19850106, -1665625); (19850107, -1678569);
  (19850108, -1691877); (19850109, -1706572); (19850110, -1723469); (19850111, -1742897); (19850112, -1764572); (19850113, -1787633); (19850114, -1810820); (19850115, -1832752);
  (19850116, -1852262); (19850117, -1868702); (19850118, -1882141); (19850119, -1893343); (19850120, -1903535); (19850121, -1914033); (19850122, -1925839); (19850123, -1939399);
  (19850124, -1954577); (19850125, -1970825); (19850126, -1987339); (19850127, -2003538); (19850128, -2019152); (19850129, -2034016); (19850130, -2047910); (19850131, -2060463);
  (19850201, -2071314); (19850202, -2080417); (19850203, -2088285); (19850204, -2096021); (19850205, -2105053); (19850206, -2116624); (19850207, -2131292); (19850208, -2148688);
  (19850209, -2167681); (19850210, -2186868); (19850211, -2205084); (19850212, -2221718); (19850213, -2236732); (19850214, -2250419); (19850215, -2263070); (19850216, -2274864);
  (19850217, -2285987); (19850218, -2296844); (19850219, -2308259); (19850220, -2321556); (19850221, -2338113); (19850222, -2358669); (19850223, -2382733); (19850224, -2408350);
  (19850225, -2432288); (19850226, -2451307); (19850227, -2463670); (19850228, -2470021); (19850301, -2473375); (19850302, -2479081); (19850303, -2491476); (19850304, -2509518);
  (19850305, -2529485); (19850306, -2548401); (19850307, -2568150); (19850308, -2591416); (19850309, -2617844); (19850310, -2645506); (19850311, -2671734); (19850312, -2694403);
  (19850313, -2713211); (19850314, -2729473); (19850315, -2745129); (19850316, -2761776); (19850317, -2779932); (19850318, -2799214); (19850319, -2818953); (19850320, -2838732);
  (19850321, -2858628); (19850322, -2879111); (19850323, -2900572); (19850324, -2922886); (19850325, -2945298); (19850326, -2966650); (19850327, -2985818); (19850328, -3002192);
  (19850329, -3015988); (19850330, -3028262); (19850331, -3040675); (19850401, -3055037); (19850402, -3072772); (19850403, -3094422); (19850404, -3119386); (19850405, -3146036);
  (19850406, -3172230); (19850407, -3196018); (19850408, -3216283); (19850409, -3233029); (19850410, -3247233); (19850411, -3260358); (19850412, -3273830); (19850413, -3288653);
  (19850414, -3305294); (19850415, -3323757); (19850416, -3343764); (19850417, -3364902); (19850418, -3386698); (19850419, -3408647); (19850420, -3430210); (19850421, -3450841);
  (19850422, -3470047); (19850423, -3487487); (19850424, -3503086); (19850425, -3517108); (19850426, -3530139); (19850427, -3543241); (19850428, -3557748); (19850429, -3574836);
  (19850430, -3595124); (19850501, -3618269); (19850502, -3643125); (19850503, -3668173); (19850504, -3692100); (19850505, -3714901); (19850506, -3735758); (19850507, -3753531);
  (19850508, -3768093); (19850509, -3781552); (19850510, -3795397); (19850511, -3809355); (19850512, -3823757); (19850513, -3840330); (19850514, -3858876); (19850515, -3870855);
  (19850516, -3891764); (19850517, -3916477); (19850518, -3934148); (19850519, -3945485); (19850520, -3953772); (19850521, -3961961); (19850522, -3971749); (19850523, -3983566);
  (19850524, -3996685); (19850525, -4010042); (19850526, -4023326); (19850527, -4037180); (19850528, -4052749); (19850529, -4070982); (19850530, -4091944); (19850531, -4114455);
  (19850601, -4136513); (19850602, -4156155); (19850603, -4172262); (19850604, -4184984); (19850605, -4195618); (19850606, -4205946); (19850607, -4217443); (19850608, -4230776);
  (19850609, -4245733); (19850610, -4261517); (19850611, -4277202); (19850612, -4292115); (19850613, -4305959); (19850614, -4318710); (19850615, -4330398); (19850616, -4340979);
  (19850617, -4350361); (19850618, -4358533); (19850619, -4365762); (19850620, -4372967); (19850621, -4380454); (19850622, -4388673); (19850623, -4398698); (19850624, -4411425);
  (19850625, -4427038); (19850626, -4444856); (19850627, -4463466); (19850628, -4481080); (19850629, -4496067); (19850630, -4507502); (19850701, 5484588); (19850702, 5479327);
  (19850703, 5475381); (19850704, 5471462); (19850705, 5466743); (19850706, 5460971); (19850707, 5454336); (19850708, 5447233); (19850709, 5440038); (19850710, 5433051);
  (19850711, 5426510); (19850712, 5420631); (19850713, 5415641); (19850714, 5411758); (19850715, 5409127); (19850716, 5407650); (19850717, 5406822); (19850718, 5405721);
  (19850719, 5403155); (19850720, 5397796); (19850721, 5389193); (19850722, 5378119); (19850723, 5365597); (19850724, 5352517); (19850725, 5340229); (19850726, 5330073);
  (19850727, 5322839); (19850728, 5318389); (19850729, 5315674); (19850730, 5313484); (19850731, 5310838); (19850801, 5307105); (19850802, 5302028); (19850803, 5295572);
  (19850804, 5287675); (19850805, 5278328); (19850806, 5267830); (19850807, 5256951); (19850808, 5246893); (19850809, 5239199); (19850810, 5234820); (19850811, 5233443);
  (19850812, 5233113); (19850813, 5228742); (19850814, 5222112); (19850815, 5217612); (19850816, 5214952); (19850817, 5211736); (19850818, 5204987); (19850819, 5193375);
  (19850820, 5177734); (19850821, 5160468); (19850822, 5144533); (19850823, 5132203); (19850824, 5123979); (19850825, 5118821); (19850826, 5114975); (19850827, 5111058);
  (19850828, 5106193); (19850829, 5099533); (19850830, 5090452); (19850831, 5078797); (19850901, 5064965); (19850902, 5049905); (19850903, 5035167); (19850904, 5022017);
  (19850905, 5010981); (19850906, 5001999); (19850907, 4994592); (19850908, 4988178); (19850909, 4982179); (19850910, 4975991); (19850911, 4968906); (19850912, 4960072);
  (19850913, 4948577); (19850914, 4933860); (19850915, 4916072); (19850916, 4896176); (19850917, 4875744); (19850918, 4856488); (19850919, 4839709); (19850920, 4825906);
  (19850921, 4814704); (19850922, 4805062); (19850923, 4795628); (19850924, 4785123); (19850925, 4772650); (19850926, 4757839); (19850927, 4740875); (19850928, 4722402);
  (19850929, 4703312); (19850930, 4684484); (19851001, 4666597); (19851002, 4649918); (19851003, 4634516); (19851004, 4620393); (19851005, 4607414); (19851006, 4595286);
  (19851007, 4583489); (19851008, 4571187); (19851009, 4557291); (19851010, 4540693); (19851011, 4520641); (19851012, 4497148); (19851013, 4471262); (19851014, 4444845);
  (19851015, 4419955); (19851016, 4398093); (19851017, 4379652); (19851018, 4363755); (19851019, 4348888); (19851020, 4333704); (19851021, 4317612); (19851022, 4301701);
  (19851023, 4285226); (19851024, 4266121); (19851025, 4243160); (19851026, 4217871); (19851027, 4193088); (19851028, 4170400); (19851029, 4150035); (19851030, 4131452);
  (19851031, 4114114); (19851101, 4098129); (19851102, 4083554); (19851103, 4070293); (19851104, 4057993); (19851105, 4045876); (19851106, 4032751); (19851107, 4017290);
  (19851108, 3998505); (19851109, 3976260); (19851110, 3951544); (19851111, 3926272); (19851112, 3902637); (19851113, 3882259); (19851114, 3865568); (19851115, 3851709);
  (19851116, 3838990); (19851117, 3825636); (19851118, 3810411); (19851119, 3792893); (19851120, 3773372); (19851121, 3752537); (19851122, 3731114); (19851123, 3709892);
  (19851124, 3689527); (19851125, 3670427); (19851126, 3652860); (19851127, 3637002); (19851128, 3622890); (19851129, 3610340); (19851130, 3598894); (19851201, 3587797);
  (19851202, 3576014); (19851203, 3562426); (19851204, 3546111); (19851205, 3526642); (19851206, 3504332); (19851207, 3480358); (19851208, 3456406); (19851209, 3434081);
  (19851210, 3414398); (19851211, 3397403); (19851212, 3381137); (19851213, 3365962); (19851214, 3353582); (19851215, 3342903); (19851216, 3331499); (19851217, 3317755);
  (19851218, 3301198); (19851219, 3282306); (19851220, 3262266); (19851221, 3242507); (19851222, 3224192); (19851223, 3208005); (19851224, 3194167); (19851225, 3182574);
  (19851226, 3172982); (19851227, 3165125); (19851228, 3158715); (19851229, 3153312); (19851230, 3148142); (19851231, 3141948); (19860101, 3134103); (19860102, 3121379);
  (19860103, 3103399); (19860104, 3081293); (19860105, 3058183); (19860106, 3038829); (19860107, 3026616); (19860108, 3019980); (19860109, 3014450); (19860110, 3005855);
  (19860111, 2994822); (19860112, 2982796); (19860113, 2969371); (19860114, 2953974); (19860115, 2936231); (19860116, 2916736); (19860117, 2897841); (19860118, 2881165);
  (19860119, 2866980); (19860120, 2854791); (19860121, 2843750); (19860122, 2833246); (19860123, 2822988); (19860124, 2812809); (19860125, 2802408); (19860126, 2791095);
  (19860127, 2777957); (19860128, 2762242); (19860129, 2743694); (19860130, 2722758); (19860131, 2700715); (19860201, 2678862); (19860202, 2658232); (19860203, 2639573);
  (19860204, 2623238); (19860205, 2609360); (19860206, 2597199); (19860207, 2585326); (19860208, 2572294); (19860209, 2557157); (19860210, 2539865); (19860211, 2521082);
  (19860212, 2501757); (19860213, 2482725); (19860214, 2464281); (19860215, 2446835); (19860216, 2431035); (19860217, 2417472); (19860218, 2406425); (19860219, 2397622);
  (19860220, 2390125); (19860221, 2382597); (19860222, 2373724); (19860223, 2362544); (19860224, 2348684); (19860225, 2332605); (19860226, 2315015); (19860227, 2296650);
  (19860228, 2278320); (19860301, 2260795); (19860302, 2244736); (19860303, 2230530); (19860304, 2218153); (19860305, 2207159); (19860306, 2196745); (19860307, 2185906);
  (19860308, 2173726); (19860309, 2159681); (19860310, 2143805); (19860311, 2126691); (19860312, 2109368); (19860313, 2092989); (19860314, 2078495); (19860315, 2066307);
  (19860316, 2056358); (19860317, 2048365); (19860318, 2041880); (19860319, 2036293); (19860320, 2030835); (19860321, 2024528); (19860322, 2015910); (19860323, 2004258);
  (19860324, 1989708); (19860325, 1972726); (19860326, 1953842); (19860327, 1933007); (19860328, 1910470); (19860329, 1888071); (19860330, 1868184); (19860331, 1852710);
  (19860401, 1842020); (19860402, 1831787); (19860403, 1817545); (19860404, 1806027); (19860405, 1791843); (19860406, 1772687); (19860407, 1753049); (19860408, 1735924);
  (19860409, 1715004); (19860410, 1691190); (19860411, 1669342); (19860412, 1652925); (19860413, 1642203); (19860414, 1634773); (19860415, 1627280); (19860416, 1617502);
  (19860417, 1604856); (19860418, 1589925); (19860419, 1573664); (19860420, 1556575); (19860421, 1538263); (19860422, 1517988); (19860423, 1495591); (19860424, 1472041);
  (19860425, 1449288); (19860426, 1429454); (19860427, 1413707); (19860428, 1401569); (19860429, 1391124); (19860430, 1379952); (19860501, 1366275); (19860502, 1349566);
  (19860503, 1330423); (19860504, 1309936); (19860505, 1288847); (19860506, 1267828); (19860507, 1247588); (19860508, 1228808); (19860509, 1212085); (19860510, 1197714);
  (19860511, 1185433); (19860512, 1174532); (19860513, 1164184); (19860514, 1153743); (19860515, 1142927); (19860516, 1132297); (19860517, 1121359); (19860518, 1108146);
  (19860519, 1092362); (19860520, 1075490); (19860521, 1058158); (19860522, 1040705); (19860523, 1023776); (19860524, 1008735); (19860525, 996738); (19860526, 987623);
  (19860527, 980162); (19860528, 972786); (19860529, 964215); (19860530, 953865); (19860531, 941947); (19860601, 929205); (19860602, 916570); (19860603, 904910);
  (19860604, 894898); (19860605, 886971); (19860606, 881348); (19860607, 878019); (19860608, 876686); (19860609, 876704); (19860610, 877057); (19860611, 876598);
  (19860612, 874371); (19860613, 869838); (19860614, 862991); (19860615, 854683); (19860616, 845017); (19860617, 833743); (19860618, 821184); (19860619, 808940);
  (19860620, 798663); (19860621, 791136); (19860622, 786014); (19860623, 782005); (19860624, 777450); (19860625, 771065); (19860626, 762385); (19860627, 751783);
  (19860628, 740155); (19860629, 728502); (19860630, 717611); (19860701, 707994); (19860702, 699975); (19860703, 693745); (19860704, 689339); (19860705, 686554);
  (19860706, 684876); (19860707, 683504); (19860708, 681472); (19860709, 677893); (19860710, 672218); (19860711, 664338); (19860712, 654582); (19860713, 643623);
  (19860714, 632329); (19860715, 621577); (19860716, 612118); (19860717, 604450); (19860718, 598668); (19860719, 594264); (19860720, 590703); (19860721, 587435);
  (19860722, 583769); (19860723, 578960); (19860724, 572301); (19860725, 562699); (19860726, 549824); (19860727, 536694); (19860728, 527531); (19860729, 521683);
  (19860730, 517897); (19860731, 515494); (19860801, 513961); (19860802, 513098); (19860803, 512789); (19860804, 512617); (19860805, 511589); (19860806, 508401);
  (19860807, 501973); (19860808, 491956); (19860809, 479153); (19860810, 465222); (19860811, 452009); (19860812, 440913); (19860813, 432437); (19860814, 425553);
  (19860815, 419206); (19860816, 414156); (19860817, 411257); (19860818, 410133); (19860819, 407832); (19860820, 400772); (19860821, 387692); (19860822, 370644)].
Definition eop_c04_data_9 : list (Z * Z) := [
  (19860823, 354617); (19860824, 342366); (19860825, 333960); (19860826, 328082); (19860827, 323268); (19860828, 320398); (19860829, 318626); (19860830, 316174);
  (19860831, 312533); (19860901, 307654); (19860902, 301612); (19860903, 294253); (19860904, 285233); (19860905, 274272); (19860906, 261396); (19860907, 247094);
  (19860908, 232339); (19860909, 218326); (19860910, 206091); (19860911, 196154); (19860912, 188275); (19860913, 181404); (19860914, 174011); (19860915, 164617);
  (19860916, 152285); (19860917, 136946); (19860918, 119683); (19860919, 101257); (19860920, 82561); (19860921, 64828); (19860922, 48997); (19860923, 35448);
  (19860924, 24012); (19860925, 14121); (19860926, 4959); (19860927, -4371); (19860928, -14709); (19860929, -26769); (19860930, -41105); (19861001, -58047);
  (19861002, -77578); (19861003, -99167); (19861004, -121718); (19861005, -143757); (19861006, -163844); (19861007, -181098); (19861008, -195596); (19861009, -208299);
  (19861010, -220613); (19861011, -233843); (19861012, -248714); (19861013, -265085); (19861014, -282410); (19861015, -300254); (19861016, -318455); (19861017, -337273);
  (19861018, -360391); (19861019, -383223); (19861020, -394032); (19861021, -405938); (19861022, -417534); (19861023, -428118); (19861024, -441520); (19861025, -454402);
  (19861026, -467210); (19861027, -482757); (19861028, -495627); (19861029, -506991); (19861030, -524676); (19861031, -551862); (19861101, -575528); (19861102, -594428);
  (19861103, -611888); (19861104, -627098); (19861105, -638929); (19861106, -648446); (19861107, -658090); (19861108, -669128); (19861109, -681279); (19861110, -694882);
  (19861111, -710464); (19861112, -727924); (19861113, -746568); (19861114, -765311); (19861115, -782905); (19861116, -798324); (19861117, -811128); (19861118, -821556);
  (19861119, -830360); (19861120, -838517); (19861121, -846937); (19861122, -856263); (19861123, -866900); (19861124, -879142); (19861125, -893270); (19861126, -909486);
  (19861127, -927649); (19861128, -947013); (19861129, -966212); (19861130, -983624); (19861201, -998045); (19861202, -1009317); (19861203, -1018440); (19861204, -1027100);
  (19861205, -1036945); (19861206, -1048953); (19861207, -1063038); (19861208, -1078583); (19861209, -1094963); (19861210, -1112160); (19861211, -1133781); (19861212, -1152252);
  (19861213, -1163097); (19861214, -1169557); (19861215, -1175734); (19861216, -1181673); (19861217, -1187229); (19861218, -1193083); (19861219, -1199916); (19861220, -1208479);
  (19861221, -1219430); (19861222, -1233000); (19861223, -1248930); (19861224, -1266578); (19861225, -1285078); (19861226, -1303479); (19861227, -1320855); (19861228, -1336463);
  (19861229, -1349949); (19861230, -1361542); (19861231, -1372083); (19870101, -1382708); (19870102, -1394883); (19870103, -1409205); (19870104, -1425665); (19870105, -1443657);
  (19870106, -1462178); (19870107, -1480102); (19870108, -1496399); (19870109, -1510303); (19870110, -1521481); (19870111, -1530193); (19870112, -1537186); (19870113, -1543407);
  (19870114, -1549727); (19870115, -1556718); (19870116, -1564149); (19870117, -1572616); (19870118, -1583520); (19870119, -1597797); (19870120, -1615118); (19870121, -1631730);
  (19870122, -1647918); (19870123, -1664043); (19870124, -1678465); (19870125, -1689966); (19870126, -1698909); (19870127, -1706828); (19870128, -1715507); (19870129, -1726317);
  (19870130, -1739508); (19870131, -1751497); (19870201, -1765007); (19870202, -1785824); (19870203, -1809793); (19870204, -1829475); (19870205, -1846522); (19870206, -1858744);
  (19870207, -1868336); (19870208, -1881430); (19870209, -1892017); (19870210, -1905436); (19870211, -1917561); (19870212, -1925814); (19870213, -1934678); (19870214, -1948405);
  (19870215, -1965549); (19870216, -1984224); (19870217, -2003923); (19870218, -2024144); (19870219, -2044296); (19870220, -2062961); (19870221, -2079270); (19870222, -2093405);
  (19870223, -2106298); (19870224, -2119408); (19870225, -2134185); (19870226, -2151657); (19870227, -2172322); (19870228, -2195998); (19870301, -2221785); (19870302, -2248303);
  (19870303, -2274079); (19870304, -2297896); (19870305, -2318980); (19870306, -2337048); (19870307, -2352256); (19870308, -2365128); (19870309, -2376475); (19870310, -2387307);
  (19870311, -2398725); (19870312, -2411839); (19870313, -2427292); (19870314, -2445150); (19870315, -2465024); (19870316, -2486215); (19870317, -2507943); (19870318, -2529420);
  (19870319, -2549902); (19870320, -2568802); (19870321, -2585823); (19870322, -2600896); (19870323, -2614712); (19870324, -2628560); (19870325, -2643803); (19870326, -2661433);
  (19870327, -2682067); (19870328, -2702114); (19870329, -2722374); (19870330, -2747873); (19870331, -2773694); (19870401, -2795286); (19870402, -2811453); (19870403, -2822819);
  (19870404, -2831503); (19870405, -2840099); (19870406, -2850356); (19870407, -2862909); (19870408, -2877573); (19870409, -2893781); (19870410, -2911080); (19870411, -2929702);
  (19870412, -2949819); (19870413, -2970915); (19870414, -2992010); (19870415, -3011894); (19870416, -3029595); (19870417, -3044773); (19870418, -3057826); (19870419, -3069727);
  (19870420, -3081627); (19870421, -3094516); (19870422, -3109104); (19870423, -3125762); (19870424, -3144675); (19870425, -3165614); (19870426, -3187563); (19870427, -3209021);
  (19870428, -3228523); (19870429, -3245115); (19870430, -3258677); (19870501, -3270123); (19870502, -3280789); (19870503, -3291551); (19870504, -3301595); (19870505, -3311423);
  (19870506, -3322878); (19870507, -3336314); (19870508, -3350336); (19870509, -3366512); (19870510, -3386778); (19870511, -3408308); (19870512, -3426618); (19870513, -3441022);
  (19870514, -3453378); (19870515, -3465893); (19870516, -3478520); (19870517, -3489799); (19870518, -3498798); (19870519, -3506607); (19870520, -3520377); (19870521, -3540794);
  (19870522, -3562214); (19870523, -3579370); (19870524, -3593940); (19870525, -3610444); (19870526, -3626894); (19870527, -3640717); (19870528, -3651754); (19870529, -3660493);
  (19870530, -3667997); (19870531, -3675434); (19870601, -3683591); (19870602, -3692770); (19870603, -3702959); (19870604, -3714080); (19870605, -3726296); (19870606, -3739848);
  (19870607, -3754706); (19870608, -3770231); (19870609, -3785206); (19870610, -3798299); (19870611, -3808659); (19870612, -3816458); (19870613, -3822901); (19870614, -3829742);
  (19870615, -3838510); (19870616, -3849936); (19870617, -3863764); (19870618, -3878980); (19870619, -3894304); (19870620, -3908775); (19870621, -3921615); (19870622, -3932201);
  (19870623, -3940224); (19870624, -3945760); (19870625, -3949495); (19870626, -3952095); (19870627, -3954141); (19870628, -3956317); (19870629, -3959437); (19870630, -3965144);
  (19870701, -3971599); (19870702, -3979562); (19870703, -3989859); (19870704, -4000993); (19870705, -4011865); (19870706, -4021694); (19870707, -4029824); (19870708, -4035886);
  (19870709, -4039955); (19870710, -4042327); (19870711, -4044327); (19870712, -4047957); (19870713, -4054649); (19870714, -4064329); (19870715, -4075921); (19870716, -4087953);
  (19870717, -4099080); (19870718, -4108775); (19870719, -4116988); (19870720, -4122500); (19870721, -4124871); (19870722, -4125365); (19870723, -4125258); (19870724, -4124071);
  (19870725, -4121475); (19870726, -4120556); (19870727, -4124771); (19870728, -4132257); (19870729, -4136145); (19870730, -4143500); (19870731, -4156136); (19870801, -4168002);
  (19870802, -4173237); (19870803, -4172465); (19870804, -4182144); (19870805, -4176682); (19870806, -4182615); (19870807, -4189350); (19870808, -4193993); (19870809, -4200116);
  (19870810, -4207945); (19870811, -4218911); (19870812, -4232448); (19870813, -4245710); (19870814, -4257953); (19870815, -4269026); (19870816, -4274716); (19870817, -4279375);
  (19870818, -4284564); (19870819, -4288040); (19870820, -4288241); (19870821, -4286455); (19870822, -4296966); (19870823, -4307409); (19870824, -4315552); (19870825, -4326893);
  (19870826, -4342127); (19870827, -4357918); (19870828, -4372572); (19870829, -4386518); (19870830, -4399736); (19870831, -4411666); (19870901, -4421788); (19870902, -4429934);
  (19870903, -4436699); (19870904, -4443400); (19870905, -4451679); (19870906, -4462931); (19870907, -4477751); (19870908, -4495651); (19870909, -4515239); (19870910, -4534715);
  (19870911, -4552449); (19870912, -4567415); (19870913, -4579349); (19870914, -4588661); (19870915, -4596190); (19870916, -4602952); (19870917, -4609968); (19870918, -4618102);
  (19870919, -4628135); (19870920, -4640666); (19870921, -4655919); (19870922, -4673652); (19870923, -4693102); (19870924, -4713190); (19870925, -4732806); (19870926, -4751210);
  (19870927, -4767964); (19870928, -4782443); (19870929, -4794625); (19870930, -4805330); (19871001, -4815924); (19871002, -4827971); (19871003, -4842733); (19871004, -4860782);
  (19871005, -4881817); (19871006, -4904750); (19871007, -4928051); (19871008, -4950259); (19871009, -4970346); (19871010, -4987870); (19871011, -5002920); (19871012, -5015936);
  (19871013, -5027451); (19871014, -5038119); (19871015, -5048807); (19871016, -5060493); (19871017, -5074207); (19871018, -5092454); (19871019, -5112976); (19871020, -5129495);
  (19871021, -5148663); (19871022, -5169135); (19871023, -5188969); (19871024, -5206232); (19871025, -5221396); (19871026, -5237418); (19871027, -5252202); (19871028, -5264921);
  (19871029, -5277100); (19871030, -5290782); (19871031, -5307588); (19871101, -5327955); (19871102, -5350250); (19871103, -5372915); (19871104, -5395076); (19871105, -5416031);
  (19871106, -5434871); (19871107, -5450946); (19871108, -5464474); (19871109, -5476453); (19871110, -5488153); (19871111, -5500717); (19871112, -5514699); (19871113, -5530332);
  (19871114, -5547679); (19871115, -5566573); (19871116, -5586665); (19871117, -5607465); (19871118, -5628392); (19871119, -5648803); (19871120, -5668045); (19871121, -5685574);
  (19871122, -5701124); (19871123, -5714880); (19871124, -5727547); (19871125, -5740232); (19871126, -5753939); (19871127, -5769962); (19871128, -5789243); (19871129, -5811559);
  (19871130, -5835490); (19871201, -5858765); (19871202, -5877217); (19871203, -5891519); (19871204, -5906136); (19871205, -5924479); (19871206, -5946043); (19871207, -5958767);
  (19871208, -5963089); (19871209, -5970948); (19871210, -5981774); (19871211, -5998499); (19871212, -6019374); (19871213, -6036978); (19871214, -6051156); (19871215, -6065639);
  (19871216, -6083489); (19871217, -6101703); (19871218, -6117670); (19871219, -6131658); (19871220, -6144351); (19871221, -6156128); (19871222, -6168462); (19871223, -6182833);
  (19871224, -6199960); (19871225, -6219910); (19871226, -6242080); (19871227, -6265288); (19871228, -6288066); (19871229, -6309028); (19871230, -6327241); (19871231, -6342471);
  (19880101, 3644819); (19880102, 3633396); (19880103, 3622262); (19880104, 3610628); (19880105, 3598151); (19880106, 3585064); (19880107, 3571385); (19880108, 3556691);
  (19880109, 3540390); (19880110, 3521590); (19880111, 3501393); (19880112, 3482001); (19880113, 3464687); (19880114, 3449744); (19880115, 3436142); (19880116, 3423330);
  (19880117, 3411378); (19880118, 3400469); (19880119, 3389229); (19880120, 3375781); (19880121, 3359480); (19880122, 3341202); (19880123, 3322644); (19880124, 3305338);
  (19880125, 3289212); (19880126, 3274668); (19880127, 3262620); (19880128, 3253624); (19880129, 3247402); (19880130, 3242025); (19880131, 3235744); (19880201, 3227549);
  (19880202, 3217057); (19880203, 3204436); (19880204, 3190074); (19880205, 3174153); (19880206, 3156647); (19880207, 3137645); (19880208, 3117822); (19880209, 3098164);
  (19880210, 3079370); (19880211, 3061956); (19880212, 3046236); (19880213, 3032463); (19880214, 3022701); (19880215, 3008791); (19880216, 2991167); (19880217, 2970478);
  (19880218, 2945924); (19880219, 2918943); (19880220, 2891243); (19880221, 2864417); (19880222, 2839806); (19880223, 2818314); (19880224, 2800113); (19880225, 2784555);
  (19880226, 2770608); (19880227, 2757173); (19880228, 2743198); (19880229, 2727812); (19880301, 2710454); (19880302, 2690980); (19880303, 2669669); (19880304, 2647114);
  (19880305, 2624023); (19880306, 2601028); (19880307, 2578683); (19880308, 2557545); (19880309, 2538219); (19880310, 2521249); (19880311, 2506889); (19880312, 2494869);
  (19880313, 2484228); (19880314, 2473410); (19880315, 2460655); (19880316, 2444231); (19880317, 2424128); (19880318, 2402060); (19880319, 2380241); (19880320, 2359966);
  (19880321, 2341958); (19880322, 2326406); (19880323, 2312942); (19880324, 2300927); (19880325, 2289629); (19880326, 2278277); (19880327, 2266122); (19880328, 2252504);
  (19880329, 2236915); (19880330, 2219077); (19880331, 2199043); (19880401, 2177246); (19880402, 2154465); (19880403, 2131686); (19880404, 2109846); (19880405, 2089600);
  (19880406, 2071197); (19880407, 2054459); (19880408, 2038826); (19880409, 2023433); (19880410, 2007280); (19880411, 1989324); (19880412, 1968619); (19880413, 1944760);
  (19880414, 1918251); (19880415, 1890419); (19880416, 1863597); (19880417, 1840029); (19880418, 1819931); (19880419, 1802504); (19880420, 1788591); (19880421, 1777250);
  (19880422, 1766186); (19880423, 1754721); (19880424, 1743458); (19880425, 1731526); (19880426, 1717164); (19880427, 1699345); (19880428, 1679315); (19880429, 1659215);
  (19880430, 1639590); (19880501, 1620219); (19880502, 1601936); (19880503, 1586545); (19880504, 1575026); (19880505, 1564772); (19880506, 1552112); (19880507, 1539037);
  (19880508, 1523633); (19880509, 1502010); (19880510, 1478292); (19880511, 1456061); (19880512, 1435762); (19880513, 1416766); (19880514, 1398067); (19880515, 1379624);
  (19880516, 1362246); (19880517, 1346894); (19880518, 1334088); (19880519, 1323061); (19880520, 1312873); (19880521, 1302489); (19880522, 1290898); (19880523, 1277560);
  (19880524, 1262485); (19880525, 1246049); (19880526, 1228775); (19880527, 1211260); (19880528, 1194164); (19880529, 1178138); (19880530, 1163725); (19880531, 1151190);
  (19880601, 1140396); (19880602, 1130765); (19880603, 1121384); (19880604, 1111240); (19880605, 1099506); (19880606, 1085788); (19880607, 1070208); (19880608, 1053434);
  (19880609, 1036618); (19880610, 1021089); (19880611, 1007993); (19880612, 997967); (19880613, 990932); (19880614, 986064); (19880615, 982130); (19880616, 977971);
  (19880617, 972850); (19880618, 966594); (19880619, 959848); (19880620, 952542); (19880621, 944271); (19880622, 935192); (19880623, 925808); (19880624, 917084);
  (19880625, 909823); (19880626, 904477); (19880627, 901205); (19880628, 899813); (19880629, 899803); (19880630, 900284); (19880701, 900037); (19880702, 897846);
  (19880703, 892867); (19880704, 884382); (19880705, 872964); (19880706, 863040); (19880707, 854528); (19880708, 847289); (19880709, 843226); (19880710, 842373);
  (19880711, 842304); (19880712, 842116); (19880713, 843060); (19880714, 842765); (19880715, 840408); (19880716, 836236); (19880717, 830614); (19880718, 824040);
  (19880719, 816830); (19880720, 809083); (19880721, 800951); (19880722, 792825); (19880723, 785421); (19880724, 780258); (19880725, 776998); (19880726, 774149);
  (19880727, 773486); (19880728, 769827); (19880729, 766598); (19880730, 758260); (19880731, 747498); (19880801, 735479); (19880802, 722696); (19880803, 710962);
  (19880804, 701545); (19880805, 695072); (19880806, 691577); (19880807, 689557); (19880808, 688470); (19880809, 688132); (19880810, 687702); (19880811, 686263);
  (19880812, 683044); (19880813, 677701); (19880814, 670357); (19880815, 661493); (19880816, 651792); (19880817, 641990); (19880818, 632796); (19880819, 624890);
  (19880820, 618875); (19880821, 615075); (19880822, 613255); (19880823, 612410); (19880824, 610920); (19880825, 607056); (19880826, 599654); (19880827, 588604);
  (19880828, 574961); (19880829, 560508); (19880830, 547074); (19880831, 535897); (19880901, 526989); (19880902, 520519); (19880903, 516148); (19880904, 512858);
  (19880905, 509591); (19880906, 505522); (19880907, 500281); (19880908, 493891); (19880909, 486561); (19880910, 478506); (19880911, 469963); (19880912, 460176);
  (19880913, 448959); (19880914, 437080); (19880915, 425678); (19880916, 415823); (19880917, 407904); (19880918, 401576); (19880919, 395968); (19880920, 390057);
  (19880921, 382702); (19880922, 372561); (19880923, 358762); (19880924, 341364); (19880925, 321388); (19880926, 300546); (19880927, 280705); (19880928, 263330);
  (19880929, 249138); (19880930, 238026); (19881001, 229221); (19881002, 221545); (19881003, 213700); (19881004, 204543); (19881005, 193301); (19881006, 179685);
  (19881007, 163826); (19881008, 146343); (19881009, 128380); (19881010, 110462); (19881011, 91961); (19881012, 73381); (19881013, 56110); (19881014, 41425);
  (19881015, 29990); (19881016, 21771); (19881017, 10279); (19881018, -2423); (19881019, -14573); (19881020, -29212); (19881021, -47631); (19881022, -71531);
  (19881023, -96344); (19881024, -118218); (19881025, -137608); (19881026, -155878); (19881027, -174279); (19881028, -188267); (19881029, -196819); (19881030, -204466);
  (19881031, -215450); (19881101, -228140); (19881102, -243072); (19881103, -260263); (19881104, -278521); (19881105, -297830); (19881106, -318600); (19881107, -339600);
  (19881108, -358659); (19881109, -375605); (19881110, -391428); (19881111, -406260); (19881112, -419650); (19881113, -431788); (19881114, -443842); (19881115, -457322);
  (19881116, -473462); (19881117, -492856); (19881118, -515282); (19881119, -539717); (19881120, -564603); (19881121, -588281); (19881122, -609422); (19881123, -627364);
  (19881124, -642267); (19881125, -655018); (19881126, -666883); (19881127, -679097); (19881128, -692540); (19881129, -707626); (19881130, -724378); (19881201, -742623);
  (19881202, -761903); (19881203, -781494); (19881204, -800574); (19881205, -818408); (19881206, -834566); (19881207, -848955); (19881208, -861736); (19881209, -873242);
  (19881210, -883949); (19881211, -894449); (19881212, -905486); (19881213, -917788); (19881214, -931877); (19881215, -948140); (19881216, -968877); (19881217, -987664);
  (19881218, -1002990); (19881219, -1019324); (19881220, -1032242); (19881221, -1042029); (19881222, -1049932); (19881223, -1056480); (19881224, -1062720); (19881225, -1069694);
  (19881226, -1078189); (19881227, -1088641); (19881228, -1101119); (19881229, -1115349); (19881230, -1130744); (19881231, -1146438); (19890101, -1161499); (19890102, -1174924);
  (19890103, -1186357); (19890104, -1195877); (19890105, -1204134); (19890106, -1212064); (19890107, -1220489); (19890108, -1229810); (19890109, -1240381); (19890110, -1252816);
  (19890111, -1267599); (19890112, -1284617); (19890113, -1303032); (19890114, -1321415); (19890115, -1337755); (19890116, -1351228); (19890117, -1362067); (19890118, -1371101);
  (19890119, -1379318); (19890120, -1387269); (19890121, -1395377); (19890122, -1404691); (19890123, -1416349); (19890124, -1430787); (19890125, -1446083); (19890126, -1470074);
  (19890127, -1494386); (19890128, -1504358); (19890129, -1515077); (19890130, -1540102); (19890131, -1558630); (19890201, -1566115); (19890202, -1570099); (19890203, -1578861);
  (19890204, -1590632); (19890205, -1603227); (19890206, -1617541); (19890207, -1634515); (19890208, -1654731); (19890209, -1677917); (19890210, -1701241); (19890211, -1721119);
  (19890212, -1737467); (19890213, -1760617); (19890214, -1780407); (19890215, -1789667); (19890216, -1790789); (19890217, -1790255); (19890218, -1796633); (19890219, -1808495);
  (19890220, -1821695); (19890221, -1835695); (19890222, -1851468); (19890223, -1867854); (19890224, -1883874); (19890225, -1899243); (19890226, -1913769); (19890227, -1927273);
  (19890228, -1939536); (19890301, -1950159); (19890302, -1959646); (19890303, -1969326); (19890304, -1980573); (19890305, -1994109); (19890306, -2010968); (19890307, -2031661);
  (19890308, -2055596); (19890309, -2081265); (19890310, -2106651); (19890311, -2129810); (19890312, -2149447); (19890313, -2165228); (19890314, -2177772); (19890315, -2188390);
  (19890316, -2198757); (19890317, -2210448); (19890318, -2224516); (19890319, -2241276); (19890320, -2260257); (19890321, -2280172); (19890322, -2300050); (19890323, -2319334);
  (19890324, -2337752); (19890325, -2355169); (19890326, -2371362); (19890327, -2386043); (19890328, -2398862); (19890329, -2409781); (19890330, -2420260); (19890331, -2431083);
  (19890401, -2443121); (19890402, -2457567); (19890403, -2475023); (19890404, -2495241); (19890405, -2517215); (19890406, -2539301); (19890407, -2559735); (19890408, -2577296);
  (19890409, -2591697); (19890410, -2603589); (19890411, -2614193); (19890412, -2624817); (19890413, -2636500); (19890414, -2649873); (19890415, -2665191); (19890416, -2682411);
  (19890417, -2701255); (19890418, -2721272); (19890419, -2741854); (19890420, -2762005); (19890421, -2782726); (19890422, -2801973); (19890423, -2820341); (19890424, -2837736);
  (19890425, -2853817); (19890426, -2869051); (19890427, -2883996); (19890428, -2900879); (19890429, -2919521); (19890430, -2940210); (19890501, -2963752); (19890502, -2989737);
  (19890503, -3015101); (19890504, -3037890); (19890505, -3058181); (19890506, -3076888); (19890507, -3094335); (19890508, -3107036); (19890509, -3118662); (19890510, -3131358);
  (19890511, -3147542); (19890512, -3167897); (19890513, -3178979); (19890514, -3195238); (19890515, -3213792); (19890516, -3231026); (19890517, -3252170); (19890518, -3269214)].
Definition eop_c04_data_10 : list (Z * Z) := [
  (19890519, -3283945); (19890520, -3298882); (19890521, -3313126); (19890522, -3325844); (19890523, -3337716); (19890524, -3350301); (19890525, -3364448); (19890526, -3380342);
  (19890527, -3398520); (19890528, -3419608); (19890529, -3443367); (19890530, -3467848); (19890531, -3490462); (19890601, -3509947); (19890602, -3529723); (19890603, -3545680);
  (19890604, -3556913); (19890605, -3566275); (19890606, -3574832); (19890607, -3584541); (19890608, -3597234); (19890609, -3611222); (19890610, -3624932); (19890611, -3639090);
  (19890612, -3654450); (19890613, -3670068); (19890614, -3684754); (19890615, -3697609); (19890616, -3708019); (19890617, -3715893); (19890618, -3721762); (19890619, -3726743);
  (19890620, -3732207); (19890621, -3739358); (19890622, -3748967); (19890623, -3760973); (19890624, -3772610); (19890625, -3787759); (19890626, -3807346); (19890627, -3822008);
  (19890628, -3834229); (19890629, -3844584); (19890630, -3852260); (19890701, -3857365); (19890702, -3860465); (19890703, -3862652); (19890704, -3865923); (19890705, -3871370);
  (19890706, -3878822); (19890707, -3887777); (19890708, -3898471); (19890709, -3910239); (19890710, -3921801); (19890711, -3932568); (19890712, -3942439); (19890713, -3951441);
  (19890714, -3959104); (19890715, -3965350); (19890716, -3972331); (19890717, -3978816); (19890718, -3986001); (19890719, -3995089); (19890720, -4006393); (19890721, -4020350);
  (19890722, -4036975); (19890723, -4055389); (19890724, -4073404); (19890725, -4088880); (19890726, -4102273); (19890727, -4113054); (19890728, -4120213); (19890729, -4126417);
  (19890730, -4131722); (19890731, -4135148); (19890801, -4142579); (19890802, -4151258); (19890803, -4161661); (19890804, -4172714); (19890805, -4184492); (19890806, -4196368);
  (19890807, -4207893); (19890808, -4218978); (19890809, -4228993); (19890810, -4236250); (19890811, -4243764); (19890812, -4251240); (19890813, -4258040); (19890814, -4264695);
  (19890815, -4272215); (19890816, -4281916); (19890817, -4294935); (19890818, -4311647); (19890819, -4331329); (19890820, -4352180); (19890821, -4371945); (19890822, -4388764);
  (19890823, -4401841); (19890824, -4411556); (19890825, -4419239); (19890826, -4426341); (19890827, -4433309); (19890828, -4440812); (19890829, -4449747); (19890830, -4460738);
  (19890831, -4473790); (19890901, -4487336); (19890902, -4502346); (19890903, -4518001); (19890904, -4531774); (19890905, -4543057); (19890906, -4552148); (19890907, -4559723);
  (19890908, -4566596); (19890909, -4573500); (19890910, -4580609); (19890911, -4588323); (19890912, -4600152); (19890913, -4613237); (19890914, -4626062); (19890915, -4645284);
  (19890916, -4667339); (19890917, -4689060); (19890918, -4708795); (19890919, -4725716); (19890920, -4739707); (19890921, -4751313); (19890922, -4761458); (19890923, -4771399);
  (19890924, -4782347); (19890925, -4795090); (19890926, -4809888); (19890927, -4826161); (19890928, -4843183); (19890929, -4861665); (19890930, -4880990); (19891001, -4899388);
  (19891002, -4915837); (19891003, -4930160); (19891004, -4942769); (19891005, -4954426); (19891006, -4965911); (19891007, -4977583); (19891008, -4989965); (19891009, -5003943);
  (19891010, -5020435); (19891011, -5039965); (19891012, -5062859); (19891013, -5088296); (19891014, -5114654); (19891015, -5139981); (19891016, -5162708); (19891017, -5183215);
  (19891018, -5201662); (19891019, -5218861); (19891020, -5236020); (19891021, -5253912); (19891022, -5273423); (19891023, -5294733); (19891024, -5317927); (19891025, -5342130);
  (19891026, -5366362); (19891027, -5389457); (19891028, -5412439); (19891029, -5434642); (19891030, -5455240); (19891031, -5474337); (19891101, -5492188); (19891102, -5508772);
  (19891103, -5525022); (19891104, -5540368); (19891105, -5556440); (19891106, -5575143); (19891107, -5596796); (19891108, -5620162); (19891109, -5646581); (19891110, -5675282);
  (19891111, -5703348); (19891112, -5728842); (19891113, -5751405); (19891114, -5771935); (19891115, -5790772); (19891116, -5808417); (19891117, -5825760); (19891118, -5843926);
  (19891119, -5864964); (19891120, -5888111); (19891121, -5912383); (19891122, -5937461); (19891123, -5963031); (19891124, -5988552); (19891125, -6013300); (19891126, -6036438);
  (19891127, -6057472); (19891128, -6077025); (19891129, -6095595); (19891130, -6113474); (19891201, -6131239); (19891202, -6149612); (19891203, -6169255); (19891204, -6190618);
  (19891205, -6213801); (19891206, -6238418); (19891207, -6263757); (19891208, -6288894); (19891209, -6312801); (19891210, -6334604); (19891211, -6353862); (19891212, -6370769);
  (19891213, -6386125); (19891214, -6401064); (19891215, -6416645); (19891216, -6433636); (19891217, -6452363); (19891218, -6472709); (19891219, -6494246); (19891220, -6516376);
  (19891221, -6538135); (19891222, -6558856); (19891223, -6578225); (19891224, -6595814); (19891225, -6611392); (19891226, -6625273); (19891227, -6638099); (19891228, -6650707);
  (19891229, -6663945); (19891230, -6678444); (19891231, -6694706); (19900101, 3286996); (19900102, 3266677); (19900103, 3244848); (19900104, 3222376); (19900105, 3200374);
  (19900106, 3179953); (19900107, 3161921); (19900108, 3146525); (19900109, 3133341); (19900110, 3121405); (19900111, 3109465); (19900112, 3096049); (19900113, 3080640);
  (19900114, 3063705); (19900115, 3044919); (19900116, 3023926); (19900117, 3002101); (19900118, 2985856); (19900119, 2969965); (19900120, 2955043); (19900121, 2941912);
  (19900122, 2927953); (19900123, 2914550); (19900124, 2901813); (19900125, 2890040); (19900126, 2871859); (19900127, 2854804); (19900128, 2834710); (19900129, 2810343);
  (19900130, 2784508); (19900131, 2758031); (19900201, 2729886); (19900202, 2702555); (19900203, 2678869); (19900204, 2658290); (19900205, 2638326); (19900206, 2617061);
  (19900207, 2596553); (19900208, 2575663); (19900209, 2550607); (19900210, 2529381); (19900211, 2501444); (19900212, 2471617); (19900213, 2443518); (19900214, 2416575);
  (19900215, 2391219); (19900216, 2367366); (19900217, 2344759); (19900218, 2324322); (19900219, 2305273); (19900220, 2287216); (19900221, 2270756); (19900222, 2254174);
  (19900223, 2236038); (19900224, 2215414); (19900225, 2191817); (19900226, 2165622); (19900227, 2138027); (19900228, 2110690); (19900301, 2085171); (19900302, 2062430);
  (19900303, 2042568); (19900304, 2024924); (19900305, 2008374); (19900306, 1991723); (19900307, 1973950); (19900308, 1954355); (19900309, 1932612); (19900310, 1908720);
  (19900311, 1883217); (19900312, 1857067); (19900313, 1831378); (19900314, 1807091); (19900315, 1784749); (19900316, 1764557); (19900317, 1745399); (19900318, 1726235);
  (19900319, 1706833); (19900320, 1687050); (19900321, 1666286); (19900322, 1643626); (19900323, 1618333); (19900324, 1590624); (19900325, 1560307); (19900326, 1527868);
  (19900327, 1494978); (19900328, 1463617); (19900329, 1435342); (19900330, 1410369); (19900331, 1388582); (19900401, 1369041); (19900402, 1350093); (19900403, 1330219);
  (19900404, 1308485); (19900405, 1284913); (19900406, 1259928); (19900407, 1234059); (19900408, 1207890); (19900409, 1181981); (19900410, 1156866); (19900411, 1132990);
  (19900412, 1110634); (19900413, 1089879); (19900414, 1070578); (19900415, 1052244); (19900416, 1034418); (19900417, 1016622); (19900418, 998038); (19900419, 977081);
  (19900420, 953303); (19900421, 926889); (19900422, 898328); (19900423, 868724); (19900424, 839586); (19900425, 812323); (19900426, 788389); (19900427, 768436);
  (19900428, 750913); (19900429, 735124); (19900430, 719989); (19900501, 704065); (19900502, 686377); (19900503, 666691); (19900504, 645996); (19900505, 624522);
  (19900506, 602735); (19900507, 581668); (19900508, 562168); (19900509, 544502); (19900510, 527749); (19900511, 511967); (19900512, 497767); (19900513, 484349);
  (19900514, 470210); (19900515, 454190); (19900516, 435785); (19900517, 415540); (19900518, 393512); (19900519, 369392); (19900520, 343506); (19900521, 316866);
  (19900522, 290902); (19900523, 267031); (19900524, 246019); (19900525, 227866); (19900526, 211924); (19900527, 196774); (19900528, 180793); (19900529, 162956);
  (19900530, 143313); (19900531, 122635); (19900601, 101656); (19900602, 80932); (19900603, 60946); (19900604, 42289); (19900605, 25520); (19900606, 10895);
  (19900607, -1943); (19900608, -13746); (19900609, -25106); (19900610, -36542); (19900611, -48809); (19900612, -63154); (19900613, -79465); (19900614, -97544);
  (19900615, -117223); (19900616, -138026); (19900617, -159243); (19900618, -179979); (19900619, -199337); (19900620, -216607); (19900621, -231386); (19900622, -244799);
  (19900623, -256988); (19900624, -269388); (19900625, -283450); (19900626, -299444); (19900627, -316917); (19900628, -335058); (19900629, -352975); (19900630, -369968);
  (19900701, -385690); (19900702, -400682); (19900703, -413876); (19900704, -425018); (19900705, -434908); (19900706, -444373); (19900707, -454021); (19900708, -463574);
  (19900709, -473257); (19900710, -483907); (19900711, -496482); (19900712, -512011); (19900713, -528783); (19900714, -545402); (19900715, -561337); (19900716, -575871);
  (19900717, -588251); (19900718, -598107); (19900719, -605495); (19900720, -611637); (19900721, -618372); (19900722, -626542); (19900723, -637258); (19900724, -650712);
  (19900725, -665861); (19900726, -680843); (19900727, -695449); (19900728, -709604); (19900729, -723100); (19900730, -735734); (19900731, -747227); (19900801, -757374);
  (19900802, -766210); (19900803, -774215); (19900804, -782754); (19900805, -792516); (19900806, -804039); (19900807, -818088); (19900808, -834972); (19900809, -854297);
  (19900810, -874410); (19900811, -894310); (19900812, -913731); (19900813, -931402); (19900814, -946586); (19900815, -959700); (19900816, -971874); (19900817, -984144);
  (19900818, -997679); (19900819, -1013412); (19900820, -1031605); (19900821, -1051885); (19900822, -1073410); (19900823, -1095162); (19900824, -1116219); (19900825, -1135914);
  (19900826, -1153871); (19900827, -1169968); (19900828, -1184293); (19900829, -1197126); (19900830, -1208930); (19900831, -1220343); (19900901, -1232206); (19900902, -1245559);
  (19900903, -1261383); (19900904, -1280254); (19900905, -1302053); (19900906, -1325876); (19900907, -1350123); (19900908, -1373045); (19900909, -1393636); (19900910, -1411699);
  (19900911, -1426875); (19900912, -1440529); (19900913, -1454261); (19900914, -1469199); (19900915, -1486231); (19900916, -1505696); (19900917, -1527374); (19900918, -1550588);
  (19900919, -1574390); (19900920, -1597801); (19900921, -1620029); (19900922, -1640571); (19900923, -1659360); (19900924, -1676697); (19900925, -1693069); (19900926, -1709028);
  (19900927, -1724970); (19900928, -1741582); (19900929, -1759780); (19900930, -1780199); (19901001, -1803124); (19901002, -1828456); (19901003, -1855594); (19901004, -1883453);
  (19901005, -1910876); (19901006, -1936676); (19901007, -1958700); (19901008, -1977836); (19901009, -1996939); (19901010, -2015205); (19901011, -2033175); (19901012, -2052154);
  (19901013, -2072814); (19901014, -2095301); (19901015, -2119239); (19901016, -2143747); (19901017, -2167069); (19901018, -2189351); (19901019, -2210743); (19901020, -2230600);
  (19901021, -2248469); (19901022, -2265153); (19901023, -2281972); (19901024, -2299102); (19901025, -2316958); (19901026, -2336250); (19901027, -2357005); (19901028, -2380001);
  (19901029, -2406203); (19901030, -2434339); (19901031, -2463775); (19901101, -2493811); (19901102, -2522761); (19901103, -2549188); (19901104, -2572606); (19901105, -2593330);
  (19901106, -2611962); (19901107, -2629596); (19901108, -2649047); (19901109, -2671511); (19901110, -2696146); (19901111, -2722294); (19901112, -2749241); (19901113, -2775100);
  (19901114, -2799510); (19901115, -2822975); (19901116, -2844695); (19901117, -2864159); (19901118, -2881760); (19901119, -2898282); (19901120, -2914701); (19901121, -2931741);
  (19901122, -2949885); (19901123, -2969640); (19901124, -2991434); (19901125, -3015447); (19901126, -3041398); (19901127, -3068641); (19901128, -3096429); (19901129, -3124394);
  (19901130, -3151086); (19901201, -3175497); (19901202, -3197669); (19901203, -3218418); (19901204, -3239019); (19901205, -3260627); (19901206, -3283665); (19901207, -3307874);
  (19901208, -3332855); (19901209, -3358151); (19901210, -3383181); (19901211, -3407164); (19901212, -3429243); (19901213, -3448367); (19901214, -3464870); (19901215, -3480159);
  (19901216, -3494917); (19901217, -3509290); (19901218, -3523421); (19901219, -3537836); (19901220, -3554270); (19901221, -3573236); (19901222, -3594089); (19901223, -3616467);
  (19901224, -3640200); (19901225, -3664907); (19901226, -3689883); (19901227, -3714206); (19901228, -3736960); (19901229, -3757554); (19901230, -3776128); (19901231, -3793804);
  (19910101, 6187785); (19910102, 6167176); (19910103, 6143742); (19910104, 6117903); (19910105, 6091360); (19910106, 6065096); (19910107, 6039076); (19910108, 6013777);
  (19910109, 5990656); (19910110, 5969487); (19910111, 5949671); (19910112, 5930925); (19910113, 5912828); (19910114, 5894877); (19910115, 5876512); (19910116, 5857218);
  (19910117, 5836638); (19910118, 5814643); (19910119, 5791440); (19910120, 5767320); (19910121, 5742669); (19910122, 5718052); (19910123, 5694177); (19910124, 5671753);
  (19910125, 5651473); (19910126, 5633119); (19910127, 5615524); (19910128, 5597236); (19910129, 5577120); (19910130, 5555505); (19910131, 5532309); (19910201, 5507036);
  (19910202, 5480350); (19910203, 5453614); (19910204, 5428045); (19910205, 5404438); (19910206, 5383043); (19910207, 5363476); (19910208, 5345039); (19910209, 5327299);
  (19910210, 5309742); (19910211, 5291675); (19910212, 5272433); (19910213, 5251505); (19910214, 5228754); (19910215, 5204135); (19910216, 5177908); (19910217, 5150836);
  (19910218, 5123976); (19910219, 5098452); (19910220, 5075069); (19910221, 5053983); (19910222, 5034452); (19910223, 5015217); (19910224, 4995290); (19910225, 4973997);
  (19910226, 4950845); (19910227, 4925156); (19910228, 4896751); (19910301, 4867554); (19910302, 4838305); (19910303, 4809446); (19910304, 4782298); (19910305, 4757933);
  (19910306, 4736686); (19910307, 4718165); (19910308, 4701469); (19910309, 4685447); (19910310, 4668966); (19910311, 4651179); (19910312, 4631576); (19910313, 4609905);
  (19910314, 4586119); (19910315, 4560398); (19910316, 4532578); (19910317, 4503430); (19910318, 4474422); (19910319, 4446862); (19910320, 4421638); (19910321, 4398826);
  (19910322, 4377789); (19910323, 4357664); (19910324, 4337539); (19910325, 4316432); (19910326, 4293200); (19910327, 4267200); (19910328, 4238967); (19910329, 4209841);
  (19910330, 4181330); (19910331, 4154425); (19910401, 4129458); (19910402, 4106281); (19910403, 4084543); (19910404, 4064097); (19910405, 4044698); (19910406, 4025658);
  (19910407, 4006101); (19910408, 3985360); (19910409, 3963181); (19910410, 3940393); (19910411, 3917652); (19910412, 3892182); (19910413, 3863767); (19910414, 3835430);
  (19910415, 3808887); (19910416, 3784550); (19910417, 3762324); (19910418, 3742175); (19910419, 3723488); (19910420, 3704525); (19910421, 3683745); (19910422, 3660486);
  (19910423, 3634820); (19910424, 3607366); (19910425, 3578971); (19910426, 3550680); (19910427, 3523482); (19910428, 3498017); (19910429, 3474510); (19910430, 3452844);
  (19910501, 3432667); (19910502, 3413516); (19910503, 3394846); (19910504, 3376105); (19910505, 3356578); (19910506, 3335513); (19910507, 3312391); (19910508, 3287183);
  (19910509, 3260468); (19910510, 3232727); (19910511, 3204445); (19910512, 3176454); (19910513, 3149710); (19910514, 3124933); (19910515, 3102239); (19910516, 3081042);
  (19910517, 3060577); (19910518, 3040003); (19910519, 3018537); (19910520, 2995795); (19910521, 2971973); (19910522, 2947853); (19910523, 2924640); (19910524, 2903177);
  (19910525, 2883836); (19910526, 2866690); (19910527, 2851490); (19910528, 2837678); (19910529, 2824473); (19910530, 2810974); (19910531, 2796552); (19910601, 2781315);
  (19910602, 2765245); (19910603, 2747907); (19910604, 2728817); (19910605, 2707698); (19910606, 2684813); (19910607, 2660871); (19910608, 2636803); (19910609, 2613406);
  (19910610, 2591213); (19910611, 2570413); (19910612, 2550883); (19910613, 2532312); (19910614, 2513811); (19910615, 2494392); (19910616, 2473596); (19910617, 2451651);
  (19910618, 2429330); (19910619, 2407643); (19910620, 2387512); (19910621, 2369560); (19910622, 2354051); (19910623, 2340913); (19910624, 2329833); (19910625, 2320337);
  (19910626, 2311901); (19910627, 2304019); (19910628, 2295804); (19910629, 2286829); (19910630, 2276433); (19910701, 2264507); (19910702, 2251443); (19910703, 2237190);
  (19910704, 2221542); (19910705, 2205518); (19910706, 2190502); (19910707, 2177262); (19910708, 2166088); (19910709, 2156645); (19910710, 2148193); (19910711, 2139802);
  (19910712, 2129273); (19910713, 2116301); (19910714, 2101131); (19910715, 2083032); (19910716, 2063600); (19910717, 2045477); (19910718, 2029027); (19910719, 2014270);
  (19910720, 2001316); (19910721, 1991118); (19910722, 1982929); (19910723, 1974561); (19910724, 1966296); (19910725, 1957810); (19910726, 1948161); (19910727, 1936997);
  (19910728, 1924451); (19910729, 1910751); (19910730, 1895095); (19910731, 1879838); (19910801, 1865646); (19910802, 1852011); (19910803, 1838992); (19910804, 1827618);
  (19910805, 1818100); (19910806, 1809643); (19910807, 1801192); (19910808, 1791598); (19910809, 1779809); (19910810, 1765286); (19910811, 1748281); (19910812, 1729696);
  (19910813, 1710692); (19910814, 1692264); (19910815, 1674982); (19910816, 1659105); (19910817, 1644778); (19910818, 1632556); (19910819, 1622060); (19910820, 1611982);
  (19910821, 1601310); (19910822, 1590000); (19910823, 1577897); (19910824, 1563862); (19910825, 1547403); (19910826, 1529043); (19910827, 1509456); (19910828, 1488246);
  (19910829, 1467338); (19910830, 1448748); (19910831, 1431720); (19910901, 1415242); (19910902, 1399087); (19910903, 1382947); (19910904, 1366182); (19910905, 1347638);
  (19910906, 1326382); (19910907, 1302386); (19910908, 1276630); (19910909, 1250193); (19910910, 1223951); (19910911, 1199198); (19910912, 1176465); (19910913, 1155561);
  (19910914, 1136208); (19910915, 1118826); (19910916, 1103216); (19910917, 1088301); (19910918, 1072948); (19910919, 1056439); (19910920, 1038381); (19910921, 1018655);
  (19910922, 997252); (19910923, 974275); (19910924, 950022); (19910925, 925032); (19910926, 900063); (19910927, 876018); (19910928, 853879); (19910929, 833839);
  (19910930, 815214); (19911001, 796824); (19911002, 777468); (19911003, 756422); (19911004, 733469); (19911005, 708638); (19911006, 682746); (19911007, 657154);
  (19911008, 633031); (19911009, 610760); (19911010, 589621); (19911011, 569811); (19911012, 552072); (19911013, 536375); (19911014, 522004); (19911015, 507933);
  (19911016, 493320); (19911017, 477717); (19911018, 460037); (19911019, 441264); (19911020, 420865); (19911021, 398661); (19911022, 375960); (19911023, 353068);
  (19911024, 330727); (19911025, 312228); (19911026, 292336); (19911027, 271977); (19911028, 253330); (19911029, 233729); (19911030, 211349); (19911031, 187054);
  (19911101, 161061); (19911102, 133425); (19911103, 105319); (19911104, 78152); (19911105, 52869); (19911106, 29882); (19911107, 8998); (19911108, -10368);
  (19911109, -28914); (19911110, -47046); (19911111, -65315); (19911112, -84424); (19911113, -104836); (19911114, -126588); (19911115, -149780); (19911116, -174462);
  (19911117, -200385); (19911118, -226837); (19911119, -252816); (19911120, -277636); (19911121, -301347); (19911122, -322844); (19911123, -342752); (19911124, -362725);
  (19911125, -384006); (19911126, -407413); (19911127, -433439); (19911128, -462211); (19911129, -489564); (19911130, -517698); (19911201, -547764); (19911202, -575644);
  (19911203, -600909); (19911204, -624967); (19911205, -644904); (19911206, -664602); (19911207, -684166); (19911208, -703232); (19911209, -722594); (19911210, -743034);
  (19911211, -764989); (19911212, -788264); (19911213, -812796); (19911214, -838274); (19911215, -864218); (19911216, -890121); (19911217, -915490); (19911218, -939729);
  (19911219, -962179); (19911220, -983036); (19911221, -1002047); (19911222, -1020774); (19911223, -1041103); (19911224, -1063494); (19911225, -1087814); (19911226, -1113471);
  (19911227, -1139531); (19911228, -1165053); (19911229, -1189300); (19911230, -1211857); (19911231, -1232641); (19920101, -1251849); (19920102, -1269899); (19920103, -1287361);
  (19920104, -1304905); (19920105, -1323209); (19920106, -1342847); (19920107, -1364172); (19920108, -1387238); (19920109, -1411775); (19920110, -1437493); (19920111, -1464053);
  (19920112, -1490856); (19920113, -1517169); (19920114, -1542330); (19920115, -1566036); (19920116, -1588605); (19920117, -1610367); (19920118, -1631971); (19920119, -1654980);
  (19920120, -1680708); (19920121, -1709474); (19920122, -1740597); (19920123, -1772604); (19920124, -1803982); (19920125, -1833625); (19920126, -1860888); (19920127, -1885673);
  (19920128, -1908349); (19920129, -1929602); (19920130, -1950312); (19920131, -1971238); (19920201, -1992895); (19920202, -2015522); (19920203, -2039163); (19920204, -2063800);
  (19920205, -2089463); (19920206, -2116253); (19920207, -2143998); (19920208, -2172112); (19920209, -2199356); (19920210, -2224963); (19920211, -2248895); (19920212, -2271335)].
Definition eop_c04_data_11 : list (Z * Z) := [
  (19920213, -2292470); (19920214, -2312888); (19920215, -2333607); (19920216, -2355962); (19920217, -2380787); (19920218, -2408079); (19920219, -2437213); (19920220, -2467301);
  (19920221, -2496839); (19920222, -2524416); (19920223, -2549574); (19920224, -2572735); (19920225, -2594667); (19920226, -2615815); (19920227, -2635987); (19920228, -2655609);
  (19920229, -2675552); (19920301, -2696582); (19920302, -2719234); (19920303, -2743742); (19920304, -2770015); (19920305, -2797704); (19920306, -2826075); (19920307, -2854273);
  (19920308, -2881997); (19920309, -2908762); (19920310, -2934008); (19920311, -2957988); (19920312, -2982106); (19920313, -3007150); (19920314, -3033758); (19920315, -3062725);
  (19920316, -3094515); (19920317, -3128956); (19920318, -3164954); (19920319, -3200581); (19920320, -3234549); (19920321, -3266545); (19920322, -3295995); (19920323, -3323040);
  (19920324, -3348603); (19920325, -3373552); (19920326, -3398349); (19920327, -3423267); (19920328, -3448567); (19920329, -3474697); (19920330, -3502124); (19920331, -3531064);
  (19920401, -3561235); (19920402, -3591756); (19920403, -3621943); (19920404, -3651312); (19920405, -3679319); (19920406, -3705595); (19920407, -3730208); (19920408, -3753799);
  (19920409, -3777567); (19920410, -3802604); (19920411, -3829590); (19920412, -3858917); (19920413, -3890604); (19920414, -3924227); (19920415, -3959113); (19920416, -3994508);
  (19920417, -4028329); (19920418, -4059124); (19920419, -4086642); (19920420, -4111444); (19920421, -4134565); (19920422, -4157018); (19920423, -4179432); (19920424, -4202317);
  (19920425, -4226115); (19920426, -4251151); (19920427, -4277547); (19920428, -4305113); (19920429, -4333275); (19920430, -4361111); (19920501, -4387900); (19920502, -4413182);
  (19920503, -4436653); (19920504, -4458311); (19920505, -4478585); (19920506, -4498303); (19920507, -4518512); (19920508, -4540308); (19920509, -4564388); (19920510, -4590645);
  (19920511, -4618309); (19920512, -4646303); (19920513, -4673677); (19920514, -4699975); (19920515, -4724653); (19920516, -4747224); (19920517, -4767601); (19920518, -4786578);
  (19920519, -4805155); (19920520, -4824039); (19920521, -4843798); (19920522, -4864592); (19920523, -4885847); (19920524, -4908002); (19920525, -4931248); (19920526, -4955132);
  (19920527, -4978920); (19920528, -5001754); (19920529, -5022959); (19920530, -5042560); (19920531, -5060402); (19920601, -5076604); (19920602, -5091934); (19920603, -5107222);
  (19920604, -5123603); (19920605, -5143154); (19920606, -5164479); (19920607, -5186108); (19920608, -5207240); (19920609, -5227421); (19920610, -5246496); (19920611, -5264358);
  (19920612, -5280975); (19920613, -5296384); (19920614, -5310714); (19920615, -5324067); (19920616, -5337266); (19920617, -5351220); (19920618, -5366249); (19920619, -5381964);
  (19920620, -5397977); (19920621, -5415560); (19920622, -5434286); (19920623, -5453192); (19920624, -5471834); (19920625, -5488953); (19920626, -5505096); (19920627, -5521300);
  (19920628, -5536406); (19920629, -5547725); (19920630, -5556797); (19920701, 4430613); (19920702, 4416665); (19920703, 4401580); (19920704, 4384428); (19920705, 4366279);
  (19920706, 4348537); (19920707, 4332424); (19920708, 4318306); (19920709, 4305640); (19920710, 4295192); (19920711, 4286134); (19920712, 4277497); (19920713, 4268915);
  (19920714, 4260105); (19920715, 4250669); (19920716, 4239923); (19920717, 4227502); (19920718, 4214165); (19920719, 4199848); (19920720, 4184589); (19920721, 4169019);
  (19920722, 4153677); (19920723, 4138773); (19920724, 4125048); (19920725, 4111808); (19920726, 4098840); (19920727, 4086425); (19920728, 4073584); (19920729, 4059471);
  (19920730, 4043209); (19920731, 4024589); (19920801, 4004051); (19920802, 3982526); (19920803, 3961540); (19920804, 3942233); (19920805, 3924684); (19920806, 3909023);
  (19920807, 3895277); (19920808, 3882490); (19920809, 3870210); (19920810, 3858453); (19920811, 3846395); (19920812, 3832319); (19920813, 3816205); (19920814, 3798456);
  (19920815, 3779655); (19920816, 3760519); (19920817, 3741623); (19920818, 3723299); (19920819, 3705472); (19920820, 3687686); (19920821, 3670971); (19920822, 3656210);
  (19920823, 3640347); (19920824, 3623384); (19920825, 3605650); (19920826, 3585496); (19920827, 3562666); (19920828, 3537190); (19920829, 3509800); (19920830, 3482533);
  (19920831, 3457208); (19920901, 3434716); (19920902, 3415253); (19920903, 3398472); (19920904, 3383641); (19920905, 3369871); (19920906, 3356250); (19920907, 3341941);
  (19920908, 3326274); (19920909, 3308825); (19920910, 3289481); (19920911, 3268734); (19920912, 3247449); (19920913, 3226248); (19920914, 3205491); (19920915, 3185415);
  (19920916, 3166321); (19920917, 3148683); (19920918, 3132152); (19920919, 3115929); (19920920, 3099497); (19920921, 3082335); (19920922, 3063855); (19920923, 3043360);
  (19920924, 3020147); (19920925, 2994654); (19920926, 2968158); (19920927, 2941963); (19920928, 2917139); (19920929, 2894260); (19920930, 2873361); (19921001, 2854106);
  (19921002, 2835930); (19921003, 2818180); (19921004, 2800174); (19921005, 2781301); (19921006, 2761097); (19921007, 2739330); (19921008, 2716068); (19921009, 2691664);
  (19921010, 2666680); (19921011, 2641771); (19921012, 2617530); (19921013, 2594368); (19921014, 2572402); (19921015, 2551396); (19921016, 2530932); (19921017, 2510425);
  (19921018, 2489125); (19921019, 2466213); (19921020, 2440995); (19921021, 2413028); (19921022, 2382126); (19921023, 2349931); (19921024, 2318579); (19921025, 2288600);
  (19921026, 2260509); (19921027, 2234890); (19921028, 2211702); (19921029, 2190195); (19921030, 2169378); (19921031, 2148319); (19921101, 2126298); (19921102, 2103529);
  (19921103, 2080716); (19921104, 2057703); (19921105, 2033152); (19921106, 2007949); (19921107, 1982739); (19921108, 1957939); (19921109, 1934031); (19921110, 1911277);
  (19921111, 1889572); (19921112, 1868374); (19921113, 1847368); (19921114, 1826211); (19921115, 1803926); (19921116, 1779566); (19921117, 1752742); (19921118, 1723651);
  (19921119, 1693040); (19921120, 1662385); (19921121, 1633279); (19921122, 1606133); (19921123, 1580756); (19921124, 1556783); (19921125, 1533727); (19921126, 1511240);
  (19921127, 1489168); (19921128, 1467470); (19921129, 1446014); (19921130, 1424398); (19921201, 1401982); (19921202, 1377636); (19921203, 1350332); (19921204, 1322807);
  (19921205, 1295814); (19921206, 1269413); (19921207, 1243708); (19921208, 1218940); (19921209, 1195074); (19921210, 1171205); (19921211, 1147163); (19921212, 1123032);
  (19921213, 1097977); (19921214, 1070933); (19921215, 1041447); (19921216, 1010661); (19921217, 981664); (19921218, 952962); (19921219, 924568); (19921220, 898537);
  (19921221, 876219); (19921222, 856299); (19921223, 836756); (19921224, 817044); (19921225, 796652); (19921226, 775127); (19921227, 752261); (19921228, 728015);
  (19921229, 702486); (19921230, 675922); (19921231, 648738); (19930101, 621460); (19930102, 594291); (19930103, 567996); (19930104, 542850); (19930105, 518348);
  (19930106, 493976); (19930107, 469672); (19930108, 445058); (19930109, 419434); (19930110, 392283); (19930111, 364222); (19930112, 335242); (19930113, 305768);
  (19930114, 276422); (19930115, 248116); (19930116, 221987); (19930117, 198247); (19930118, 176326); (19930119, 155584); (19930120, 135252); (19930121, 114443);
  (19930122, 92594); (19930123, 69706); (19930124, 46261); (19930125, 21780); (19930126, -4020); (19930127, -31038); (19930128, -58593); (19930129, -85904);
  (19930130, -112741); (19930131, -138467); (19930201, -162977); (19930202, -186379); (19930203, -210000); (19930204, -234532); (19930205, -259444); (19930206, -287377);
  (19930207, -318067); (19930208, -350283); (19930209, -383703); (19930210, -417351); (19930211, -449319); (19930212, -479076); (19930213, -505451); (19930214, -529801);
  (19930215, -552556); (19930216, -574047); (19930217, -596483); (19930218, -619570); (19930219, -643566); (19930220, -669399); (19930221, -696538); (19930222, -724651);
  (19930223, -753168); (19930224, -781600); (19930225, -809324); (19930226, -835633); (19930227, -860568); (19930228, -884514); (19930301, -907194); (19930302, -929413);
  (19930303, -951357); (19930304, -974311); (19930305, -999421); (19930306, -1026610); (19930307, -1055745); (19930308, -1086760); (19930309, -1119144); (19930310, -1151773);
  (19930311, -1183047); (19930312, -1212507); (19930313, -1240246); (19930314, -1266373); (19930315, -1291389); (19930316, -1316117); (19930317, -1341330); (19930318, -1367494);
  (19930319, -1394096); (19930320, -1421408); (19930321, -1449969); (19930322, -1478929); (19930323, -1507527); (19930324, -1535914); (19930325, -1563971); (19930326, -1590983);
  (19930327, -1615840); (19930328, -1639882); (19930329, -1663685); (19930330, -1686608); (19930331, -1710028); (19930401, -1734500); (19930402, -1760686); (19930403, -1789357);
  (19930404, -1820362); (19930405, -1852860); (19930406, -1886272); (19930407, -1919461); (19930408, -1950735); (19930409, -1980186); (19930410, -2008220); (19930411, -2035025);
  (19930412, -2061206); (19930413, -2087466); (19930414, -2114383); (19930415, -2142323); (19930416, -2171377); (19930417, -2201086); (19930418, -2230883); (19930419, -2260283);
  (19930420, -2288976); (19930421, -2316975); (19930422, -2344701); (19930423, -2372672); (19930424, -2399468); (19930425, -2424772); (19930426, -2450189); (19930427, -2475775);
  (19930428, -2501897); (19930429, -2530080); (19930430, -2561184); (19930501, -2593287); (19930502, -2628141); (19930503, -2663068); (19930504, -2697137); (19930505, -2728810);
  (19930506, -2758006); (19930507, -2784549); (19930508, -2809423); (19930509, -2833588); (19930510, -2857344); (19930511, -2881309); (19930512, -2905200); (19930513, -2929614);
  (19930514, -2954544); (19930515, -2979866); (19930516, -3005837); (19930517, -3032141); (19930518, -3057534); (19930519, -3082430); (19930520, -3106477); (19930521, -3129182);
  (19930522, -3150843); (19930523, -3172642); (19930524, -3194069); (19930525, -3215270); (19930526, -3238623); (19930527, -3263781); (19930528, -3290442); (19930529, -3318430);
  (19930530, -3347350); (19930531, -3375935); (19930601, -3402543); (19930602, -3427566); (19930603, -3448101); (19930604, -3468974); (19930605, -3489594); (19930606, -3507592);
  (19930607, -3526461); (19930608, -3545855); (19930609, -3566774); (19930610, -3588143); (19930611, -3610342); (19930612, -3633000); (19930613, -3655675); (19930614, -3677742);
  (19930615, -3698246); (19930616, -3718009); (19930617, -3736821); (19930618, -3754518); (19930619, -3771544); (19930620, -3788517); (19930621, -3805842); (19930622, -3824192);
  (19930623, -3844123); (19930624, -3865832); (19930625, -3888628); (19930626, -3911750); (19930627, -3935529); (19930628, -3957496); (19930629, -3976355); (19930630, -3993854);
  (19930701, 5990128); (19930702, 5975117); (19930703, 5960419); (19930704, 5946682); (19930705, 5933086); (19930706, 5917771); (19930707, 5902605); (19930708, 5886177);
  (19930709, 5870399); (19930710, 5853393); (19930711, 5838194); (19930712, 5822998); (19930713, 5808621); (19930714, 5794590); (19930715, 5781207); (19930716, 5768251);
  (19930717, 5755514); (19930718, 5742711); (19930719, 5728933); (19930720, 5713279); (19930721, 5695500); (19930722, 5675144); (19930723, 5652829); (19930724, 5629979);
  (19930725, 5608218); (19930726, 5588296); (19930727, 5570265); (19930728, 5555088); (19930729, 5540782); (19930730, 5526338); (19930731, 5511135); (19930801, 5495668);
  (19930802, 5480014); (19930803, 5462661); (19930804, 5444021); (19930805, 5424555); (19930806, 5404183); (19930807, 5383834); (19930808, 5364640); (19930809, 5346825);
  (19930810, 5330140); (19930811, 5314206); (19930812, 5299809); (19930813, 5285786); (19930814, 5270621); (19930815, 5253938); (19930816, 5235702); (19930817, 5215234);
  (19930818, 5192392); (19930819, 5168987); (19930820, 5142890); (19930821, 5116629); (19930822, 5092709); (19930823, 5070627); (19930824, 5050940); (19930825, 5033177);
  (19930826, 5016701); (19930827, 5000788); (19930828, 4984782); (19930829, 4968182); (19930830, 4950640); (19930831, 4931974); (19930901, 4912197); (19930902, 4891498);
  (19930903, 4869958); (19930904, 4848676); (19930905, 4828705); (19930906, 4809792); (19930907, 4791714); (19930908, 4773777); (19930909, 4756395); (19930910, 4739229);
  (19930911, 4721249); (19930912, 4701439); (19930913, 4679512); (19930914, 4655142); (19930915, 4628254); (19930916, 4600741); (19930917, 4572066); (19930918, 4544751);
  (19930919, 4519614); (19930920, 4496369); (19930921, 4475604); (19930922, 4455395); (19930923, 4435234); (19930924, 4414538); (19930925, 4392901); (19930926, 4370549);
  (19930927, 4347474); (19930928, 4323585); (19930929, 4299368); (19930930, 4275304); (19931001, 4251811); (19931002, 4228719); (19931003, 4206483); (19931004, 4185472);
  (19931005, 4164389); (19931006, 4143443); (19931007, 4121853); (19931008, 4099134); (19931009, 4075816); (19931010, 4050815); (19931011, 4024462); (19931012, 3995019);
  (19931013, 3963581); (19931014, 3930842); (19931015, 3897850); (19931016, 3866421); (19931017, 3837225); (19931018, 3811336); (19931019, 3786997); (19931020, 3763478);
  (19931021, 3739843); (19931022, 3715581); (19931023, 3690386); (19931024, 3664099); (19931025, 3637182); (19931026, 3610101); (19931027, 3582400); (19931028, 3554974);
  (19931029, 3527914); (19931030, 3501995); (19931031, 3476502); (19931101, 3452711); (19931102, 3430711); (19931103, 3408641); (19931104, 3387075); (19931105, 3364171);
  (19931106, 3341395); (19931107, 3316671); (19931108, 3290043); (19931109, 3260826); (19931110, 3230231); (19931111, 3199072); (19931112, 3168665); (19931113, 3139982);
  (19931114, 3113109); (19931115, 3088736); (19931116, 3066133); (19931117, 3044095); (19931118, 3021611); (19931119, 2998596); (19931120, 2974932); (19931121, 2950651);
  (19931122, 2926289); (19931123, 2901596); (19931124, 2876753); (19931125, 2852575); (19931126, 2829497); (19931127, 2807461); (19931128, 2786062); (19931129, 2765708);
  (19931130, 2747270); (19931201, 2729409); (19931202, 2711204); (19931203, 2692196); (19931204, 2672009); (19931205, 2650090); (19931206, 2626107); (19931207, 2600595);
  (19931208, 2573617); (19931209, 2545914); (19931210, 2519781); (19931211, 2494825); (19931212, 2470178); (19931213, 2447906); (19931214, 2426749); (19931215, 2404544);
  (19931216, 2381140); (19931217, 2356142); (19931218, 2330038); (19931219, 2303937); (19931220, 2277761); (19931221, 2251900); (19931222, 2225652); (19931223, 2200191);
  (19931224, 2175907); (19931225, 2152506); (19931226, 2130061); (19931227, 2108527); (19931228, 2087559); (19931229, 2066455); (19931230, 2044389); (19931231, 2020702);
  (19940101, 1995166); (19940102, 1968054); (19940103, 1940062); (19940104, 1912107); (19940105, 1885068); (19940106, 1859552); (19940107, 1835617); (19940108, 1813307);
  (19940109, 1792442); (19940110, 1772465); (19940111, 1752747); (19940112, 1732400); (19940113, 1710578); (19940114, 1687415); (19940115, 1663660); (19940116, 1640196);
  (19940117, 1617309); (19940118, 1594783); (19940119, 1572894); (19940120, 1552226); (19940121, 1532358); (19940122, 1512812); (19940123, 1493568); (19940124, 1474236);
  (19940125, 1454506); (19940126, 1433703); (19940127, 1411005); (19940128, 1385927); (19940129, 1358790); (19940130, 1330915); (19940131, 1303269); (19940201, 1275935);
  (19940202, 1249722); (19940203, 1225370); (19940204, 1203166); (19940205, 1182683); (19940206, 1163326); (19940207, 1144532); (19940208, 1125034); (19940209, 1104275);
  (19940210, 1081618); (19940211, 1059078); (19940212, 1035910); (19940213, 1012536); (19940214, 989876); (19940215, 966095); (19940216, 943751); (19940217, 922481);
  (19940218, 901235); (19940219, 880588); (19940220, 860814); (19940221, 840533); (19940222, 818671); (19940223, 795416); (19940224, 769725); (19940225, 741008);
  (19940226, 709557); (19940227, 676233); (19940228, 642322); (19940301, 609209); (19940302, 577756); (19940303, 547989); (19940304, 519826); (19940305, 493174);
  (19940306, 467804); (19940307, 443191); (19940308, 418697); (19940309, 393638); (19940310, 366907); (19940311, 339885); (19940312, 313727); (19940313, 287928);
  (19940314, 262863); (19940315, 238837); (19940316, 215896); (19940317, 193184); (19940318, 171622); (19940319, 150760); (19940320, 129566); (19940321, 107872);
  (19940322, 85045); (19940323, 60339); (19940324, 33471); (19940325, 4188); (19940326, -27476); (19940327, -60470); (19940328, -92984); (19940329, -123394);
  (19940330, -151314); (19940331, -177738); (19940401, -202640); (19940402, -226217); (19940403, -249857); (19940404, -274397); (19940405, -299241); (19940406, -324015);
  (19940407, -349752); (19940408, -376254); (19940409, -402626); (19940410, -428702); (19940411, -454504); (19940412, -478744); (19940413, -501796); (19940414, -527564);
  (19940415, -546687); (19940416, -568048); (19940417, -588792); (19940418, -610522); (19940419, -633722); (19940420, -658366); (19940421, -684950); (19940422, -713483);
  (19940423, -743689); (19940424, -775197); (19940425, -806467); (19940426, -836278); (19940427, -863998); (19940428, -889721); (19940429, -914544); (19940430, -939043);
  (19940501, -963834); (19940502, -989498); (19940503, -1015414); (19940504, -1041265); (19940505, -1067773); (19940506, -1094428); (19940507, -1120142); (19940508, -1144700);
  (19940509, -1168622); (19940510, -1191808); (19940511, -1214164); (19940512, -1236031); (19940513, -1257685); (19940514, -1279402); (19940515, -1301342); (19940516, -1323741);
  (19940517, -1347260); (19940518, -1372459); (19940519, -1399348); (19940520, -1427303); (19940521, -1455391); (19940522, -1482637); (19940523, -1508224); (19940524, -1531738);
  (19940525, -1553329); (19940526, -1573732); (19940527, -1593279); (19940528, -1612255); (19940529, -1631145); (19940530, -1650404); (19940531, -1670148); (19940601, -1690266);
  (19940602, -1710456); (19940603, -1730208); (19940604, -1749030); (19940605, -1766799); (19940606, -1783430); (19940607, -1798710); (19940608, -1812949); (19940609, -1827080);
  (19940610, -1841104); (19940611, -1855447); (19940612, -1870991); (19940613, -1888025); (19940614, -1906550); (19940615, -1926377); (19940616, -1947181); (19940617, -1968393);
  (19940618, -1989625); (19940619, -2010017); (19940620, -2028262); (19940621, -2044170); (19940622, -2058200); (19940623, -2071289); (19940624, -2083828); (19940625, -2095814);
  (19940626, -2107917); (19940627, -2121087); (19940628, -2134698); (19940629, -2147903); (19940630, -2160429); (19940701, 7828207); (19940702, 7817638); (19940703, 7807347);
  (19940704, 7797376); (19940705, 7787899); (19940706, 7779029); (19940707, 7770552); (19940708, 7761489); (19940709, 7750682); (19940710, 7737982); (19940711, 7723581);
  (19940712, 7707424); (19940713, 7689649); (19940714, 7670791); (19940715, 7651476); (19940716, 7632841); (19940717, 7615113); (19940718, 7597942); (19940719, 7581976);
  (19940720, 7567735); (19940721, 7554970); (19940722, 7541349); (19940723, 7527531); (19940724, 7513704); (19940725, 7498496); (19940726, 7482920); (19940727, 7468104);
  (19940728, 7453682); (19940729, 7439405); (19940730, 7425486); (19940731, 7412165); (19940801, 7399698); (19940802, 7388215); (19940803, 7377393); (19940804, 7366102);
  (19940805, 7353744); (19940806, 7340001); (19940807, 7324892); (19940808, 7308779); (19940809, 7291955); (19940810, 7274664); (19940811, 7256891); (19940812, 7239629);
  (19940813, 7223646); (19940814, 7209343); (19940815, 7196716); (19940816, 7184790); (19940817, 7172528); (19940818, 7159562); (19940819, 7145801); (19940820, 7131232);
  (19940821, 7115599); (19940822, 7098679); (19940823, 7081087); (19940824, 7063424); (19940825, 7045979); (19940826, 7029473); (19940827, 7013374); (19940828, 6997650);
  (19940829, 6982920); (19940830, 6968789); (19940831, 6954590); (19940901, 6939872); (19940902, 6923702); (19940903, 6905648); (19940904, 6885292); (19940905, 6862661);
  (19940906, 6838788); (19940907, 6814102); (19940908, 6788916); (19940909, 6763566); (19940910, 6738499); (19940911, 6714676); (19940912, 6692470); (19940913, 6670809);
  (19940914, 6648590); (19940915, 6625879); (19940916, 6602148); (19940917, 6576711); (19940918, 6550341); (19940919, 6524233); (19940920, 6498639); (19940921, 6473593);
  (19940922, 6449262); (19940923, 6426024); (19940924, 6404156); (19940925, 6383192); (19940926, 6362862); (19940927, 6343415); (19940928, 6324569); (19940929, 6304653);
  (19940930, 6283653); (19941001, 6261279); (19941002, 6237025); (19941003, 6211670); (19941004, 6184726); (19941005, 6156125); (19941006, 6127435); (19941007, 6099999);
  (19941008, 6074247); (19941009, 6050055); (19941010, 6026921); (19941011, 6004111); (19941012, 5980966); (19941013, 5957094); (19941014, 5932386); (19941015, 5907027);
  (19941016, 5881522); (19941017, 5856513); (19941018, 5832557); (19941019, 5809956); (19941020, 5788670); (19941021, 5768335); (19941022, 5748520); (19941023, 5729107);
  (19941024, 5709880); (19941025, 5690255); (19941026, 5669623); (19941027, 5647546); (19941028, 5624602); (19941029, 5599775); (19941030, 5572797); (19941031, 5544718);
  (19941101, 5515654); (19941102, 5486025); (19941103, 5457013); (19941104, 5428777); (19941105, 5403120); (19941106, 5379544); (19941107, 5355774); (19941108, 5333013)].
Definition eop_c04_data_12 : list (Z * Z) := [
  (19941109, 5309998); (19941110, 5286282); (19941111, 5261646); (19941112, 5236103); (19941113, 5210656); (19941114, 5186191); (19941115, 5162229); (19941116, 5138499);
  (19941117, 5115461); (19941118, 5093057); (19941119, 5072004); (19941120, 5052605); (19941121, 5032743); (19941122, 5012127); (19941123, 4990661); (19941124, 4967646);
  (19941125, 4942839); (19941126, 4916588); (19941127, 4889468); (19941128, 4862037); (19941129, 4834738); (19941130, 4807839); (19941201, 4781238); (19941202, 4755820);
  (19941203, 4732124); (19941204, 4709206); (19941205, 4686168); (19941206, 4662636); (19941207, 4638490); (19941208, 4613401); (19941209, 4588103); (19941210, 4563365);
  (19941211, 4538987); (19941212, 4514514); (19941213, 4490232); (19941214, 4466585); (19941215, 4443893); (19941216, 4421827); (19941217, 4399686); (19941218, 4377120);
  (19941219, 4353743); (19941220, 4329009); (19941221, 4302598); (19941222, 4274686); (19941223, 4245884); (19941224, 4216393); (19941225, 4186079); (19941226, 4155345);
  (19941227, 4124802); (19941228, 4095106); (19941229, 4066726); (19941230, 4039655); (19941231, 4013193); (19950101, 3986932); (19950102, 3959872); (19950103, 3931530);
  (19950104, 3901884); (19950105, 3871481); (19950106, 3841237); (19950107, 3812015); (19950108, 3784310); (19950109, 3758292); (19950110, 3733901); (19950111, 3710900);
  (19950112, 3688870); (19950113, 3667743); (19950114, 3647225); (19950115, 3626271); (19950116, 3604560); (19950117, 3582247); (19950118, 3559201); (19950119, 3534592);
  (19950120, 3508187); (19950121, 3480628); (19950122, 3452652); (19950123, 3424363); (19950124, 3396132); (19950125, 3368340); (19950126, 3341198); (19950127, 3314487);
  (19950128, 3287740); (19950129, 3260677); (19950130, 3233169); (19950131, 3205258); (19950201, 3176746); (19950202, 3146086); (19950203, 3118196); (19950204, 3091283);
  (19950205, 3063432); (19950206, 3037107); (19950207, 3011947); (19950208, 2987700); (19950209, 2965012); (19950210, 2943006); (19950211, 2920853); (19950212, 2899020);
  (19950213, 2876987); (19950214, 2853973); (19950215, 2829285); (19950216, 2802740); (19950217, 2774680); (19950218, 2745840); (19950219, 2717140); (19950220, 2689388);
  (19950221, 2663011); (19950222, 2637927); (19950223, 2613595); (19950224, 2589132); (19950225, 2563757); (19950226, 2537291); (19950227, 2509937); (19950228, 2481981);
  (19950301, 2453390); (19950302, 2423715); (19950303, 2393132); (19950304, 2362324); (19950305, 2332031); (19950306, 2302854); (19950307, 2275059); (19950308, 2248443);
  (19950309, 2222282); (19950310, 2195743); (19950311, 2168542); (19950312, 2140731); (19950313, 2112032); (19950314, 2082621); (19950315, 2052481); (19950316, 2020772);
  (19950317, 1988021); (19950318, 1955090); (19950319, 1922383); (19950320, 1891023); (19950321, 1861711); (19950322, 1834586); (19950323, 1809176); (19950324, 1784475);
  (19950325, 1759393); (19950326, 1733291); (19950327, 1706072); (19950328, 1677979); (19950329, 1649347); (19950330, 1620166); (19950331, 1591254); (19950401, 1563215);
  (19950402, 1535896); (19950403, 1509445); (19950404, 1483986); (19950405, 1459402); (19950406, 1435126); (19950407, 1410775); (19950408, 1385470); (19950409, 1359143);
  (19950410, 1332703); (19950411, 1305189); (19950412, 1275704); (19950413, 1244554); (19950414, 1213085); (19950415, 1181646); (19950416, 1150728); (19950417, 1120894);
  (19950418, 1092203); (19950419, 1064555); (19950420, 1037920); (19950421, 1011305); (19950422, 984301); (19950423, 956759); (19950424, 928404); (19950425, 899432);
  (19950426, 870210); (19950427, 840969); (19950428, 812704); (19950429, 785967); (19950430, 760280); (19950501, 736386); (19950502, 713368); (19950503, 690094);
  (19950504, 666339); (19950505, 642434); (19950506, 617573); (19950507, 590597); (19950508, 564544); (19950509, 538004); (19950510, 509355); (19950511, 479354);
  (19950512, 448849); (19950513, 418773); (19950514, 389869); (19950515, 361929); (19950516, 334836); (19950517, 308392); (19950518, 282390); (19950519, 256883);
  (19950520, 231557); (19950521, 205802); (19950522, 180337); (19950523, 155400); (19950524, 131379); (19950525, 108963); (19950526, 86757); (19950527, 65314);
  (19950528, 45699); (19950529, 26544); (19950530, 7547); (19950531, -11365); (19950601, -30311); (19950602, -49648); (19950603, -70494); (19950604, -93035);
  (19950605, -115904); (19950606, -139120); (19950607, -162934); (19950608, -187386); (19950609, -211880); (19950610, -235649); (19950611, -258354); (19950612, -279989);
  (19950613, -300533); (19950614, -320663); (19950615, -341627); (19950616, -363121); (19950617, -384842); (19950618, -406982); (19950619, -429412); (19950620, -451504);
  (19950621, -472641); (19950622, -492573); (19950623, -510910); (19950624, -527083); (19950625, -541121); (19950626, -553841); (19950627, -565509); (19950628, -576538);
  (19950629, -587940); (19950630, -600581); (19950701, -613950); (19950702, -628251); (19950703, -644717); (19950704, -662549); (19950705, -680499); (19950706, -697681);
  (19950707, -714603); (19950708, -731036); (19950709, -746268); (19950710, -760555); (19950711, -774463); (19950712, -788730); (19950713, -803933); (19950714, -820020);
  (19950715, -837130); (19950716, -854960); (19950717, -872333); (19950718, -888722); (19950719, -904032); (19950720, -918136); (19950721, -930480); (19950722, -940897);
  (19950723, -950328); (19950724, -958895); (19950725, -966916); (19950726, -975017); (19950727, -984283); (19950728, -993747); (19950729, -1003048); (19950730, -1014629);
  (19950731, -1027263); (19950801, -1040775); (19950802, -1055280); (19950803, -1070137); (19950804, -1084017); (19950805, -1096690); (19950806, -1109854); (19950807, -1123212);
  (19950808, -1136815); (19950809, -1151014); (19950810, -1166276); (19950811, -1183964); (19950812, -1202370); (19950813, -1220283); (19950814, -1237261); (19950815, -1253262);
  (19950816, -1268507); (19950817, -1283192); (19950818, -1296786); (19950819, -1309886); (19950820, -1323298); (19950821, -1336373); (19950822, -1349869); (19950823, -1364499);
  (19950824, -1379931); (19950825, -1396319); (19950826, -1414303); (19950827, -1433827); (19950828, -1454435); (19950829, -1475828); (19950830, -1496951); (19950831, -1517381);
  (19950901, -1537347); (19950902, -1557114); (19950903, -1576912); (19950904, -1596920); (19950905, -1617315); (19950906, -1638296); (19950907, -1660058); (19950908, -1682906);
  (19950909, -1706680); (19950910, -1730435); (19950911, -1753005); (19950912, -1774237); (19950913, -1794315); (19950914, -1813405); (19950915, -1832022); (19950916, -1850495);
  (19950917, -1868809); (19950918, -1887280); (19950919, -1906152); (19950920, -1925815); (19950921, -1946962); (19950922, -1969837); (19950923, -1994264); (19950924, -2020013);
  (19950925, -2046675); (19950926, -2073644); (19950927, -2100195); (19950928, -2125537); (19950929, -2149775); (19950930, -2173107); (19951001, -2195840); (19951002, -2219260);
  (19951003, -2243618); (19951004, -2268775); (19951005, -2294524); (19951006, -2320809); (19951007, -2347541); (19951008, -2374313); (19951009, -2400454); (19951010, -2425217);
  (19951011, -2448183); (19951012, -2469626); (19951013, -2489987); (19951014, -2509690); (19951015, -2528996); (19951016, -2548225); (19951017, -2567966); (19951018, -2588658);
  (19951019, -2610344); (19951020, -2632751); (19951021, -2656015); (19951022, -2680782); (19951023, -2705369); (19951024, -2729608); (19951025, -2753783); (19951026, -2777805);
  (19951027, -2800824); (19951028, -2822914); (19951029, -2846051); (19951030, -2869733); (19951031, -2894326); (19951101, -2920329); (19951102, -2947886); (19951103, -2975678);
  (19951104, -3002622); (19951105, -3029163); (19951106, -3054149); (19951107, -3077738); (19951108, -3100347); (19951109, -3121990); (19951110, -3142635); (19951111, -3162414);
  (19951112, -3181927); (19951113, -3202232); (19951114, -3223704); (19951115, -3246548); (19951116, -3271349); (19951117, -3297945); (19951118, -3325679); (19951119, -3354069);
  (19951120, -3382711); (19951121, -3411224); (19951122, -3439292); (19951123, -3466714); (19951124, -3493493); (19951125, -3519872); (19951126, -3546271); (19951127, -3573129);
  (19951128, -3600652); (19951129, -3628742); (19951130, -3657048); (19951201, -3684881); (19951202, -3711490); (19951203, -3736705); (19951204, -3761103); (19951205, -3784533);
  (19951206, -3806776); (19951207, -3827868); (19951208, -3848618); (19951209, -3869928); (19951210, -3891915); (19951211, -3914347); (19951212, -3937373); (19951213, -3961387);
  (19951214, -3986898); (19951215, -4013246); (19951216, -4039711); (19951217, -4066098); (19951218, -4092425); (19951219, -4118647); (19951220, -4144596); (19951221, -4169912);
  (19951222, -4194464); (19951223, -4218809); (19951224, -4243982); (19951225, -4270408); (19951226, -4297935); (19951227, -4325910); (19951228, -4353435); (19951229, -4379728);
  (19951230, -4404169); (19951231, -4426395); (19960101, 5553352); (19960102, 5534943); (19960103, 5517970); (19960104, 5501975); (19960105, 5486467); (19960106, 5470860);
  (19960107, 5454560); (19960108, 5437199); (19960109, 5418755); (19960110, 5399454); (19960111, 5379327); (19960112, 5358944); (19960113, 5338666); (19960114, 5318632);
  (19960115, 5298885); (19960116, 5279548); (19960117, 5262050); (19960118, 5243680); (19960119, 5225259); (19960120, 5207455); (19960121, 5188413); (19960122, 5168062);
  (19960123, 5146982); (19960124, 5125755); (19960125, 5105299); (19960126, 5086049); (19960127, 5066818); (19960128, 5049222); (19960129, 5035005); (19960130, 5021783);
  (19960131, 5008120); (19960201, 4993342); (19960202, 4977808); (19960203, 4962361); (19960204, 4945666); (19960205, 4929039); (19960206, 4911284); (19960207, 4891395);
  (19960208, 4869161); (19960209, 4846236); (19960210, 4825248); (19960211, 4804574); (19960212, 4785269); (19960213, 4766625); (19960214, 4747273); (19960215, 4727939);
  (19960216, 4707973); (19960217, 4686674); (19960218, 4663668); (19960219, 4639030); (19960220, 4613335); (19960221, 4587458); (19960222, 4562328); (19960223, 4538569);
  (19960224, 4516481); (19960225, 4496212); (19960226, 4477621); (19960227, 4460254); (19960228, 4443344); (19960229, 4425078); (19960301, 4405361); (19960302, 4384639);
  (19960303, 4363468); (19960304, 4341736); (19960305, 4318784); (19960306, 4293654); (19960307, 4267880); (19960308, 4240893); (19960309, 4213715); (19960310, 4188027);
  (19960311, 4163837); (19960312, 4140502); (19960313, 4117275); (19960314, 4095034); (19960315, 4071952); (19960316, 4048865); (19960317, 4025948); (19960318, 4002270);
  (19960319, 3978358); (19960320, 3955289); (19960321, 3931533); (19960322, 3907295); (19960323, 3884396); (19960324, 3864441); (19960325, 3846010); (19960326, 3828141);
  (19960327, 3809701); (19960328, 3790846); (19960329, 3770323); (19960330, 3748876); (19960331, 3727619); (19960401, 3705600); (19960402, 3682589); (19960403, 3659014);
  (19960404, 3633318); (19960405, 3607191); (19960406, 3582097); (19960407, 3558055); (19960408, 3534526); (19960409, 3512127); (19960410, 3490945); (19960411, 3467181);
  (19960412, 3442355); (19960413, 3417325); (19960414, 3391586); (19960415, 3366807); (19960416, 3342376); (19960417, 3317619); (19960418, 3292781); (19960419, 3269175);
  (19960420, 3248683); (19960421, 3229115); (19960422, 3209749); (19960423, 3190911); (19960424, 3173905); (19960425, 3154893); (19960426, 3133592); (19960427, 3110948);
  (19960428, 3088587); (19960429, 3064887); (19960430, 3040366); (19960501, 3016450); (19960502, 2990675); (19960503, 2963781); (19960504, 2937171); (19960505, 2911635);
  (19960506, 2887975); (19960507, 2865064); (19960508, 2843276); (19960509, 2818644); (19960510, 2792465); (19960511, 2766438); (19960512, 2739575); (19960513, 2712727);
  (19960514, 2686845); (19960515, 2663571); (19960516, 2640292); (19960517, 2617287); (19960518, 2595800); (19960519, 2577205); (19960520, 2560446); (19960521, 2544384);
  (19960522, 2527849); (19960523, 2510444); (19960524, 2492465); (19960525, 2474090); (19960526, 2455576); (19960527, 2437118); (19960528, 2418199); (19960529, 2399153);
  (19960530, 2379829); (19960531, 2361091); (19960601, 2343358); (19960602, 2326485); (19960603, 2310012); (19960604, 2293333); (19960605, 2275819); (19960606, 2256308);
  (19960607, 2236344); (19960608, 2217782); (19960609, 2197783); (19960610, 2177248); (19960611, 2157195); (19960612, 2138236); (19960613, 2120678); (19960614, 2104752);
  (19960615, 2089496); (19960616, 2074913); (19960617, 2062321); (19960618, 2050714); (19960619, 2040540); (19960620, 2028543); (19960621, 2015149); (19960622, 2000775);
  (19960623, 1984433); (19960624, 1967574); (19960625, 1951491); (19960626, 1937697); (19960627, 1923134); (19960628, 1908773); (19960629, 1893752); (19960630, 1880071);
  (19960701, 1868351); (19960702, 1857271); (19960703, 1846664); (19960704, 1833597); (19960705, 1819033); (19960706, 1803935); (19960707, 1789038); (19960708, 1775023);
  (19960709, 1762889); (19960710, 1753379); (19960711, 1743816); (19960712, 1734698); (19960713, 1724909); (19960714, 1716041); (19960715, 1708832); (19960716, 1701199);
  (19960717, 1691754); (19960718, 1681655); (19960719, 1669495); (19960720, 1656519); (19960721, 1644370); (19960722, 1632390); (19960723, 1620116); (19960724, 1606875);
  (19960725, 1593493); (19960726, 1580366); (19960727, 1566386); (19960728, 1553363); (19960729, 1541416); (19960730, 1528402); (19960731, 1513768); (19960801, 1497002);
  (19960802, 1479235); (19960803, 1461841); (19960804, 1445885); (19960805, 1431920); (19960806, 1419970); (19960807, 1409772); (19960808, 1401061); (19960809, 1393568);
  (19960810, 1387027); (19960811, 1380790); (19960812, 1373771); (19960813, 1365916); (19960814, 1357654); (19960815, 1348019); (19960816, 1337336); (19960817, 1326158);
  (19960818, 1314810); (19960819, 1303296); (19960820, 1292075); (19960821, 1281174); (19960822, 1270007); (19960823, 1258661); (19960824, 1247319); (19960825, 1235906);
  (19960826, 1223941); (19960827, 1210726); (19960828, 1195905); (19960829, 1179151); (19960830, 1160462); (19960831, 1141306); (19960901, 1123602); (19960902, 1109188);
  (19960903, 1096726); (19960904, 1085167); (19960905, 1074755); (19960906, 1065211); (19960907, 1055842); (19960908, 1046003); (19960909, 1035391); (19960910, 1024020);
  (19960911, 1012257); (19960912, 997393); (19960913, 979470); (19960914, 960553); (19960915, 942849); (19960916, 925624); (19960917, 908955); (19960918, 892481);
  (19960919, 876538); (19960920, 860870); (19960921, 844936); (19960922, 828212); (19960923, 810038); (19960924, 789943); (19960925, 767917); (19960926, 743384);
  (19960927, 718550); (19960928, 695970); (19960929, 676055); (19960930, 656566); (19961001, 637812); (19961002, 619960); (19961003, 603333); (19961004, 587594);
  (19961005, 572011); (19961006, 556094); (19961007, 539557); (19961008, 522173); (19961009, 503936); (19961010, 484548); (19961011, 464150); (19961012, 442034);
  (19961013, 420290); (19961014, 399945); (19961015, 380065); (19961016, 360153); (19961017, 340776); (19961018, 321905); (19961019, 302758); (19961020, 281919);
  (19961021, 259505); (19961022, 236834); (19961023, 214674); (19961024, 189300); (19961025, 163773); (19961026, 140161); (19961027, 117851); (19961028, 97234);
  (19961029, 78744); (19961030, 62882); (19961031, 46692); (19961101, 29561); (19961102, 12215); (19961103, -4408); (19961104, -21615); (19961105, -40101);
  (19961106, -60574); (19961107, -81954); (19961108, -103798); (19961109, -125557); (19961110, -146887); (19961111, -167756); (19961112, -188167); (19961113, -208398);
  (19961114, -228085); (19961115, -246921); (19961116, -265373); (19961117, -285159); (19961118, -306272); (19961119, -327559); (19961120, -347691); (19961121, -368905);
  (19961122, -389898); (19961123, -410687); (19961124, -430086); (19961125, -446610); (19961126, -462227); (19961127, -478027); (19961128, -494254); (19961129, -510723);
  (19961130, -527426); (19961201, -543977); (19961202, -559893); (19961203, -576172); (19961204, -593399); (19961205, -611177); (19961206, -630466); (19961207, -649652);
  (19961208, -666895); (19961209, -682805); (19961210, -698234); (19961211, -714464); (19961212, -732271); (19961213, -750462); (19961214, -768655); (19961215, -788290);
  (19961216, -808387); (19961217, -829226); (19961218, -850407); (19961219, -873161); (19961220, -895014); (19961221, -914507); (19961222, -932604); (19961223, -949526);
  (19961224, -966158); (19961225, -983537); (19961226, -1001064); (19961227, -1018634); (19961228, -1036224); (19961229, -1053924); (19961230, -1071954); (19961231, -1090580);
  (19970101, -1110612); (19970102, -1131505); (19970103, -1152534); (19970104, -1172662); (19970105, -1191296); (19970106, -1210321); (19970107, -1228600); (19970108, -1245484);
  (19970109, -1263897); (19970110, -1283615); (19970111, -1304355); (19970112, -1326042); (19970113, -1349160); (19970114, -1371893); (19970115, -1392693); (19970116, -1414570);
  (19970117, -1435495); (19970118, -1453861); (19970119, -1470309); (19970120, -1485806); (19970121, -1499931); (19970122, -1512455); (19970123, -1526448); (19970124, -1542306);
  (19970125, -1558373); (19970126, -1573544); (19970127, -1589135); (19970128, -1604959); (19970129, -1620429); (19970130, -1636409); (19970131, -1651896); (19970201, -1667478);
  (19970202, -1682279); (19970203, -1694264); (19970204, -1705964); (19970205, -1718848); (19970206, -1733222); (19970207, -1749623); (19970208, -1769284); (19970209, -1789589);
  (19970210, -1808942); (19970211, -1828513); (19970212, -1849137); (19970213, -1868569); (19970214, -1886844); (19970215, -1904969); (19970216, -1921676); (19970217, -1936827);
  (19970218, -1951473); (19970219, -1965757); (19970220, -1981511); (19970221, -1998397); (19970222, -2016821); (19970223, -2036230); (19970224, -2056374); (19970225, -2076264);
  (19970226, -2095267); (19970227, -2115666); (19970228, -2136511); (19970301, -2157154); (19970302, -2177482); (19970303, -2197852); (19970304, -2218090); (19970305, -2237805);
  (19970306, -2260477); (19970307, -2285582); (19970308, -2312572); (19970309, -2340672); (19970310, -2369224); (19970311, -2397156); (19970312, -2423118); (19970313, -2449290);
  (19970314, -2474693); (19970315, -2498996); (19970316, -2522424); (19970317, -2546076); (19970318, -2569443); (19970319, -2591808); (19970320, -2615871); (19970321, -2641655);
  (19970322, -2667781); (19970323, -2693100); (19970324, -2717700); (19970325, -2742324); (19970326, -2767863); (19970327, -2794073); (19970328, -2819662); (19970329, -2843833);
  (19970330, -2867868); (19970331, -2890860); (19970401, -2914143); (19970402, -2939006); (19970403, -2965084); (19970404, -2993870); (19970405, -3023642); (19970406, -3052559);
  (19970407, -3081354); (19970408, -3109361); (19970409, -3136348); (19970410, -3163021); (19970411, -3188131); (19970412, -3211101); (19970413, -3233386); (19970414, -3255405);
  (19970415, -3276761); (19970416, -3297274); (19970417, -3319623); (19970418, -3344043); (19970419, -3368560); (19970420, -3391870); (19970421, -3414561); (19970422, -3436844);
  (19970423, -3459182); (19970424, -3481888); (19970425, -3503650); (19970426, -3523951); (19970427, -3543828); (19970428, -3563336); (19970429, -3582570); (19970430, -3601736);
  (19970501, -3623063); (19970502, -3646877); (19970503, -3671768); (19970504, -3696182); (19970505, -3720341); (19970506, -3744240); (19970507, -3768222); (19970508, -3791510);
  (19970509, -3813941); (19970510, -3835099); (19970511, -3854868); (19970512, -3874406); (19970513, -3893454); (19970514, -3911497); (19970515, -3930689); (19970516, -3951466);
  (19970517, -3972415); (19970518, -3992369); (19970519, -4012562); (19970520, -4032860); (19970521, -4053535); (19970522, -4075288); (19970523, -4096569); (19970524, -4116348);
  (19970525, -4136229); (19970526, -4156150); (19970527, -4176518); (19970528, -4197282); (19970529, -4221776); (19970530, -4247821); (19970531, -4273272); (19970601, -4297850);
  (19970602, -4321187); (19970603, -4342988); (19970604, -4363586); (19970605, -4383337); (19970606, -4401225); (19970607, -4416798); (19970608, -4431582); (19970609, -4446060);
  (19970610, -4460272); (19970611, -4474084); (19970612, -4490692); (19970613, -4507717); (19970614, -4523677); (19970615, -4539726); (19970616, -4555277); (19970617, -4569326);
  (19970618, -4581085); (19970619, -4593854); (19970620, -4605639); (19970621, -4615561); (19970622, -4625237); (19970623, -4635533); (19970624, -4646384); (19970625, -4657636);
  (19970626, -4671900); (19970627, -4686729); (19970628, -4700192); (19970629, -4712449); (19970630, -4723551); (19970701, 5267299); (19970702, 5260870); (19970703, 5254097);
  (19970704, 5247358); (19970705, 5242161); (19970706, 5236567); (19970707, 5229887); (19970708, 5222888); (19970709, 5216533); (19970710, 5208014); (19970711, 5197199);
  (19970712, 5185675); (19970713, 5174932); (19970714, 5164621); (19970715, 5154488); (19970716, 5143953); (19970717, 5132681); (19970718, 5120944); (19970719, 5108997);
  (19970720, 5096315); (19970721, 5081349); (19970722, 5064802); (19970723, 5047565); (19970724, 5028243); (19970725, 5007998); (19970726, 4987200); (19970727, 4967507);
  (19970728, 4950553); (19970729, 4935671); (19970730, 4923102); (19970731, 4909464); (19970801, 4896106); (19970802, 4883693); (19970803, 4871063); (19970804, 4859196)].
Definition eop_c04_data_13 : list (Z * Z) := [
  (19970805, 4846973); (19970806, 4833266); (19970807, 4818030); (19970808, 4802470); (19970809, 4787762); (19970810, 4773813); (19970811, 4760461); (19970812, 4747876);
  (19970813, 4735365); (19970814, 4722240); (19970815, 4709736); (19970816, 4698033); (19970817, 4684644); (19970818, 4669522); (19970819, 4653410); (19970820, 4636956);
  (19970821, 4618318); (19970822, 4598489); (19970823, 4579621); (19970824, 4563007); (19970825, 4548414); (19970826, 4535559); (19970827, 4524081); (19970828, 4511029);
  (19970829, 4496876); (19970830, 4482778); (19970831, 4469256); (19970901, 4454641); (19970902, 4439692); (19970903, 4425354); (19970904, 4409563); (19970905, 4392284);
  (19970906, 4375342); (19970907, 4360362); (19970908, 4346215); (19970909, 4332658); (19970910, 4319216); (19970911, 4304456); (19970912, 4288967); (19970913, 4273190);
  (19970914, 4255792); (19970915, 4236301); (19970916, 4214933); (19970917, 4192846); (19970918, 4168108); (19970919, 4143142); (19970920, 4119853); (19970921, 4099097);
  (19970922, 4079916); (19970923, 4062328); (19970924, 4046234); (19970925, 4028431); (19970926, 4009729); (19970927, 3990821); (19970928, 3971305); (19970929, 3951428);
  (19970930, 3931910); (19971001, 3913336); (19971002, 3892551); (19971003, 3870997); (19971004, 3850049); (19971005, 3830446); (19971006, 3811711); (19971007, 3793826);
  (19971008, 3776681); (19971009, 3757848); (19971010, 3737724); (19971011, 3716316); (19971012, 3693429); (19971013, 3669327); (19971014, 3644496); (19971015, 3619963);
  (19971016, 3593432); (19971017, 3567400); (19971018, 3543692); (19971019, 3522054); (19971020, 3502004); (19971021, 3483664); (19971022, 3466856); (19971023, 3448431);
  (19971024, 3429916); (19971025, 3412041); (19971026, 3393768); (19971027, 3375297); (19971028, 3356243); (19971029, 3336157); (19971030, 3315543); (19971031, 3293836);
  (19971101, 3271684); (19971102, 3249812); (19971103, 3228932); (19971104, 3208825); (19971105, 3189966); (19971106, 3167962); (19971107, 3144404); (19971108, 3120832);
  (19971109, 3096268); (19971110, 3070077); (19971111, 3043592); (19971112, 3018451); (19971113, 2992201); (19971114, 2967712); (19971115, 2947002); (19971116, 2928833);
  (19971117, 2912931); (19971118, 2897922); (19971119, 2882229); (19971120, 2866385); (19971121, 2850301); (19971122, 2833046); (19971123, 2816038); (19971124, 2800620);
  (19971125, 2785180); (19971126, 2768817); (19971127, 2752119); (19971128, 2735731); (19971129, 2720333); (19971130, 2706206); (19971201, 2692221); (19971202, 2678821);
  (19971203, 2666203); (19971204, 2650948); (19971205, 2634319); (19971206, 2617036); (19971207, 2597875); (19971208, 2577014); (19971209, 2554928); (19971210, 2532619);
  (19971211, 2510987); (19971212, 2489243); (19971213, 2469270); (19971214, 2452425); (19971215, 2437628); (19971216, 2423616); (19971217, 2408850); (19971218, 2393974);
  (19971219, 2377707); (19971220, 2360802); (19971221, 2344431); (19971222, 2328542); (19971223, 2312466); (19971224, 2295516); (19971225, 2278515); (19971226, 2262194);
  (19971227, 2246858); (19971228, 2232703); (19971229, 2219752); (19971230, 2207477); (19971231, 2195453); (19980101, 2181138); (19980102, 2164907); (19980103, 2146678);
  (19980104, 2126666); (19980105, 2105799); (19980106, 2085286); (19980107, 2066975); (19980108, 2047751); (19980109, 2029877); (19980110, 2014855); (19980111, 2001112);
  (19980112, 1988099); (19980113, 1974622); (19980114, 1959635); (19980115, 1942562); (19980116, 1924930); (19980117, 1908050); (19980118, 1890839); (19980119, 1873459);
  (19980120, 1856383); (19980121, 1840283); (19980122, 1822366); (19980123, 1804361); (19980124, 1787384); (19980125, 1770506); (19980126, 1754453); (19980127, 1737661);
  (19980128, 1718687); (19980129, 1697335); (19980130, 1673861); (19980131, 1647811); (19980201, 1621318); (19980202, 1595883); (19980203, 1571267); (19980204, 1548125);
  (19980205, 1523604); (19980206, 1499902); (19980207, 1478512); (19980208, 1458220); (19980209, 1438770); (19980210, 1419733); (19980211, 1400542); (19980212, 1381208);
  (19980213, 1361643); (19980214, 1340516); (19980215, 1319703); (19980216, 1299926); (19980217, 1280816); (19980218, 1262870); (19980219, 1244388); (19980220, 1225792);
  (19980221, 1207346); (19980222, 1189086); (19980223, 1170396); (19980224, 1151231); (19980225, 1131445); (19980226, 1107916); (19980227, 1082965); (19980228, 1057682);
  (19980301, 1031015); (19980302, 1004568); (19980303, 979608); (19980304, 957606); (19980305, 935220); (19980306, 914075); (19980307, 895427); (19980308, 877380);
  (19980309, 859343); (19980310, 840810); (19980311, 821487); (19980312, 801014); (19980313, 779311); (19980314, 757162); (19980315, 735368); (19980316, 715143);
  (19980317, 695578); (19980318, 676811); (19980319, 657432); (19980320, 638596); (19980321, 621103); (19980322, 603788); (19980323, 586609); (19980324, 568308);
  (19980325, 547710); (19980326, 524641); (19980327, 498341); (19980328, 471246); (19980329, 445694); (19980330, 420635); (19980331, 397762); (19980401, 377886);
  (19980402, 358526); (19980403, 339719); (19980404, 320344); (19980405, 301338); (19980406, 283515); (19980407, 265343); (19980408, 246790); (19980409, 227404);
  (19980410, 206767); (19980411, 186328); (19980412, 167170); (19980413, 148613); (19980414, 130556); (19980415, 112628); (19980416, 95264); (19980417, 77621);
  (19980418, 60081); (19980419, 42874); (19980420, 25107); (19980421, 6466); (19980422, -13198); (19980423, -35674); (19980424, -61514); (19980425, -88218);
  (19980426, -113564); (19980427, -137188); (19980428, -158311); (19980429, -176822); (19980430, -196025); (19980501, -214585); (19980502, -231918); (19980503, -249305);
  (19980504, -266745); (19980505, -284245); (19980506, -302079); (19980507, -320443); (19980508, -339909); (19980509, -359186); (19980510, -376928); (19980511, -394240);
  (19980512, -410239); (19980513, -424085); (19980514, -439240); (19980515, -454290); (19980516, -468481); (19980517, -484014); (19980518, -501128); (19980519, -519874);
  (19980520, -539696); (19980521, -561971); (19980522, -586677); (19980523, -611627); (19980524, -634857); (19980525, -656437); (19980526, -675414); (19980527, -691162);
  (19980528, -707095); (19980529, -721904); (19980530, -734819); (19980531, -747626); (19980601, -761331); (19980602, -774491); (19980603, -786148); (19980604, -799838);
  (19980605, -813596); (19980606, -825772); (19980607, -836568); (19980608, -846448); (19980609, -854589); (19980610, -860683); (19980611, -868321); (19980612, -876196);
  (19980613, -883313); (19980614, -890314); (19980615, -898043); (19980616, -906625); (19980617, -916331); (19980618, -926357); (19980619, -937295); (19980620, -947495);
  (19980621, -955796); (19980622, -962820); (19980623, -967746); (19980624, -970456); (19980625, -973949); (19980626, -979138); (19980627, -984401); (19980628, -988806);
  (19980629, -993840); (19980630, -999152); (19980701, -1004289); (19980702, -1010250); (19980703, -1016777); (19980704, -1022480); (19980705, -1026256); (19980706, -1029177);
  (19980707, -1030683); (19980708, -1030174); (19980709, -1030987); (19980710, -1032279); (19980711, -1033505); (19980712, -1036150); (19980713, -1040699); (19980714, -1046816);
  (19980715, -1054210); (19980716, -1061730); (19980717, -1069204); (19980718, -1075729); (19980719, -1080664); (19980720, -1083722); (19980721, -1085086); (19980722, -1084511);
  (19980723, -1086467); (19980724, -1089161); (19980725, -1091330); (19980726, -1094979); (19980727, -1099503); (19980728, -1104006); (19980729, -1107492); (19980730, -1111842);
  (19980731, -1118023); (19980801, -1123769); (19980802, -1127526); (19980803, -1131214); (19980804, -1134110); (19980805, -1135903); (19980806, -1139819); (19980807, -1144717);
  (19980808, -1149989); (19980809, -1156598); (19980810, -1164296); (19980811, -1173203); (19980812, -1183150); (19980813, -1193911); (19980814, -1203289); (19980815, -1209981);
  (19980816, -1214888); (19980817, -1218028); (19980818, -1219848); (19980819, -1220677); (19980820, -1223307); (19980821, -1226718); (19980822, -1230393); (19980823, -1234806);
  (19980824, -1239197); (19980825, -1244214); (19980826, -1250554); (19980827, -1257258); (19980828, -1264498); (19980829, -1271020); (19980830, -1276460); (19980831, -1282145);
  (19980901, -1287563); (19980902, -1292671); (19980903, -1300373); (19980904, -1309357); (19980905, -1318661); (19980906, -1330399); (19980907, -1343589); (19980908, -1357520);
  (19980909, -1370662); (19980910, -1385590); (19980911, -1399237); (19980912, -1409467); (19980913, -1418455); (19980914, -1425594); (19980915, -1431916); (19980916, -1437784);
  (19980917, -1446191); (19980918, -1455760); (19980919, -1465304); (19980920, -1476150); (19980921, -1487434); (19980922, -1498368); (19980923, -1508037); (19980924, -1519291);
  (19980925, -1530260); (19980926, -1539740); (19980927, -1548686); (19980928, -1556007); (19980929, -1563131); (19980930, -1571633); (19981001, -1581554); (19981002, -1593433);
  (19981003, -1608450); (19981004, -1625452); (19981005, -1642756); (19981006, -1660957); (19981007, -1679637); (19981008, -1697534); (19981009, -1715181); (19981010, -1731375);
  (19981011, -1745454); (19981012, -1758428); (19981013, -1770431); (19981014, -1781505); (19981015, -1795572); (19981016, -1810356); (19981017, -1824354); (19981018, -1838819);
  (19981019, -1853682); (19981020, -1867939); (19981021, -1880938); (19981022, -1894644); (19981023, -1908981); (19981024, -1922603); (19981025, -1935062); (19981026, -1947425);
  (19981027, -1958863); (19981028, -1969319); (19981029, -1982336); (19981030, -1997356); (19981031, -2013996); (19981101, -2032445); (19981102, -2052431); (19981103, -2073279);
  (19981104, -2094058); (19981105, -2113510); (19981106, -2132318); (19981107, -2149543); (19981108, -2164476); (19981109, -2178745); (19981110, -2192699); (19981111, -2206152);
  (19981112, -2221854); (19981113, -2238046); (19981114, -2253276); (19981115, -2268480); (19981116, -2283196); (19981117, -2297080); (19981118, -2309563); (19981119, -2323683);
  (19981120, -2337740); (19981121, -2350446); (19981122, -2362740); (19981123, -2374976); (19981124, -2386920); (19981125, -2398414); (19981126, -2412491); (19981127, -2428611);
  (19981128, -2446230); (19981129, -2464717); (19981130, -2483468); (19981201, -2501092); (19981202, -2516270); (19981203, -2532192); (19981204, -2546807); (19981205, -2559054);
  (19981206, -2570260); (19981207, -2580341); (19981208, -2590273); (19981209, -2600971); (19981210, -2613007); (19981211, -2625582); (19981212, -2637767); (19981213, -2649374);
  (19981214, -2660354); (19981215, -2670051); (19981216, -2678034); (19981217, -2686027); (19981218, -2694699); (19981219, -2702545); (19981220, -2708675); (19981221, -2714183);
  (19981222, -2720079); (19981223, -2727388); (19981224, -2736948); (19981225, -2748450); (19981226, -2761441); (19981227, -2774891); (19981228, -2787497); (19981229, -2799754);
  (19981230, -2811979); (19981231, -2824458); (19990101, 7164761); (19990102, 7156376); (19990103, 7148191); (19990104, 7139496); (19990105, 7130914); (19990106, 7122704);
  (19990107, 7112291); (19990108, 7101021); (19990109, 7090333); (19990110, 7079651); (19990111, 7069068); (19990112, 7059714); (19990113, 7052250); (19990114, 7045053);
  (19990115, 7037846); (19990116, 7031213); (19990117, 7025517); (19990118, 7020073); (19990119, 7014180); (19990120, 7007303); (19990121, 6997762); (19990122, 6986102);
  (19990123, 6973300); (19990124, 6959778); (19990125, 6945195); (19990126, 6931586); (19990127, 6919986); (19990128, 6908515); (19990129, 6897082); (19990130, 6884974);
  (19990131, 6872704); (19990201, 6860585); (19990202, 6848061); (19990203, 6835348); (19990204, 6821689); (19990205, 6807982); (19990206, 6794864); (19990207, 6782128);
  (19990208, 6770014); (19990209, 6758907); (19990210, 6748985); (19990211, 6739661); (19990212, 6730667); (19990213, 6720984); (19990214, 6710798); (19990215, 6699746);
  (19990216, 6687920); (19990217, 6675483); (19990218, 6660620); (19990219, 6644192); (19990220, 6626780); (19990221, 6609698); (19990222, 6593864); (19990223, 6579850);
  (19990224, 6568011); (19990225, 6556678); (19990226, 6546574); (19990227, 6537798); (19990228, 6528954); (19990301, 6519390); (19990302, 6510006); (19990303, 6501597);
  (19990304, 6491554); (19990305, 6480724); (19990306, 6470232); (19990307, 6461682); (19990308, 6453765); (19990309, 6446655); (19990310, 6439666); (19990311, 6432793);
  (19990312, 6425179); (19990313, 6416841); (19990314, 6407893); (19990315, 6397578); (19990316, 6385561); (19990317, 6371616); (19990318, 6355855); (19990319, 6339225);
  (19990320, 6322685); (19990321, 6306030); (19990322, 6289922); (19990323, 6275441); (19990324, 6263099); (19990325, 6251253); (19990326, 6239134); (19990327, 6226917);
  (19990328, 6214664); (19990329, 6201250); (19990330, 6187670); (19990331, 6174563); (19990401, 6160276); (19990402, 6145621); (19990403, 6131517); (19990404, 6118609);
  (19990405, 6106434); (19990406, 6094936); (19990407, 6083997); (19990408, 6073088); (19990409, 6061883); (19990410, 6050140); (19990411, 6037489); (19990412, 6023648);
  (19990413, 6007888); (19990414, 5990316); (19990415, 5971342); (19990416, 5951945); (19990417, 5932644); (19990418, 5914760); (19990419, 5899030); (19990420, 5884825);
  (19990421, 5871365); (19990422, 5858741); (19990423, 5846003); (19990424, 5833163); (19990425, 5820182); (19990426, 5806447); (19990427, 5792294); (19990428, 5778069);
  (19990429, 5763309); (19990430, 5748546); (19990501, 5734738); (19990502, 5722399); (19990503, 5711284); (19990504, 5701525); (19990505, 5692800); (19990506, 5685282);
  (19990507, 5677666); (19990508, 5669556); (19990509, 5660763); (19990510, 5650529); (19990511, 5638436); (19990512, 5624451); (19990513, 5608599); (19990514, 5592230);
  (19990515, 5576882); (19990516, 5563277); (19990517, 5551204); (19990518, 5540537); (19990519, 5530742); (19990520, 5520336); (19990521, 5508974); (19990522, 5496759);
  (19990523, 5483986); (19990524, 5470936); (19990525, 5458051); (19990526, 5445988); (19990527, 5434441); (19990528, 5423948); (19990529, 5415159); (19990530, 5407671);
  (19990531, 5400849); (19990601, 5395027); (19990602, 5389834); (19990603, 5383607); (19990604, 5376908); (19990605, 5369809); (19990606, 5361329); (19990607, 5351359);
  (19990608, 5340185); (19990609, 5327849); (19990610, 5313554); (19990611, 5299284); (19990612, 5286904); (19990613, 5276781); (19990614, 5268486); (19990615, 5261673);
  (19990616, 5255362); (19990617, 5248881); (19990618, 5241757); (19990619, 5234572); (19990620, 5227445); (19990621, 5220214); (19990622, 5213319); (19990623, 5206967);
  (19990624, 5201424); (19990625, 5197348); (19990626, 5195063); (19990627, 5194106); (19990628, 5194166); (19990629, 5195201); (19990630, 5196931); (19990701, 5198234);
  (19990702, 5198314); (19990703, 5197598); (19990704, 5196487); (19990705, 5193114); (19990706, 5188037); (19990707, 5181962); (19990708, 5175141); (19990709, 5168860);
  (19990710, 5163953); (19990711, 5159929); (19990712, 5156999); (19990713, 5154535); (19990714, 5152113); (19990715, 5148668); (19990716, 5143901); (19990717, 5138346);
  (19990718, 5132771); (19990719, 5127945); (19990720, 5123594); (19990721, 5119376); (19990722, 5115635); (19990723, 5113035); (19990724, 5111922); (19990725, 5111235);
  (19990726, 5111234); (19990727, 5111718); (19990728, 5112322); (19990729, 5111646); (19990730, 5109683); (19990731, 5105798); (19990801, 5099828); (19990802, 5093301);
  (19990803, 5085806); (19990804, 5077234); (19990805, 5069102); (19990806, 5062594); (19990807, 5058113); (19990808, 5054865); (19990809, 5053091); (19990810, 5051476);
  (19990811, 5048816); (19990812, 5045071); (19990813, 5040072); (19990814, 5034173); (19990815, 5027777); (19990816, 5020947); (19990817, 5014391); (19990818, 5008689);
  (19990819, 5002969); (19990820, 4998952); (19990821, 4996516); (19990822, 4993246); (19990823, 4990901); (19990824, 4988228); (19990825, 4984463); (19990826, 4978690);
  (19990827, 4970662); (19990828, 4960635); (19990829, 4949363); (19990830, 4937354); (19990831, 4925236); (19990901, 4913893); (19990902, 4903444); (19990903, 4894288);
  (19990904, 4886479); (19990905, 4879741); (19990906, 4872887); (19990907, 4866203); (19990908, 4859840); (19990909, 4852314); (19990910, 4844187); (19990911, 4836235);
  (19990912, 4828941); (19990913, 4822128); (19990914, 4816335); (19990915, 4811822); (19990916, 4807661); (19990917, 4804318); (19990918, 4801805); (19990919, 4798722);
  (19990920, 4795289); (19990921, 4790436); (19990922, 4783433); (19990923, 4774170); (19990924, 4763234); (19990925, 4751633); (19990926, 4740448); (19990927, 4729172);
  (19990928, 4718576); (19990929, 4709023); (19990930, 4700009); (19991001, 4692155); (19991002, 4685714); (19991003, 4679506); (19991004, 4671864); (19991005, 4662579);
  (19991006, 4651506); (19991007, 4638705); (19991008, 4625141); (19991009, 4611689); (19991010, 4598430); (19991011, 4585690); (19991012, 4574302); (19991013, 4564654);
  (19991014, 4554564); (19991015, 4545502); (19991016, 4538195); (19991017, 4531260); (19991018, 4524089); (19991019, 4515963); (19991020, 4506104); (19991021, 4493306);
  (19991022, 4478046); (19991023, 4461014); (19991024, 4442518); (19991025, 4423644); (19991026, 4405356); (19991027, 4388074); (19991028, 4372545); (19991029, 4358698);
  (19991030, 4346124); (19991031, 4334031); (19991101, 4321326); (19991102, 4307920); (19991103, 4294001); (19991104, 4279154); (19991105, 4263651); (19991106, 4248372);
  (19991107, 4234127); (19991108, 4220752); (19991109, 4208030); (19991110, 4195343); (19991111, 4183254); (19991112, 4171902); (19991113, 4160335); (19991114, 4148396);
  (19991115, 4136381); (19991116, 4123277); (19991117, 4108653); (19991118, 4092066); (19991119, 4074364); (19991120, 4056471); (19991121, 4038088); (19991122, 4020549);
  (19991123, 4004886); (19991124, 3991877); (19991125, 3980164); (19991126, 3969627); (19991127, 3959701); (19991128, 3949584); (19991129, 3938481); (19991130, 3926103);
  (19991201, 3912817); (19991202, 3898934); (19991203, 3885337); (19991204, 3872602); (19991205, 3861043); (19991206, 3850880); (19991207, 3841698); (19991208, 3833055);
  (19991209, 3824424); (19991210, 3816138); (19991211, 3808074); (19991212, 3799026); (19991213, 3789297); (19991214, 3778683); (19991215, 3767123); (19991216, 3753973);
  (19991217, 3739082); (19991218, 3723761); (19991219, 3708995); (19991220, 3694368); (19991221, 3680878); (19991222, 3669094); (19991223, 3657997); (19991224, 3647385);
  (19991225, 3636804); (19991226, 3625449); (19991227, 3613281); (19991228, 3600634); (19991229, 3588029); (19991230, 3575917); (19991231, 3564311); (20000101, 3553880);
  (20000102, 3545048); (20000103, 3537672); (20000104, 3531797); (20000105, 3527503); (20000106, 3523245); (20000107, 3518914); (20000108, 3514346); (20000109, 3510388);
  (20000110, 3505347); (20000111, 3498933); (20000112, 3490711); (20000113, 3480900); (20000114, 3469250); (20000115, 3456908); (20000116, 3445177); (20000117, 3434620);
  (20000118, 3424991); (20000119, 3416068); (20000120, 3407239); (20000121, 3398286); (20000122, 3389162); (20000123, 3379026); (20000124, 3367351); (20000125, 3354936);
  (20000126, 3342519); (20000127, 3329284); (20000128, 3316839); (20000129, 3306327); (20000130, 3297295); (20000131, 3289711); (20000201, 3283248); (20000202, 3277111);
  (20000203, 3271845); (20000204, 3266694); (20000205, 3260946); (20000206, 3254287); (20000207, 3246511); (20000208, 3237447); (20000209, 3225967); (20000210, 3213783);
  (20000211, 3201491); (20000212, 3190459); (20000213, 3180678); (20000214, 3172920); (20000215, 3166409); (20000216, 3159945); (20000217, 3152817); (20000218, 3145266);
  (20000219, 3137235); (20000220, 3127311); (20000221, 3115661); (20000222, 3103366); (20000223, 3091144); (20000224, 3079342); (20000225, 3068777); (20000226, 3060100);
  (20000227, 3052872); (20000228, 3046165); (20000229, 3040605); (20000301, 3035981); (20000302, 3030132); (20000303, 3023449); (20000304, 3016227); (20000305, 3007008);
  (20000306, 2996076); (20000307, 2983732); (20000308, 2970773); (20000309, 2956427); (20000310, 2942295); (20000311, 2929743); (20000312, 2918491); (20000313, 2908886);
  (20000314, 2900607); (20000315, 2892918); (20000316, 2884584); (20000317, 2875506); (20000318, 2866079); (20000319, 2856537); (20000320, 2846656); (20000321, 2836478);
  (20000322, 2826350); (20000323, 2815714); (20000324, 2806249); (20000325, 2799011); (20000326, 2793048); (20000327, 2788718); (20000328, 2784922); (20000329, 2781006);
  (20000330, 2776374); (20000331, 2771208); (20000401, 2765120); (20000402, 2755798); (20000403, 2744741); (20000404, 2732350); (20000405, 2719381); (20000406, 2705901);
  (20000407, 2693075); (20000408, 2681943); (20000409, 2672690); (20000410, 2664574); (20000411, 2657062); (20000412, 2649465); (20000413, 2639708); (20000414, 2628471);
  (20000415, 2616345); (20000416, 2602694); (20000417, 2587978); (20000418, 2573527); (20000419, 2560271); (20000420, 2547239); (20000421, 2535506); (20000422, 2525556);
  (20000423, 2516960); (20000424, 2509383); (20000425, 2502349); (20000426, 2496215); (20000427, 2489291); (20000428, 2480996); (20000429, 2471111); (20000430, 2459782)].
Definition eop_c04_data_14 : list (Z * Z) := [
  (20000501, 2446571); (20000502, 2432159); (20000503, 2417416); (20000504, 2402162); (20000505, 2388061); (20000506, 2376503); (20000507, 2366587); (20000508, 2357816);
  (20000509, 2349413); (20000510, 2340508); (20000511, 2330375); (20000512, 2318950); (20000513, 2306661); (20000514, 2294104); (20000515, 2281017); (20000516, 2268849);
  (20000517, 2258745); (20000518, 2248699); (20000519, 2239669); (20000520, 2232105); (20000521, 2226026); (20000522, 2220991); (20000523, 2216346); (20000524, 2211139);
  (20000525, 2205377); (20000526, 2199165); (20000527, 2192559); (20000528, 2184499); (20000529, 2175801); (20000530, 2166647); (20000531, 2157848); (20000601, 2149066);
  (20000602, 2141359); (20000603, 2135173); (20000604, 2130236); (20000605, 2125715); (20000606, 2120987); (20000607, 2115706); (20000608, 2108056); (20000609, 2099035);
  (20000610, 2089655); (20000611, 2080718); (20000612, 2072988); (20000613, 2066738); (20000614, 2062372); (20000615, 2060271); (20000616, 2060038); (20000617, 2060707);
  (20000618, 2061666); (20000619, 2063862); (20000620, 2066023); (20000621, 2067112); (20000622, 2066504); (20000623, 2065098); (20000624, 2063463); (20000625, 2060559);
  (20000626, 2056618); (20000627, 2052323); (20000628, 2048376); (20000629, 2044462); (20000630, 2041666); (20000701, 2040647); (20000702, 2040858); (20000703, 2040771);
  (20000704, 2039511); (20000705, 2036576); (20000706, 2031982); (20000707, 2025822); (20000708, 2019120); (20000709, 2012677); (20000710, 2007041); (20000711, 2002595);
  (20000712, 1999106); (20000713, 1997052); (20000714, 1996167); (20000715, 1996400); (20000716, 1997889); (20000717, 1999801); (20000718, 2001719); (20000719, 2003240);
  (20000720, 2004616); (20000721, 2005479); (20000722, 2005959); (20000723, 2005394); (20000724, 2004521); (20000725, 2003750); (20000726, 2002926); (20000727, 2002557);
  (20000728, 2003033); (20000729, 2004192); (20000730, 2006069); (20000731, 2006984); (20000801, 2006410); (20000802, 2004674); (20000803, 2001111); (20000804, 1996757);
  (20000805, 1992555); (20000806, 1989341); (20000807, 1987488); (20000808, 1987233); (20000809, 1988830); (20000810, 1990618); (20000811, 1992794); (20000812, 1995285);
  (20000813, 1997786); (20000814, 1999477); (20000815, 1999917); (20000816, 1999127); (20000817, 1996616); (20000818, 1992471); (20000819, 1986835); (20000820, 1980283);
  (20000821, 1973430); (20000822, 1966840); (20000823, 1960632); (20000824, 1955168); (20000825, 1950435); (20000826, 1946038); (20000827, 1941889); (20000828, 1936500);
  (20000829, 1929457); (20000830, 1920981); (20000831, 1911337); (20000901, 1901573); (20000902, 1892565); (20000903, 1885103); (20000904, 1879522); (20000905, 1875842);
  (20000906, 1873849); (20000907, 1872671); (20000908, 1872382); (20000909, 1873232); (20000910, 1873649); (20000911, 1873297); (20000912, 1872027); (20000913, 1870353);
  (20000914, 1866289); (20000915, 1860645); (20000916, 1853734); (20000917, 1846553); (20000918, 1839748); (20000919, 1833788); (20000920, 1828979); (20000921, 1825035);
  (20000922, 1820738); (20000923, 1816228); (20000924, 1812197); (20000925, 1806392); (20000926, 1798628); (20000927, 1788840); (20000928, 1777194); (20000929, 1765529);
  (20000930, 1755364); (20001001, 1746180); (20001002, 1738770); (20001003, 1733347); (20001004, 1730497); (20001005, 1727845); (20001006, 1725293); (20001007, 1722681);
  (20001008, 1718529); (20001009, 1712893); (20001010, 1705478); (20001011, 1695963); (20001012, 1684777); (20001013, 1671919); (20001014, 1658356); (20001015, 1645321);
  (20001016, 1633084); (20001017, 1622051); (20001018, 1611801); (20001019, 1602266); (20001020, 1593225); (20001021, 1583637); (20001022, 1572777); (20001023, 1560184);
  (20001024, 1545944); (20001025, 1530529); (20001026, 1514400); (20001027, 1498451); (20001028, 1483214); (20001029, 1470379); (20001030, 1459174); (20001031, 1449431);
  (20001101, 1440416); (20001102, 1432197); (20001103, 1424206); (20001104, 1415947); (20001105, 1406988); (20001106, 1397037); (20001107, 1385947); (20001108, 1373692);
  (20001109, 1360613); (20001110, 1347210); (20001111, 1334189); (20001112, 1322309); (20001113, 1312137); (20001114, 1303822); (20001115, 1296928); (20001116, 1290324);
  (20001117, 1283650); (20001118, 1276982); (20001119, 1268663); (20001120, 1258878); (20001121, 1248040); (20001122, 1236944); (20001123, 1225625); (20001124, 1215015);
  (20001125, 1205685); (20001126, 1197780); (20001127, 1191182); (20001128, 1185559); (20001129, 1180552); (20001130, 1174664); (20001201, 1168213); (20001202, 1161932);
  (20001203, 1154113); (20001204, 1144831); (20001205, 1134111); (20001206, 1122265); (20001207, 1108615); (20001208, 1094701); (20001209, 1082384); (20001210, 1070813);
  (20001211, 1061022); (20001212, 1052996); (20001213, 1045911); (20001214, 1039421); (20001215, 1031910); (20001216, 1023474); (20001217, 1015430); (20001218, 1006547);
  (20001219, 997431); (20001220, 987944); (20001221, 978634); (20001222, 970825); (20001223, 965805); (20001224, 960915); (20001225, 957210); (20001226, 954321);
  (20001227, 951789); (20001228, 949122); (20001229, 946121); (20001230, 942310); (20001231, 937596); (20010101, 931626); (20010102, 924546); (20010103, 916573);
  (20010104, 907195); (20010105, 897667); (20010106, 889292); (20010107, 882375); (20010108, 876861); (20010109, 872445); (20010110, 868199); (20010111, 864003);
  (20010112, 858451); (20010113, 851161); (20010114, 842390); (20010115, 833100); (20010116, 824180); (20010117, 816384); (20010118, 809369); (20010119, 803992);
  (20010120, 801026); (20010121, 799970); (20010122, 799904); (20010123, 800354); (20010124, 801054); (20010125, 801105); (20010126, 799589); (20010127, 796787);
  (20010128, 792944); (20010129, 788172); (20010130, 782782); (20010131, 777060); (20010201, 772066); (20010202, 767917); (20010203, 764837); (20010204, 763497);
  (20010205, 763128); (20010206, 762981); (20010207, 761850); (20010208, 758400); (20010209, 751935); (20010210, 742935); (20010211, 732653); (20010212, 721463);
  (20010213, 710408); (20010214, 699340); (20010215, 689814); (20010216, 680953); (20010217, 673214); (20010218, 667419); (20010219, 661924); (20010220, 656252);
  (20010221, 649768); (20010222, 642795); (20010223, 634255); (20010224, 624093); (20010225, 612633); (20010226, 599988); (20010227, 586442); (20010228, 572066);
  (20010301, 557514); (20010302, 543789); (20010303, 531981); (20010304, 521985); (20010305, 512766); (20010306, 503556); (20010307, 493435); (20010308, 481262);
  (20010309, 466616); (20010310, 450405); (20010311, 434167); (20010312, 418513); (20010313, 404484); (20010314, 392272); (20010315, 382778); (20010316, 375436);
  (20010317, 369341); (20010318, 364797); (20010319, 360732); (20010320, 356550); (20010321, 351676); (20010322, 345794); (20010323, 338688); (20010324, 330302);
  (20010325, 320927); (20010326, 310736); (20010327, 300256); (20010328, 289568); (20010329, 279496); (20010330, 270347); (20010331, 262391); (20010401, 255761);
  (20010402, 249260); (20010403, 242036); (20010404, 233533); (20010405, 222944); (20010406, 210198); (20010407, 195985); (20010408, 181174); (20010409, 167263);
  (20010410, 155150); (20010411, 145601); (20010412, 137844); (20010413, 131962); (20010414, 128260); (20010415, 125209); (20010416, 122048); (20010417, 118246);
  (20010418, 112259); (20010419, 104341); (20010420, 95192); (20010421, 85287); (20010422, 75804); (20010423, 66034); (20010424, 56637); (20010425, 48380);
  (20010426, 40050); (20010427, 32824); (20010428, 27536); (20010429, 21541); (20010430, 14797); (20010501, 6556); (20010502, -3386); (20010503, -15833);
  (20010504, -30615); (20010505, -46360); (20010506, -61349); (20010507, -75221); (20010508, -87289); (20010509, -97355); (20010510, -105336); (20010511, -112285);
  (20010512, -118507); (20010513, -124139); (20010514, -130188); (20010515, -137076); (20010516, -145694); (20010517, -155377); (20010518, -166379); (20010519, -178008);
  (20010520, -189066); (20010521, -199655); (20010522, -209074); (20010523, -216841); (20010524, -222413); (20010525, -226002); (20010526, -228463); (20010527, -230493);
  (20010528, -232974); (20010529, -236558); (20010530, -241466); (20010531, -247529); (20010601, -254092); (20010602, -260259); (20010603, -265173); (20010604, -268205);
  (20010605, -269069); (20010606, -267549); (20010607, -264542); (20010608, -260357); (20010609, -255254); (20010610, -251071); (20010611, -247676); (20010612, -245434);
  (20010613, -244976); (20010614, -245786); (20010615, -247405); (20010616, -249562); (20010617, -251554); (20010618, -253282); (20010619, -254269); (20010620, -254356);
  (20010621, -253233); (20010622, -251946); (20010623, -250584); (20010624, -249025); (20010625, -249237); (20010626, -251515); (20010627, -256171); (20010628, -262284);
  (20010629, -268603); (20010630, -273937); (20010701, -277017); (20010702, -278304); (20010703, -277788); (20010704, -275879); (20010705, -273204); (20010706, -270090);
  (20010707, -267222); (20010708, -264862); (20010709, -263334); (20010710, -262809); (20010711, -262944); (20010712, -263410); (20010713, -264959); (20010714, -266714);
  (20010715, -267583); (20010716, -267545); (20010717, -266146); (20010718, -263774); (20010719, -259906); (20010720, -254891); (20010721, -249984); (20010722, -246112);
  (20010723, -244196); (20010724, -244210); (20010725, -246198); (20010726, -248517); (20010727, -250653); (20010728, -251269); (20010729, -249267); (20010730, -245425);
  (20010731, -239978); (20010801, -233139); (20010802, -225911); (20010803, -219754); (20010804, -214580); (20010805, -210070); (20010806, -207191); (20010807, -206032);
  (20010808, -206436); (20010809, -208243); (20010810, -211344); (20010811, -214981); (20010812, -218523); (20010813, -221523); (20010814, -223667); (20010815, -224659);
  (20010816, -224873); (20010817, -225710); (20010818, -227923); (20010819, -231907); (20010820, -238328); (20010821, -246698); (20010822, -256365); (20010823, -265674);
  (20010824, -273455); (20010825, -278912); (20010826, -281660); (20010827, -282364); (20010828, -281606); (20010829, -279840); (20010830, -277682); (20010831, -276676);
  (20010901, -276735); (20010902, -277535); (20010903, -279627); (20010904, -282892); (20010905, -287013); (20010906, -292214); (20010907, -297413); (20010908, -301747);
  (20010909, -304317); (20010910, -305606); (20010911, -305633); (20010912, -304898); (20010913, -303884); (20010914, -303941); (20010915, -306045); (20010916, -310867);
  (20010917, -318335); (20010918, -327573); (20010919, -336927); (20010920, -345777); (20010921, -353388); (20010922, -358926); (20010923, -362243); (20010924, -364020);
  (20010925, -364957); (20010926, -365656); (20010927, -366581); (20010928, -368586); (20010929, -371945); (20010930, -376643); (20011001, -382807); (20011002, -390216);
  (20011003, -398822); (20011004, -407630); (20011005, -416739); (20011006, -425210); (20011007, -432084); (20011008, -437917); (20011009, -442981); (20011010, -447901);
  (20011011, -453847); (20011012, -461135); (20011013, -469645); (20011014, -481702); (20011015, -496038); (20011016, -511607); (20011017, -526935); (20011018, -541391);
  (20011019, -553635); (20011020, -563044); (20011021, -570190); (20011022, -575867); (20011023, -580855); (20011024, -586009); (20011025, -591479); (20011026, -598194);
  (20011027, -606325); (20011028, -615973); (20011029, -626614); (20011030, -637878); (20011031, -648977); (20011101, -659634); (20011102, -669350); (20011103, -677579);
  (20011104, -683868); (20011105, -688916); (20011106, -693335); (20011107, -698102); (20011108, -703931); (20011109, -712588); (20011110, -723937); (20011111, -737247);
  (20011112, -752294); (20011113, -767953); (20011114, -783475); (20011115, -796701); (20011116, -807360); (20011117, -815832); (20011118, -822917); (20011119, -828895);
  (20011120, -834244); (20011121, -838884); (20011122, -844900); (20011123, -852094); (20011124, -860291); (20011125, -869360); (20011126, -879012); (20011127, -888787);
  (20011128, -898036); (20011129, -906856); (20011130, -915155); (20011201, -921774); (20011202, -925708); (20011203, -928521); (20011204, -931037); (20011205, -934012);
  (20011206, -938399); (20011207, -945106); (20011208, -954088); (20011209, -964959); (20011210, -976613); (20011211, -988019); (20011212, -998237); (20011213, -1007032);
  (20011214, -1014000); (20011215, -1018719); (20011216, -1022331); (20011217, -1025628); (20011218, -1029266); (20011219, -1033672); (20011220, -1039476); (20011221, -1047719);
  (20011222, -1057653); (20011223, -1068267); (20011224, -1079853); (20011225, -1091946); (20011226, -1104015); (20011227, -1115409); (20011228, -1125373); (20011229, -1134581);
  (20011230, -1142840); (20011231, -1150562); (20020101, -1158581); (20020102, -1167317); (20020103, -1177654); (20020104, -1189180); (20020105, -1202473); (20020106, -1216143);
  (20020107, -1228856); (20020108, -1239677); (20020109, -1248561); (20020110, -1254810); (20020111, -1258153); (20020112, -1259692); (20020113, -1260119); (20020114, -1260155);
  (20020115, -1260456); (20020116, -1261215); (20020117, -1262971); (20020118, -1265846); (20020119, -1270203); (20020120, -1275548); (20020121, -1281383); (20020122, -1287333);
  (20020123, -1293023); (20020124, -1298272); (20020125, -1302786); (20020126, -1306254); (20020127, -1309415); (20020128, -1313295); (20020129, -1318943); (20020130, -1327265);
  (20020131, -1338323); (20020201, -1351711); (20020202, -1366707); (20020203, -1381758); (20020204, -1395539); (20020205, -1407259); (20020206, -1416917); (20020207, -1424499);
  (20020208, -1430135); (20020209, -1434476); (20020210, -1438450); (20020211, -1442761); (20020212, -1447897); (20020213, -1454049); (20020214, -1461319); (20020215, -1469725);
  (20020216, -1479661); (20020217, -1490333); (20020218, -1501068); (20020219, -1511274); (20020220, -1520123); (20020221, -1528688); (20020222, -1536440); (20020223, -1543206);
  (20020224, -1549848); (20020225, -1557471); (20020226, -1567104); (20020227, -1579537); (20020228, -1594387); (20020301, -1610155); (20020302, -1626930); (20020303, -1642874);
  (20020304, -1656682); (20020305, -1667899); (20020306, -1676889); (20020307, -1684134); (20020308, -1690237); (20020309, -1695682); (20020310, -1701278); (20020311, -1707576);
  (20020312, -1714830); (20020313, -1723681); (20020314, -1733294); (20020315, -1743371); (20020316, -1753097); (20020317, -1762255); (20020318, -1770564); (20020319, -1777704);
  (20020320, -1783721); (20020321, -1788523); (20020322, -1792270); (20020323, -1795951); (20020324, -1800334); (20020325, -1806388); (20020326, -1815028); (20020327, -1826702);
  (20020328, -1840939); (20020329, -1856407); (20020330, -1871605); (20020331, -1885094); (20020401, -1895996); (20020402, -1903930); (20020403, -1908770); (20020404, -1912919);
  (20020405, -1916691); (20020406, -1920675); (20020407, -1925421); (20020408, -1931253); (20020409, -1938286); (20020410, -1946371); (20020411, -1955506); (20020412, -1965090);
  (20020413, -1974265); (20020414, -1982633); (20020415, -1989814); (20020416, -1995508); (20020417, -1999561); (20020418, -2002337); (20020419, -2004590); (20020420, -2006600);
  (20020421, -2009581); (20020422, -2014649); (20020423, -2022487); (20020424, -2033162); (20020425, -2046042); (20020426, -2060012); (20020427, -2073477); (20020428, -2084963);
  (20020429, -2093712); (20020430, -2099808); (20020501, -2103807); (20020502, -2106403); (20020503, -2107647); (20020504, -2110185); (20020505, -2114097); (20020506, -2119392);
  (20020507, -2126113); (20020508, -2134389); (20020509, -2143555); (20020510, -2153233); (20020511, -2162937); (20020512, -2172091); (20020513, -2180266); (20020514, -2187254);
  (20020515, -2193356); (20020516, -2198592); (20020517, -2203421); (20020518, -2208798); (20020519, -2215713); (20020520, -2224808); (20020521, -2236248); (20020522, -2249740);
  (20020523, -2264162); (20020524, -2278052); (20020525, -2290133); (20020526, -2299381); (20020527, -2305450); (20020528, -2308681); (20020529, -2309870); (20020530, -2310365);
  (20020531, -2310670); (20020601, -2311269); (20020602, -2312395); (20020603, -2314053); (20020604, -2316072); (20020605, -2318125); (20020606, -2319643); (20020607, -2319693);
  (20020608, -2318916); (20020609, -2316730); (20020610, -2312821); (20020611, -2307281); (20020612, -2300771); (20020613, -2293875); (20020614, -2287069); (20020615, -2281840);
  (20020616, -2278932); (20020617, -2278577); (20020618, -2280564); (20020619, -2283681); (20020620, -2287207); (20020621, -2290003); (20020622, -2292410); (20020623, -2293419);
  (20020624, -2292807); (20020625, -2291146); (20020626, -2289517); (20020627, -2288132); (20020628, -2287711); (20020629, -2288049); (20020630, -2289542); (20020701, -2292213);
  (20020702, -2295695); (20020703, -2300060); (20020704, -2305184); (20020705, -2308968); (20020706, -2311160); (20020707, -2311969); (20020708, -2311260); (20020709, -2309234);
  (20020710, -2306615); (20020711, -2303843); (20020712, -2301795); (20020713, -2301992); (20020714, -2304584); (20020715, -2309121); (20020716, -2314758); (20020717, -2320543);
  (20020718, -2325139); (20020719, -2328049); (20020720, -2327950); (20020721, -2325080); (20020722, -2320148); (20020723, -2313951); (20020724, -2306804); (20020725, -2299869);
  (20020726, -2294102); (20020727, -2289887); (20020728, -2286873); (20020729, -2284686); (20020730, -2282933); (20020731, -2281304); (20020801, -2279057); (20020802, -2275276);
  (20020803, -2270763); (20020804, -2265215); (20020805, -2258649); (20020806, -2251527); (20020807, -2244402); (20020808, -2238570); (20020809, -2235098); (20020810, -2234779);
  (20020811, -2237452); (20020812, -2242263); (20020813, -2247921); (20020814, -2253233); (20020815, -2256950); (20020816, -2258538); (20020817, -2257620); (20020818, -2254901);
  (20020819, -2251288); (20020820, -2247614); (20020821, -2244727); (20020822, -2243019); (20020823, -2242634); (20020824, -2243616); (20020825, -2245734); (20020826, -2248574);
  (20020827, -2251610); (20020828, -2254962); (20020829, -2257500); (20020830, -2258202); (20020831, -2257853); (20020901, -2256395); (20020902, -2254075); (20020903, -2251525);
  (20020904, -2249688); (20020905, -2249285); (20020906, -2251533); (20020907, -2257261); (20020908, -2265809); (20020909, -2275852); (20020910, -2285805); (20020911, -2293883);
  (20020912, -2299407); (20020913, -2302852); (20020914, -2304247); (20020915, -2304252); (20020916, -2303787); (20020917, -2303632); (20020918, -2303896); (20020919, -2305098);
  (20020920, -2307472); (20020921, -2311013); (20020922, -2315284); (20020923, -2319762); (20020924, -2323925); (20020925, -2327483); (20020926, -2329947); (20020927, -2331166);
  (20020928, -2331211); (20020929, -2330287); (20020930, -2328879); (20021001, -2327765); (20021002, -2328145); (20021003, -2330127); (20021004, -2334596); (20021005, -2342660);
  (20021006, -2353226); (20021007, -2364663); (20021008, -2375308); (20021009, -2384023); (20021010, -2390073); (20021011, -2393592); (20021012, -2395457); (20021013, -2396706);
  (20021014, -2398288); (20021015, -2400890); (20021016, -2404748); (20021017, -2410129); (20021018, -2416911); (20021019, -2424254); (20021020, -2431869); (20021021, -2439441);
  (20021022, -2446792); (20021023, -2453496); (20021024, -2459098); (20021025, -2463345); (20021026, -2466295); (20021027, -2468453); (20021028, -2470227); (20021029, -2471994);
  (20021030, -2475166); (20021031, -2480809); (20021101, -2489220); (20021102, -2500245); (20021103, -2512754); (20021104, -2525156); (20021105, -2535903); (20021106, -2544330);
  (20021107, -2549883); (20021108, -2553335); (20021109, -2554726); (20021110, -2555482); (20021111, -2556745); (20021112, -2559047); (20021113, -2562603); (20021114, -2567527);
  (20021115, -2573361); (20021116, -2579736); (20021117, -2586203); (20021118, -2592278); (20021119, -2597546); (20021120, -2601356); (20021121, -2603859); (20021122, -2605716);
  (20021123, -2607249); (20021124, -2608897); (20021125, -2611394); (20021126, -2615552); (20021127, -2622069); (20021128, -2631524); (20021129, -2643336); (20021130, -2656861);
  (20021201, -2671019); (20021202, -2684353); (20021203, -2695626); (20021204, -2704282); (20021205, -2710430); (20021206, -2714172); (20021207, -2717540); (20021208, -2721532);
  (20021209, -2726706); (20021210, -2733367); (20021211, -2741971); (20021212, -2751827); (20021213, -2762058); (20021214, -2772390); (20021215, -2782267); (20021216, -2791120);
  (20021217, -2798541); (20021218, -2804320); (20021219, -2808047); (20021220, -2810331); (20021221, -2812020); (20021222, -2813868); (20021223, -2816736); (20021224, -2821510);
  (20021225, -2828950); (20021226, -2838618); (20021227, -2849853); (20021228, -2861318); (20021229, -2872324); (20021230, -2881800); (20021231, -2889043); (20030101, -2894427);
  (20030102, -2898142); (20030103, -2901024); (20030104, -2903910); (20030105, -2907776); (20030106, -2913162); (20030107, -2920137); (20030108, -2928409); (20030109, -2937582);
  (20030110, -2946408); (20030111, -2955754); (20030112, -2964746); (20030113, -2972604); (20030114, -2979039); (20030115, -2984007); (20030116, -2987585); (20030117, -2989952);
  (20030118, -2992013); (20030119, -2994652); (20030120, -2998665); (20030121, -3004580); (20030122, -3011546); (20030123, -3019698); (20030124, -3028630); (20030125, -3037625)].
Definition eop_c04_data_15 : list (Z * Z) := [
  (20030126, -3045163); (20030127, -3050371); (20030128, -3053147); (20030129, -3053968); (20030130, -3053857); (20030131, -3053450); (20030201, -3053256); (20030202, -3054377);
  (20030203, -3057284); (20030204, -3061862); (20030205, -3068613); (20030206, -3076315); (20030207, -3084175); (20030208, -3091170); (20030209, -3097170); (20030210, -3102081);
  (20030211, -3105819); (20030212, -3108697); (20030213, -3110928); (20030214, -3113770); (20030215, -3117118); (20030216, -3121977); (20030217, -3129257); (20030218, -3138875);
  (20030219, -3149501); (20030220, -3161952); (20030221, -3174304); (20030222, -3185333); (20030223, -3193995); (20030224, -3199944); (20030225, -3203546); (20030226, -3206238);
  (20030227, -3208523); (20030228, -3210599); (20030301, -3213284); (20030302, -3217267); (20030303, -3222652); (20030304, -3229181); (20030305, -3236132); (20030306, -3243197);
  (20030307, -3249941); (20030308, -3256560); (20030309, -3262417); (20030310, -3267221); (20030311, -3271095); (20030312, -3274389); (20030313, -3277590); (20030314, -3281156);
  (20030315, -3286184); (20030316, -3293608); (20030317, -3303942); (20030318, -3317057); (20030319, -3332181); (20030320, -3347522); (20030321, -3361518); (20030322, -3372928);
  (20030323, -3381203); (20030324, -3386600); (20030325, -3389983); (20030326, -3392541); (20030327, -3395330); (20030328, -3399295); (20030329, -3404593); (20030330, -3411445);
  (20030331, -3419749); (20030401, -3429089); (20030402, -3439029); (20030403, -3448845); (20030404, -3457871); (20030405, -3466145); (20030406, -3473208); (20030407, -3478923);
  (20030408, -3483517); (20030409, -3487037); (20030410, -3490221); (20030411, -3494097); (20030412, -3500279); (20030413, -3508580); (20030414, -3519321); (20030415, -3532350);
  (20030416, -3546994); (20030417, -3561213); (20030418, -3573237); (20030419, -3581973); (20030420, -3586675); (20030421, -3588496); (20030422, -3588837); (20030423, -3589154);
  (20030424, -3590294); (20030425, -3592827); (20030426, -3597071); (20030427, -3602748); (20030428, -3609405); (20030429, -3616498); (20030430, -3624025); (20030501, -3630912);
  (20030502, -3636379); (20030503, -3639690); (20030504, -3641128); (20030505, -3641160); (20030506, -3640238); (20030507, -3639005); (20030508, -3638253); (20030509, -3639068);
  (20030510, -3642674); (20030511, -3648076); (20030512, -3655747); (20030513, -3665649); (20030514, -3677701); (20030515, -3689375); (20030516, -3698946); (20030517, -3705519);
  (20030518, -3709147); (20030519, -3710931); (20030520, -3712212); (20030521, -3714259); (20030522, -3717454); (20030523, -3721989); (20030524, -3728384); (20030525, -3734870);
  (20030526, -3741091); (20030527, -3746898); (20030528, -3751699); (20030529, -3755545); (20030530, -3757786); (20030531, -3758113); (20030601, -3756586); (20030602, -3753574);
  (20030603, -3749686); (20030604, -3745405); (20030605, -3741427); (20030606, -3737683); (20030607, -3736959); (20030608, -3738944); (20030609, -3742871); (20030610, -3747758);
  (20030611, -3753160); (20030612, -3756720); (20030613, -3756368); (20030614, -3753290); (20030615, -3747764); (20030616, -3740969); (20030617, -3734277); (20030618, -3728949);
  (20030619, -3724766); (20030620, -3722358); (20030621, -3721088); (20030622, -3720318); (20030623, -3719484); (20030624, -3718022); (20030625, -3715214); (20030626, -3711000);
  (20030627, -3705589); (20030628, -3698898); (20030629, -3690694); (20030630, -3681546); (20030701, -3672304); (20030702, -3663884); (20030703, -3656851); (20030704, -3651224);
  (20030705, -3647389); (20030706, -3645198); (20030707, -3643933); (20030708, -3642563); (20030709, -3639952); (20030710, -3635256); (20030711, -3628065); (20030712, -3619517);
  (20030713, -3609902); (20030714, -3600365); (20030715, -3592165); (20030716, -3586081); (20030717, -3582315); (20030718, -3580166); (20030719, -3578685); (20030720, -3577482);
  (20030721, -3576060); (20030722, -3573904); (20030723, -3570946); (20030724, -3566648); (20030725, -3560520); (20030726, -3554227); (20030727, -3547735); (20030728, -3541406);
  (20030729, -3536011); (20030730, -3532822); (20030731, -3531586); (20030801, -3531137); (20030802, -3533370); (20030803, -3537008); (20030804, -3540657); (20030805, -3543153);
  (20030806, -3544122); (20030807, -3542497); (20030808, -3537530); (20030809, -3531687); (20030810, -3525799); (20030811, -3520840); (20030812, -3517652); (20030813, -3516701);
  (20030814, -3517665); (20030815, -3519919); (20030816, -3523138); (20030817, -3526224); (20030818, -3528316); (20030819, -3528921); (20030820, -3526916); (20030821, -3522963);
  (20030822, -3518205); (20030823, -3512706); (20030824, -3506192); (20030825, -3499921); (20030826, -3495234); (20030827, -3493290); (20030828, -3494338); (20030829, -3498610);
  (20030830, -3505902); (20030831, -3513423); (20030901, -3519826); (20030902, -3524338); (20030903, -3526331); (20030904, -3525710); (20030905, -3523580); (20030906, -3521375);
  (20030907, -3518478); (20030908, -3516188); (20030909, -3515630); (20030910, -3517338); (20030911, -3520572); (20030912, -3524534); (20030913, -3528634); (20030914, -3531921);
  (20030915, -3533972); (20030916, -3534614); (20030917, -3534919); (20030918, -3533475); (20030919, -3530907); (20030920, -3528608); (20030921, -3526150); (20030922, -3524485);
  (20030923, -3524807); (20030924, -3528110); (20030925, -3534232); (20030926, -3542364); (20030927, -3552080); (20030928, -3561094); (20030929, -3568154); (20030930, -3572667);
  (20031001, -3575263); (20031002, -3576060); (20031003, -3575419); (20031004, -3575700); (20031005, -3577407); (20031006, -3580855); (20031007, -3586166); (20031008, -3592662);
  (20031009, -3599969); (20031010, -3607426); (20031011, -3614165); (20031012, -3619679); (20031013, -3623646); (20031014, -3625962); (20031015, -3626993); (20031016, -3626718);
  (20031017, -3625892); (20031018, -3625714); (20031019, -3626499); (20031020, -3628980); (20031021, -3633939); (20031022, -3642177); (20031023, -3653203); (20031024, -3666055);
  (20031025, -3679656); (20031026, -3691184); (20031027, -3699463); (20031028, -3704269); (20031029, -3705922); (20031030, -3705476); (20031031, -3704254); (20031101, -3703964);
  (20031102, -3704860); (20031103, -3707230); (20031104, -3711073); (20031105, -3716312); (20031106, -3722099); (20031107, -3727364); (20031108, -3732032); (20031109, -3735416);
  (20031110, -3737335); (20031111, -3737937); (20031112, -3737647); (20031113, -3737131); (20031114, -3736869); (20031115, -3737759); (20031116, -3739516); (20031117, -3742898);
  (20031118, -3748661); (20031119, -3756679); (20031120, -3766359); (20031121, -3776796); (20031122, -3788062); (20031123, -3797496); (20031124, -3803788); (20031125, -3806963);
  (20031126, -3807688); (20031127, -3807211); (20031128, -3806971); (20031129, -3807992); (20031130, -3810488); (20031201, -3814389); (20031202, -3819273); (20031203, -3824625);
  (20031204, -3829654); (20031205, -3833504); (20031206, -3836641); (20031207, -3838310); (20031208, -3838149); (20031209, -3836138); (20031210, -3832111); (20031211, -3827967);
  (20031212, -3824298); (20031213, -3821588); (20031214, -3819817); (20031215, -3819895); (20031216, -3822470); (20031217, -3827532); (20031218, -3834460); (20031219, -3842290);
  (20031220, -3850590); (20031221, -3857097); (20031222, -3861041); (20031223, -3862828); (20031224, -3863175); (20031225, -3863491); (20031226, -3864927); (20031227, -3868057);
  (20031228, -3872830); (20031229, -3878733); (20031230, -3885056); (20031231, -3891131); (20040101, -3896519); (20040102, -3901435); (20040103, -3904792); (20040104, -3905850);
  (20040105, -3905816); (20040106, -3905118); (20040107, -3904522); (20040108, -3904617); (20040109, -3906090); (20040110, -3910345); (20040111, -3916682); (20040112, -3925178);
  (20040113, -3935833); (20040114, -3948316); (20040115, -3960892); (20040116, -3972557); (20040117, -3983360); (20040118, -3991003); (20040119, -3995496); (20040120, -3997511);
  (20040121, -3998543); (20040122, -4000605); (20040123, -4004338); (20040124, -4010208); (20040125, -4017504); (20040126, -4025442); (20040127, -4033209); (20040128, -4040886);
  (20040129, -4047004); (20040130, -4050386); (20040131, -4052487); (20040201, -4052226); (20040202, -4050110); (20040203, -4047132); (20040204, -4044064); (20040205, -4041732);
  (20040206, -4041086); (20040207, -4042450); (20040208, -4046445); (20040209, -4052920); (20040210, -4061169); (20040211, -4070562); (20040212, -4079949); (20040213, -4087628);
  (20040214, -4093465); (20040215, -4096876); (20040216, -4098440); (20040217, -4099407); (20040218, -4100613); (20040219, -4103436); (20040220, -4108239); (20040221, -4115971);
  (20040222, -4125660); (20040223, -4136063); (20040224, -4146157); (20040225, -4156323); (20040226, -4164744); (20040227, -4169958); (20040228, -4174240); (20040229, -4175595);
  (20040301, -4174832); (20040302, -4173376); (20040303, -4172138); (20040304, -4171838); (20040305, -4173441); (20040306, -4177374); (20040307, -4183773); (20040308, -4192064);
  (20040309, -4201195); (20040310, -4210157); (20040311, -4217282); (20040312, -4221956); (20040313, -4225004); (20040314, -4225549); (20040315, -4224788); (20040316, -4224487);
  (20040317, -4225482); (20040318, -4228892); (20040319, -4234873); (20040320, -4244206); (20040321, -4255020); (20040322, -4266247); (20040323, -4277222); (20040324, -4288123);
  (20040325, -4297816); (20040326, -4305911); (20040327, -4312954); (20040328, -4317735); (20040329, -4321309); (20040330, -4325012); (20040331, -4330090); (20040401, -4336706);
  (20040402, -4344830); (20040403, -4355984); (20040404, -4369516); (20040405, -4384475); (20040406, -4399623); (20040407, -4414030); (20040408, -4426138); (20040409, -4435571);
  (20040410, -4442523); (20040411, -4446692); (20040412, -4449729); (20040413, -4453517); (20040414, -4459425); (20040415, -4467361); (20040416, -4476894); (20040417, -4487946);
  (20040418, -4498582); (20040419, -4507956); (20040420, -4515632); (20040421, -4521845); (20040422, -4525664); (20040423, -4526325); (20040424, -4525861); (20040425, -4523983);
  (20040426, -4521566); (20040427, -4519764); (20040428, -4520316); (20040429, -4522923); (20040430, -4526927); (20040501, -4534258); (20040502, -4544221); (20040503, -4555628);
  (20040504, -4567058); (20040505, -4577699); (20040506, -4586120); (20040507, -4592344); (20040508, -4597362); (20040509, -4600592); (20040510, -4603831); (20040511, -4608730);
  (20040512, -4615467); (20040513, -4623687); (20040514, -4633332); (20040515, -4644447); (20040516, -4655004); (20040517, -4664166); (20040518, -4671627); (20040519, -4677619);
  (20040520, -4681654); (20040521, -4684037); (20040522, -4685215); (20040523, -4684875); (20040524, -4683629); (20040525, -4682812); (20040526, -4683236); (20040527, -4685165);
  (20040528, -4688621); (20040529, -4693716); (20040530, -4699542); (20040531, -4705186); (20040601, -4709577); (20040602, -4711645); (20040603, -4711919); (20040604, -4710123);
  (20040605, -4707595); (20040606, -4704721); (20040607, -4703033); (20040608, -4703594); (20040609, -4706675); (20040610, -4711013); (20040611, -4714613); (20040612, -4719483);
  (20040613, -4723558); (20040614, -4725853); (20040615, -4726199); (20040616, -4724316); (20040617, -4720111); (20040618, -4714616); (20040619, -4708726); (20040620, -4702900);
  (20040621, -4697723); (20040622, -4693775); (20040623, -4691171); (20040624, -4690292); (20040625, -4691327); (20040626, -4693331); (20040627, -4695613); (20040628, -4697178);
  (20040629, -4696878); (20040630, -4694974); (20040701, -4690542); (20040702, -4683793); (20040703, -4676345); (20040704, -4669416); (20040705, -4664199); (20040706, -4661070);
  (20040707, -4659519); (20040708, -4658649); (20040709, -4657502); (20040710, -4655548); (20040711, -4651848); (20040712, -4646178); (20040713, -4638690); (20040714, -4629531);
  (20040715, -4619262); (20040716, -4608671); (20040717, -4599028); (20040718, -4590000); (20040719, -4582292); (20040720, -4576632); (20040721, -4573220); (20040722, -4571902);
  (20040723, -4572106); (20040724, -4573480); (20040725, -4574084); (20040726, -4573073); (20040727, -4570018); (20040728, -4564820); (20040729, -4557879); (20040730, -4550344);
  (20040731, -4543853); (20040801, -4539581); (20040802, -4538057); (20040803, -4539040); (20040804, -4541786); (20040805, -4544702); (20040806, -4545838); (20040807, -4546423);
  (20040808, -4545494); (20040809, -4542675); (20040810, -4538190); (20040811, -4532925); (20040812, -4526861); (20040813, -4519745); (20040814, -4513690); (20040815, -4509251);
  (20040816, -4506873); (20040817, -4506817); (20040818, -4509195); (20040819, -4513381); (20040820, -4518710); (20040821, -4523927); (20040822, -4527967); (20040823, -4530061);
  (20040824, -4529877); (20040825, -4527707); (20040826, -4524431); (20040827, -4520906); (20040828, -4518776); (20040829, -4518732); (20040830, -4521316); (20040831, -4525887);
  (20040901, -4532007); (20040902, -4537613); (20040903, -4541041); (20040904, -4543136); (20040905, -4542274); (20040906, -4538210); (20040907, -4531809); (20040908, -4524191);
  (20040909, -4516232); (20040910, -4508890); (20040911, -4503845); (20040912, -4501217); (20040913, -4501398); (20040914, -4504319); (20040915, -4509643); (20040916, -4516256);
  (20040917, -4523031); (20040918, -4528452); (20040919, -4531758); (20040920, -4532256); (20040921, -4530353); (20040922, -4527674); (20040923, -4524870); (20040924, -4522690);
  (20040925, -4523540); (20040926, -4526902); (20040927, -4532369); (20040928, -4539432); (20040929, -4547292); (20040930, -4554485); (20041001, -4559716); (20041002, -4563628);
  (20041003, -4565895); (20041004, -4566675); (20041005, -4566528); (20041006, -4566673); (20041007, -4567408); (20041008, -4568944); (20041009, -4571415); (20041010, -4575744);
  (20041011, -4582341); (20041012, -4591033); (20041013, -4601708); (20041014, -4612954); (20041015, -4623684); (20041016, -4633121); (20041017, -4639237); (20041018, -4641869);
  (20041019, -4642336); (20041020, -4642354); (20041021, -4642995); (20041022, -4645086); (20041023, -4649853); (20041024, -4656671); (20041025, -4664709); (20041026, -4673310);
  (20041027, -4682255); (20041028, -4690441); (20041029, -4696894); (20041030, -4701204); (20041031, -4703152); (20041101, -4703406); (20041102, -4702916); (20041103, -4702707);
  (20041104, -4703235); (20041105, -4704621); (20041106, -4708763); (20041107, -4715444); (20041108, -4724478); (20041109, -4735624); (20041110, -4748664); (20041111, -4761684);
  (20041112, -4773461); (20041113, -4783802); (20041114, -4790798); (20041115, -4795109); (20041116, -4798321); (20041117, -4801965); (20041118, -4806547); (20041119, -4813719);
  (20041120, -4823390); (20041121, -4834310); (20041122, -4845596); (20041123, -4856383); (20041124, -4866025); (20041125, -4873686); (20041126, -4879059); (20041127, -4882234);
  (20041128, -4883594); (20041129, -4883762); (20041130, -4883504); (20041201, -4883461); (20041202, -4884545); (20041203, -4887257); (20041204, -4892188); (20041205, -4899091);
  (20041206, -4907559); (20041207, -4917328); (20041208, -4928297); (20041209, -4938651); (20041210, -4946839); (20041211, -4953529); (20041212, -4957343); (20041213, -4959235);
  (20041214, -4961086); (20041215, -4965091); (20041216, -4971348); (20041217, -4979092); (20041218, -4989305); (20041219, -5000220); (20041220, -5010499); (20041221, -5019347);
  (20041222, -5026258); (20041223, -5030892); (20041224, -5033355); (20041225, -5033907); (20041226, -5033060); (20041227, -5031521); (20041228, -5030061); (20041229, -5029177);
  (20041230, -5029619); (20041231, -5032262); (20050101, -5036955); (20050102, -5043413); (20050103, -5050791); (20050104, -5058696); (20050105, -5067085); (20050106, -5074322);
  (20050107, -5078790); (20050108, -5082069); (20050109, -5083876); (20050110, -5085225); (20050111, -5087813); (20050112, -5093157); (20050113, -5101598); (20050114, -5112550);
  (20050115, -5124927); (20050116, -5137071); (20050117, -5148107); (20050118, -5157296); (20050119, -5164186); (20050120, -5168931); (20050121, -5172191); (20050122, -5174463);
  (20050123, -5175424); (20050124, -5175505); (20050125, -5175815); (20050126, -5177112); (20050127, -5179836); (20050128, -5184417); (20050129, -5190872); (20050130, -5197472);
  (20050131, -5204613); (20050201, -5211936); (20050202, -5218835); (20050203, -5224131); (20050204, -5227505); (20050205, -5229630); (20050206, -5232340); (20050207, -5235507);
  (20050208, -5240565); (20050209, -5248692); (20050210, -5260268); (20050211, -5274541); (20050212, -5290445); (20050213, -5305907); (20050214, -5319072); (20050215, -5329684);
  (20050216, -5337671); (20050217, -5343056); (20050218, -5347018); (20050219, -5351414); (20050220, -5356752); (20050221, -5363086); (20050222, -5371029); (20050223, -5381132);
  (20050224, -5393396); (20050225, -5407080); (20050226, -5423395); (20050227, -5440821); (20050228, -5457738); (20050301, -5473574); (20050302, -5488606); (20050303, -5501639);
  (20050304, -5512345); (20050305, -5522401); (20050306, -5531766); (20050307, -5541217); (20050308, -5552302); (20050309, -5565089); (20050310, -5579480); (20050311, -5594054);
  (20050312, -5609322); (20050313, -5623245); (20050314, -5634050); (20050315, -5641554); (20050316, -5645723); (20050317, -5647578); (20050318, -5648134); (20050319, -5648804);
  (20050320, -5649555); (20050321, -5651098); (20050322, -5654391); (20050323, -5660395); (20050324, -5668744); (20050325, -5679183); (20050326, -5690893); (20050327, -5702828);
  (20050328, -5713910); (20050329, -5723190); (20050330, -5729579); (20050331, -5733457); (20050401, -5735279); (20050402, -5736871); (20050403, -5739347); (20050404, -5743755);
  (20050405, -5750866); (20050406, -5760663); (20050407, -5772352); (20050408, -5785146); (20050409, -5798337); (20050410, -5808621); (20050411, -5815815); (20050412, -5820669);
  (20050413, -5824080); (20050414, -5826471); (20050415, -5828579); (20050416, -5832088); (20050417, -5837106); (20050418, -5843354); (20050419, -5851496); (20050420, -5861711);
  (20050421, -5873938); (20050422, -5887502); (20050423, -5902131); (20050424, -5916380); (20050425, -5929500); (20050426, -5940547); (20050427, -5948810); (20050428, -5954902);
  (20050429, -5959643); (20050430, -5964629); (20050501, -5971120); (20050502, -5979888); (20050503, -5991110); (20050504, -6004588); (20050505, -6018874); (20050506, -6032003);
  (20050507, -6044358); (20050508, -6054720); (20050509, -6062543); (20050510, -6068018); (20050511, -6071676); (20050512, -6074300); (20050513, -6076706); (20050514, -6079566);
  (20050515, -6083497); (20050516, -6088892); (20050517, -6095879); (20050518, -6104296); (20050519, -6113802); (20050520, -6123914); (20050521, -6133859); (20050522, -6142648);
  (20050523, -6148623); (20050524, -6151401); (20050525, -6150878); (20050526, -6148446); (20050527, -6145669); (20050528, -6144457); (20050529, -6145570); (20050530, -6149058);
  (20050531, -6154541); (20050601, -6161108); (20050602, -6167936); (20050603, -6173541); (20050604, -6176999); (20050605, -6178264); (20050606, -6176839); (20050607, -6173190);
  (20050608, -6168465); (20050609, -6163144); (20050610, -6157584); (20050611, -6153777); (20050612, -6151080); (20050613, -6149363); (20050614, -6149162); (20050615, -6150831);
  (20050616, -6153655); (20050617, -6157642); (20050618, -6161342); (20050619, -6163182); (20050620, -6162522); (20050621, -6159476); (20050622, -6154722); (20050623, -6149811);
  (20050624, -6145922); (20050625, -6144484); (20050626, -6145775); (20050627, -6148287); (20050628, -6151323); (20050629, -6154240); (20050630, -6155578); (20050701, -6154491);
  (20050702, -6151436); (20050703, -6144742); (20050704, -6135687); (20050705, -6125449); (20050706, -6114665); (20050707, -6104822); (20050708, -6096197); (20050709, -6088890);
  (20050710, -6083579); (20050711, -6080214); (20050712, -6078418); (20050713, -6077717); (20050714, -6077651); (20050715, -6076704); (20050716, -6075173); (20050717, -6071437);
  (20050718, -6065135); (20050719, -6056964); (20050720, -6048016); (20050721, -6039853); (20050722, -6033941); (20050723, -6031520); (20050724, -6032693); (20050725, -6036511);
  (20050726, -6041329); (20050727, -6045917); (20050728, -6048678); (20050729, -6048561); (20050730, -6046316); (20050731, -6042166); (20050801, -6036516); (20050802, -6030170);
  (20050803, -6023820); (20050804, -6018023); (20050805, -6012612); (20050806, -6009648); (20050807, -6009220); (20050808, -6010898); (20050809, -6013970); (20050810, -6018204);
  (20050811, -6022463); (20050812, -6025464); (20050813, -6026901); (20050814, -6026157); (20050815, -6022774); (20050816, -6017794); (20050817, -6013014); (20050818, -6009741);
  (20050819, -6008939); (20050820, -6011440); (20050821, -6017337); (20050822, -6024441); (20050823, -6030809); (20050824, -6035210); (20050825, -6036598); (20050826, -6035195);
  (20050827, -6030743); (20050828, -6024138); (20050829, -6015598); (20050830, -6006465); (20050831, -5998146); (20050901, -5991338); (20050902, -5986573); (20050903, -5985407);
  (20050904, -5986402); (20050905, -5988852); (20050906, -5992519); (20050907, -5996709); (20050908, -6001203); (20050909, -6005023); (20050910, -6007498); (20050911, -6007792);
  (20050912, -6006106); (20050913, -6004053); (20050914, -6003749); (20050915, -6005910); (20050916, -6011440); (20050917, -6020731); (20050918, -6032781); (20050919, -6045744);
  (20050920, -6057827); (20050921, -6067481); (20050922, -6073933); (20050923, -6077232); (20050924, -6077795); (20050925, -6076531); (20050926, -6074671); (20050927, -6073129);
  (20050928, -6072422); (20050929, -6073179); (20050930, -6075987); (20051001, -6080823); (20051002, -6087226); (20051003, -6094595); (20051004, -6102184); (20051005, -6108656);
  (20051006, -6113624); (20051007, -6117077); (20051008, -6119570); (20051009, -6120590); (20051010, -6120388); (20051011, -6120525); (20051012, -6122360); (20051013, -6126797);
  (20051014, -6133688); (20051015, -6144111); (20051016, -6155846); (20051017, -6167406); (20051018, -6177524); (20051019, -6185773); (20051020, -6191592); (20051021, -6195088)].
Definition eop_c04_data_16 : list (Z * Z) := [
  (20051022, -6197635); (20051023, -6199078); (20051024, -6200293); (20051025, -6202415); (20051026, -6205422); (20051027, -6210045); (20051028, -6216458); (20051029, -6225241);
  (20051030, -6235455); (20051031, -6246144); (20051101, -6256474); (20051102, -6265668); (20051103, -6273004); (20051104, -6277907); (20051105, -6281206); (20051106, -6282824);
  (20051107, -6284300); (20051108, -6287332); (20051109, -6293340); (20051110, -6302842); (20051111, -6315474); (20051112, -6330083); (20051113, -6344893); (20051114, -6358172);
  (20051115, -6369084); (20051116, -6377069); (20051117, -6382597); (20051118, -6385865); (20051119, -6388073); (20051120, -6390416); (20051121, -6393628); (20051122, -6398130);
  (20051123, -6404060); (20051124, -6411576); (20051125, -6420544); (20051126, -6430568); (20051127, -6441214); (20051128, -6451107); (20051129, -6459610); (20051130, -6466403);
  (20051201, -6471144); (20051202, -6473635); (20051203, -6475265); (20051204, -6476429); (20051205, -6477484); (20051206, -6480147); (20051207, -6485471); (20051208, -6493248);
  (20051209, -6502630); (20051210, -6512829); (20051211, -6521846); (20051212, -6529295); (20051213, -6534675); (20051214, -6537918); (20051215, -6539380); (20051216, -6539928);
  (20051217, -6540682); (20051218, -6541417); (20051219, -6543134); (20051220, -6546615); (20051221, -6552121); (20051222, -6559518); (20051223, -6568241); (20051224, -6577649);
  (20051225, -6587060); (20051226, -6595719); (20051227, -6602872); (20051228, -6607923); (20051229, -6610502); (20051230, -6611274); (20051231, -6611087); (20060101, 3388662);
  (20060102, 3386554); (20060103, 3381739); (20060104, 3374218); (20060105, 3365376); (20060106, 3355455); (20060107, 3346200); (20060108, 3339074); (20060109, 3334623);
  (20060110, 3332835); (20060111, 3332870); (20060112, 3334524); (20060113, 3337641); (20060114, 3339728); (20060115, 3340550); (20060116, 3340711); (20060117, 3339479);
  (20060118, 3336410); (20060119, 3331396); (20060120, 3325511); (20060121, 3318791); (20060122, 3311860); (20060123, 3305411); (20060124, 3299956); (20060125, 3295051);
  (20060126, 3291150); (20060127, 3287296); (20060128, 3282646); (20060129, 3276802); (20060130, 3268665); (20060131, 3257254); (20060201, 3243126); (20060202, 3227352);
  (20060203, 3211773); (20060204, 3197616); (20060205, 3186067); (20060206, 3177817); (20060207, 3172218); (20060208, 3168287); (20060209, 3164704); (20060210, 3160763);
  (20060211, 3155714); (20060212, 3149398); (20060213, 3142098); (20060214, 3133451); (20060215, 3123960); (20060216, 3113420); (20060217, 3102504); (20060218, 3091132);
  (20060219, 3080381); (20060220, 3071198); (20060221, 3063790); (20060222, 3058099); (20060223, 3053768); (20060224, 3050412); (20060225, 3044967); (20060226, 3036767);
  (20060227, 3024761); (20060228, 3008930); (20060301, 2989653); (20060302, 2969639); (20060303, 2951765); (20060304, 2935596); (20060305, 2922692); (20060306, 2913707);
  (20060307, 2907565); (20060308, 2902915); (20060309, 2899070); (20060310, 2895682); (20060311, 2891410); (20060312, 2886364); (20060313, 2879557); (20060314, 2871084);
  (20060315, 2860859); (20060316, 2850123); (20060317, 2840332); (20060318, 2830712); (20060319, 2821765); (20060320, 2814524); (20060321, 2808876); (20060322, 2803367);
  (20060323, 2798129); (20060324, 2793173); (20060325, 2784846); (20060326, 2773033); (20060327, 2757856); (20060328, 2739599); (20060329, 2719039); (20060330, 2698608);
  (20060331, 2680188); (20060401, 2664800); (20060402, 2653116); (20060403, 2645186); (20060404, 2639504); (20060405, 2633918); (20060406, 2628109); (20060407, 2621867);
  (20060408, 2613931); (20060409, 2604043); (20060410, 2592712); (20060411, 2580350); (20060412, 2567778); (20060413, 2555385); (20060414, 2543738); (20060415, 2533437);
  (20060416, 2524866); (20060417, 2518087); (20060418, 2512773); (20060419, 2508193); (20060420, 2503256); (20060421, 2496745); (20060422, 2487600); (20060423, 2475301);
  (20060424, 2460060); (20060425, 2442586); (20060426, 2424188); (20060427, 2406439); (20060428, 2390411); (20060429, 2376846); (20060430, 2366893); (20060501, 2359089);
  (20060502, 2352005); (20060503, 2344736); (20060504, 2336302); (20060505, 2326332); (20060506, 2314541); (20060507, 2301833); (20060508, 2288287); (20060509, 2273875);
  (20060510, 2258515); (20060511, 2243375); (20060512, 2229347); (20060513, 2216153); (20060514, 2204624); (20060515, 2195137); (20060516, 2187078); (20060517, 2179593);
  (20060518, 2171657); (20060519, 2162785); (20060520, 2151104); (20060521, 2137404); (20060522, 2122369); (20060523, 2106862); (20060524, 2091575); (20060525, 2077703);
  (20060526, 2066767); (20060527, 2058929); (20060528, 2054465); (20060529, 2052330); (20060530, 2050883); (20060531, 2049027); (20060601, 2045798); (20060602, 2041148);
  (20060603, 2034914); (20060604, 2027546); (20060605, 2019626); (20060606, 2011778); (20060607, 2004694); (20060608, 1999145); (20060609, 1995632); (20060610, 1994533);
  (20060611, 1995980); (20060612, 1999403); (20060613, 2003563); (20060614, 2006605); (20060615, 2007661); (20060616, 2005942); (20060617, 2001034); (20060618, 1993264);
  (20060619, 1984916); (20060620, 1976915); (20060621, 1969784); (20060622, 1964702); (20060623, 1962126); (20060624, 1960973); (20060625, 1961682); (20060626, 1962882);
  (20060627, 1963141); (20060628, 1961610); (20060629, 1958341); (20060630, 1952760); (20060701, 1944912); (20060702, 1935634); (20060703, 1925842); (20060704, 1916096);
  (20060705, 1906798); (20060706, 1898986); (20060707, 1892951); (20060708, 1888762); (20060709, 1887230); (20060710, 1887430); (20060711, 1887655); (20060712, 1886776);
  (20060713, 1884410); (20060714, 1878098); (20060715, 1868578); (20060716, 1857432); (20060717, 1846697); (20060718, 1837781); (20060719, 1830817); (20060720, 1826624);
  (20060721, 1825117); (20060722, 1825561); (20060723, 1827780); (20060724, 1830410); (20060725, 1832249); (20060726, 1832699); (20060727, 1831565); (20060728, 1829029);
  (20060729, 1825314); (20060730, 1820789); (20060731, 1815992); (20060801, 1811635); (20060802, 1807966); (20060803, 1805664); (20060804, 1804954); (20060805, 1805136);
  (20060806, 1806675); (20060807, 1808892); (20060808, 1809939); (20060809, 1808146); (20060810, 1802984); (20060811, 1794876); (20060812, 1784048); (20060813, 1772783);
  (20060814, 1763026); (20060815, 1755904); (20060816, 1751815); (20060817, 1750511); (20060818, 1751023); (20060819, 1752365); (20060820, 1753961); (20060821, 1754496);
  (20060822, 1753320); (20060823, 1750183); (20060824, 1745218); (20060825, 1738813); (20060826, 1731744); (20060827, 1724272); (20060828, 1717179); (20060829, 1711133);
  (20060830, 1706349); (20060831, 1703128); (20060901, 1701813); (20060902, 1701208); (20060903, 1700971); (20060904, 1699897); (20060905, 1696457); (20060906, 1689549);
  (20060907, 1678763); (20060908, 1664764); (20060909, 1648752); (20060910, 1633437); (20060911, 1620501); (20060912, 1610726); (20060913, 1603390); (20060914, 1598335);
  (20060915, 1594832); (20060916, 1591672); (20060917, 1588043); (20060918, 1583418); (20060919, 1577206); (20060920, 1568938); (20060921, 1558915); (20060922, 1547731);
  (20060923, 1536046); (20060924, 1524494); (20060925, 1513660); (20060926, 1503983); (20060927, 1495318); (20060928, 1488009); (20060929, 1482181); (20060930, 1475667);
  (20061001, 1468202); (20061002, 1459824); (20061003, 1448826); (20061004, 1434199); (20061005, 1415916); (20061006, 1394473); (20061007, 1371601); (20061008, 1349797);
  (20061009, 1331007); (20061010, 1315838); (20061011, 1303260); (20061012, 1292889); (20061013, 1284041); (20061014, 1275783); (20061015, 1266898); (20061016, 1256693);
  (20061017, 1245031); (20061018, 1231942); (20061019, 1217800); (20061020, 1203127); (20061021, 1188018); (20061022, 1173489); (20061023, 1159950); (20061024, 1147879);
  (20061025, 1137354); (20061026, 1128334); (20061027, 1120481); (20061028, 1112964); (20061029, 1105056); (20061030, 1095367); (20061031, 1082855); (20061101, 1067014);
  (20061102, 1048562); (20061103, 1028856); (20061104, 1008890); (20061105, 991173); (20061106, 977066); (20061107, 966416); (20061108, 958246); (20061109, 951318);
  (20061110, 944748); (20061111, 936953); (20061112, 927572); (20061113, 917094); (20061114, 905485); (20061115, 893216); (20061116, 880866); (20061117, 868477);
  (20061118, 856359); (20061119, 845604); (20061120, 835953); (20061121, 827685); (20061122, 820733); (20061123, 814956); (20061124, 809393); (20061125, 802923);
  (20061126, 794740); (20061127, 783930); (20061128, 770158); (20061129, 753835); (20061130, 736095); (20061201, 718091); (20061202, 700942); (20061203, 687043);
  (20061204, 676050); (20061205, 667376); (20061206, 660005); (20061207, 653070); (20061208, 644942); (20061209, 635363); (20061210, 624337); (20061211, 611500);
  (20061212, 597521); (20061213, 583115); (20061214, 569350); (20061215, 556448); (20061216, 544113); (20061217, 533448); (20061218, 524968); (20061219, 518373);
  (20061220, 512331); (20061221, 506879); (20061222, 501859); (20061223, 495079); (20061224, 485740); (20061225, 473537); (20061226, 458791); (20061227, 442443);
  (20061228, 425833); (20061229, 410174); (20061230, 396270); (20061231, 385024); (20070101, 376484); (20070102, 369907); (20070103, 364176); (20070104, 358979);
  (20070105, 352765); (20070106, 344666); (20070107, 334679); (20070108, 323037); (20070109, 310278); (20070110, 297124); (20070111, 283744); (20070112, 270906);
  (20070113, 258248); (20070114, 247384); (20070115, 238229); (20070116, 230136); (20070117, 222070); (20070118, 213645); (20070119, 204554); (20070120, 192122);
  (20070121, 176583); (20070122, 158345); (20070123, 138105); (20070124, 116718); (20070125, 96158); (20070126, 77868); (20070127, 61898); (20070128, 48621);
  (20070129, 37848); (20070130, 28249); (20070131, 18045); (20070201, 6839); (20070202, -5293); (20070203, -19714); (20070204, -35613); (20070205, -52278);
  (20070206, -69263); (20070207, -86051); (20070208, -102085); (20070209, -116637); (20070210, -129870); (20070211, -141245); (20070212, -150490); (20070213, -158129);
  (20070214, -165190); (20070215, -172769); (20070216, -181218); (20070217, -191450); (20070218, -203976); (20070219, -219073); (20070220, -235178); (20070221, -250133);
  (20070222, -262852); (20070223, -272777); (20070224, -280710); (20070225, -286387); (20070226, -290417); (20070227, -294302); (20070228, -299257); (20070301, -305653);
  (20070302, -313037); (20070303, -322772); (20070304, -333776); (20070305, -345640); (20070306, -357806); (20070307, -369902); (20070308, -381787); (20070309, -392529);
  (20070310, -401645); (20070311, -409049); (20070312, -414953); (20070313, -420258); (20070314, -425985); (20070315, -433167); (20070316, -442182); (20070317, -455666);
  (20070318, -473030); (20070319, -493108); (20070320, -513869); (20070321, -534175); (20070322, -551496); (20070323, -564136); (20070324, -573825); (20070325, -581705);
  (20070326, -588471); (20070327, -595476); (20070328, -604038); (20070329, -614362); (20070330, -626422); (20070331, -639927); (20070401, -654044); (20070402, -669079);
  (20070403, -684452); (20070404, -699714); (20070405, -714163); (20070406, -728009); (20070407, -740905); (20070408, -753123); (20070409, -764655); (20070410, -776229);
  (20070411, -788883); (20070412, -802463); (20070413, -818513); (20070414, -837833); (20070415, -859190); (20070416, -882186); (20070417, -904692); (20070418, -924425);
  (20070419, -940604); (20070420, -953107); (20070421, -962896); (20070422, -970979); (20070423, -978969); (20070424, -988008); (20070425, -998248); (20070426, -1009998);
  (20070427, -1023279); (20070428, -1038000); (20070429, -1052855); (20070430, -1067365); (20070501, -1081044); (20070502, -1093330); (20070503, -1103971); (20070504, -1113401);
  (20070505, -1121784); (20070506, -1129025); (20070507, -1135341); (20070508, -1142264); (20070509, -1151525); (20070510, -1163533); (20070511, -1178260); (20070512, -1196972);
  (20070513, -1218424); (20070514, -1240416); (20070515, -1261050); (20070516, -1278719); (20070517, -1292652); (20070518, -1303398); (20070519, -1312253); (20070520, -1321251);
  (20070521, -1329974); (20070522, -1339315); (20070523, -1349489); (20070524, -1360808); (20070525, -1373430); (20070526, -1386618); (20070527, -1399097); (20070528, -1410492);
  (20070529, -1420393); (20070530, -1428378); (20070531, -1434733); (20070601, -1439372); (20070602, -1442499); (20070603, -1444176); (20070604, -1446164); (20070605, -1449515);
  (20070606, -1455135); (20070607, -1462986); (20070608, -1472425); (20070609, -1483605); (20070610, -1494979); (20070611, -1505814); (20070612, -1514651); (20070613, -1520649);
  (20070614, -1523535); (20070615, -1523610); (20070616, -1523195); (20070617, -1523446); (20070618, -1525133); (20070619, -1528706); (20070620, -1534492); (20070621, -1541547);
  (20070622, -1548764); (20070623, -1556110); (20070624, -1562444); (20070625, -1567500); (20070626, -1571083); (20070627, -1573357); (20070628, -1574249); (20070629, -1574153);
  (20070630, -1574021); (20070701, -1573684); (20070702, -1574498); (20070703, -1577473); (20070704, -1582846); (20070705, -1590504); (20070706, -1599753); (20070707, -1609788);
  (20070708, -1618556); (20070709, -1624716); (20070710, -1627865); (20070711, -1628580); (20070712, -1627246); (20070713, -1624691); (20070714, -1622077); (20070715, -1620338);
  (20070716, -1620111); (20070717, -1621606); (20070718, -1625008); (20070719, -1629094); (20070720, -1632630); (20070721, -1635753); (20070722, -1637561); (20070723, -1637345);
  (20070724, -1635142); (20070725, -1631334); (20070726, -1626059); (20070727, -1619548); (20070728, -1613735); (20070729, -1609575); (20070730, -1607463); (20070731, -1608168);
  (20070801, -1611945); (20070802, -1618236); (20070803, -1626077); (20070804, -1633706); (20070805, -1639937); (20070806, -1643302); (20070807, -1643551); (20070808, -1641427);
  (20070809, -1637637); (20070810, -1632862); (20070811, -1629278); (20070812, -1627644); (20070813, -1627514); (20070814, -1628854); (20070815, -1631466); (20070816, -1634394);
  (20070817, -1636450); (20070818, -1638834); (20070819, -1640198); (20070820, -1640143); (20070821, -1638574); (20070822, -1635593); (20070823, -1631436); (20070824, -1626079);
  (20070825, -1621923); (20070826, -1619264); (20070827, -1619020); (20070828, -1622047); (20070829, -1628668); (20070830, -1637566); (20070831, -1647060); (20070901, -1656545);
  (20070902, -1664218); (20070903, -1668889); (20070904, -1671013); (20070905, -1671773); (20070906, -1672148); (20070907, -1673456); (20070908, -1676447); (20070909, -1681826);
  (20070910, -1688780); (20070911, -1696973); (20070912, -1706233); (20070913, -1715595); (20070914, -1724436); (20070915, -1732566); (20070916, -1738962); (20070917, -1743688);
  (20070918, -1747109); (20070919, -1749658); (20070920, -1751967); (20070921, -1754816); (20070922, -1759403); (20070923, -1766291); (20070924, -1775619); (20070925, -1787945);
  (20070926, -1804262); (20070927, -1821841); (20070928, -1837614); (20070929, -1851988); (20070930, -1863396); (20071001, -1871491); (20071002, -1877194); (20071003, -1882051);
  (20071004, -1887206); (20071005, -1893548); (20071006, -1901031); (20071007, -1909687); (20071008, -1919301); (20071009, -1929890); (20071010, -1940738); (20071011, -1951649);
  (20071012, -1961621); (20071013, -1970303); (20071014, -1977061); (20071015, -1982427); (20071016, -1986730); (20071017, -1990415); (20071018, -1994811); (20071019, -2000346);
  (20071020, -2007599); (20071021, -2017344); (20071022, -2028810); (20071023, -2042352); (20071024, -2058668); (20071025, -2075420); (20071026, -2090572); (20071027, -2102384);
  (20071028, -2110636); (20071029, -2116760); (20071030, -2121644); (20071031, -2126395); (20071101, -2131904); (20071102, -2139011); (20071103, -2147698); (20071104, -2157590);
  (20071105, -2167878); (20071106, -2178025); (20071107, -2188575); (20071108, -2198968); (20071109, -2208330); (20071110, -2215945); (20071111, -2221748); (20071112, -2225801);
  (20071113, -2229103); (20071114, -2232483); (20071115, -2237161); (20071116, -2244367); (20071117, -2254242); (20071118, -2267166); (20071119, -2282996); (20071120, -2301250);
  (20071121, -2320941); (20071122, -2341050); (20071123, -2359611); (20071124, -2375406); (20071125, -2387924); (20071126, -2397827); (20071127, -2406896); (20071128, -2416404);
  (20071129, -2427543); (20071130, -2440654); (20071201, -2455832); (20071202, -2471563); (20071203, -2487456); (20071204, -2502637); (20071205, -2515806); (20071206, -2526781);
  (20071207, -2535092); (20071208, -2541005); (20071209, -2544630); (20071210, -2546738); (20071211, -2548244); (20071212, -2550421); (20071213, -2553847); (20071214, -2559030);
  (20071215, -2566552); (20071216, -2576438); (20071217, -2588368); (20071218, -2601549); (20071219, -2615019); (20071220, -2627460); (20071221, -2638268); (20071222, -2646391);
  (20071223, -2652263); (20071224, -2656693); (20071225, -2661373); (20071226, -2667687); (20071227, -2676180); (20071228, -2686144); (20071229, -2697671); (20071230, -2709916);
  (20071231, -2721999); (20080101, -2733294); (20080102, -2743369); (20080103, -2751956); (20080104, -2759510); (20080105, -2766139); (20080106, -2772133); (20080107, -2777360);
  (20080108, -2782618); (20080109, -2788232); (20080110, -2795323); (20080111, -2804466); (20080112, -2815621); (20080113, -2828432); (20080114, -2842305); (20080115, -2856046);
  (20080116, -2868987); (20080117, -2879860); (20080118, -2887883); (20080119, -2893522); (20080120, -2897761); (20080121, -2902131); (20080122, -2908063); (20080123, -2916425);
  (20080124, -2927599); (20080125, -2940904); (20080126, -2955917); (20080127, -2971182); (20080128, -2985991); (20080129, -2999632); (20080130, -3011193); (20080131, -3020627);
  (20080201, -3027604); (20080202, -3034044); (20080203, -3039696); (20080204, -3045432); (20080205, -3052181); (20080206, -3060716); (20080207, -3071350); (20080208, -3084556);
  (20080209, -3099740); (20080210, -3115812); (20080211, -3132469); (20080212, -3148239); (20080213, -3161807); (20080214, -3173284); (20080215, -3182287); (20080216, -3189266);
  (20080217, -3194983); (20080218, -3200926); (20080219, -3208923); (20080220, -3219256); (20080221, -3231548); (20080222, -3244930); (20080223, -3258499); (20080224, -3271385);
  (20080225, -3283051); (20080226, -3292896); (20080227, -3300771); (20080228, -3306476); (20080229, -3309715); (20080301, -3312212); (20080302, -3314760); (20080303, -3317862);
  (20080304, -3322417); (20080305, -3329945); (20080306, -3340262); (20080307, -3352705); (20080308, -3367626); (20080309, -3383492); (20080310, -3398203); (20080311, -3410867);
  (20080312, -3420858); (20080313, -3428038); (20080314, -3433263); (20080315, -3437843); (20080316, -3443076); (20080317, -3449560); (20080318, -3458154); (20080319, -3469473);
  (20080320, -3482841); (20080321, -3497562); (20080322, -3512487); (20080323, -3526792); (20080324, -3540527); (20080325, -3552855); (20080326, -3563462); (20080327, -3572070);
  (20080328, -3579461); (20080329, -3586104); (20080330, -3592894); (20080331, -3600608); (20080401, -3610049); (20080402, -3621873); (20080403, -3636285); (20080404, -3652888);
  (20080405, -3671364); (20080406, -3690552); (20080407, -3707910); (20080408, -3722138); (20080409, -3732717); (20080410, -3740438); (20080411, -3746280); (20080412, -3751673);
  (20080413, -3757920); (20080414, -3766197); (20080415, -3776605); (20080416, -3788917); (20080417, -3802337); (20080418, -3816034); (20080419, -3829408); (20080420, -3841848);
  (20080421, -3852515); (20080422, -3861629); (20080423, -3869350); (20080424, -3875922); (20080425, -3881944); (20080426, -3887823); (20080427, -3894242); (20080428, -3902086);
  (20080429, -3912111); (20080430, -3925121); (20080501, -3940636); (20080502, -3958091); (20080503, -3976431); (20080504, -3994898); (20080505, -4011655); (20080506, -4025692);
  (20080507, -4036504); (20080508, -4045484); (20080509, -4054308); (20080510, -4063968); (20080511, -4075084); (20080512, -4089011); (20080513, -4104774); (20080514, -4121482);
  (20080515, -4138181); (20080516, -4154062); (20080517, -4168436); (20080518, -4180447); (20080519, -4190349); (20080520, -4198149); (20080521, -4203497); (20080522, -4207330);
  (20080523, -4210329); (20080524, -4213510); (20080525, -4217552); (20080526, -4223252); (20080527, -4230769); (20080528, -4240236); (20080529, -4251396); (20080530, -4263617);
  (20080531, -4276335); (20080601, -4287759); (20080602, -4296889); (20080603, -4303377); (20080604, -4307715); (20080605, -4310988); (20080606, -4314389); (20080607, -4319460);
  (20080608, -4325636); (20080609, -4333556); (20080610, -4342693); (20080611, -4352686); (20080612, -4361850); (20080613, -4369507); (20080614, -4375296); (20080615, -4378563);
  (20080616, -4380331); (20080617, -4380719); (20080618, -4380141); (20080619, -4379278); (20080620, -4378894); (20080621, -4379184); (20080622, -4381258); (20080623, -4385515);
  (20080624, -4391956); (20080625, -4400439); (20080626, -4410335); (20080627, -4420573); (20080628, -4429864); (20080629, -4438005); (20080630, -4443954); (20080701, -4447537);
  (20080702, -4449296); (20080703, -4450855); (20080704, -4453694); (20080705, -4458540); (20080706, -4464948); (20080707, -4472616); (20080708, -4480601); (20080709, -4487816);
  (20080710, -4493424); (20080711, -4497275); (20080712, -4498886); (20080713, -4498146); (20080714, -4495614); (20080715, -4491919); (20080716, -4487941); (20080717, -4484374)].
Definition eop_c04_data_17 : list (Z * Z) := [
  (20080718, -4481691); (20080719, -4480820); (20080720, -4482069); (20080721, -4485968); (20080722, -4492145); (20080723, -4499584); (20080724, -4507472); (20080725, -4514783);
  (20080726, -4520976); (20080727, -4525170); (20080728, -4527173); (20080729, -4527609); (20080730, -4527535); (20080731, -4527883); (20080801, -4530063); (20080802, -4534413);
  (20080803, -4540709); (20080804, -4548415); (20080805, -4556257); (20080806, -4563126); (20080807, -4568281); (20080808, -4571402); (20080809, -4572514); (20080810, -4572767);
  (20080811, -4571473); (20080812, -4569287); (20080813, -4567249); (20080814, -4565987); (20080815, -4566097); (20080816, -4567874); (20080817, -4571482); (20080818, -4577135);
  (20080819, -4584646); (20080820, -4593186); (20080821, -4601314); (20080822, -4607849); (20080823, -4612398); (20080824, -4614902); (20080825, -4615811); (20080826, -4616473);
  (20080827, -4618019); (20080828, -4620757); (20080829, -4625409); (20080830, -4633195); (20080831, -4643005); (20080901, -4653563); (20080902, -4663777); (20080903, -4672694);
  (20080904, -4679642); (20080905, -4684658); (20080906, -4688018); (20080907, -4689717); (20080908, -4690748); (20080909, -4692037); (20080910, -4694314); (20080911, -4698353);
  (20080912, -4704744); (20080913, -4714297); (20080914, -4726549); (20080915, -4741117); (20080916, -4757031); (20080917, -4773068); (20080918, -4787789); (20080919, -4800182);
  (20080920, -4810042); (20080921, -4817002); (20080922, -4822647); (20080923, -4828449); (20080924, -4834869); (20080925, -4843171); (20080926, -4853687); (20080927, -4866305);
  (20080928, -4880168); (20080929, -4894439); (20080930, -4907890); (20081001, -4920073); (20081002, -4930111); (20081003, -4937445); (20081004, -4942856); (20081005, -4946805);
  (20081006, -4950082); (20081007, -4953601); (20081008, -4958568); (20081009, -4965249); (20081010, -4974110); (20081011, -4985482); (20081012, -4999222); (20081013, -5014414);
  (20081014, -5030154); (20081015, -5045378); (20081016, -5059427); (20081017, -5071391); (20081018, -5081537); (20081019, -5090686); (20081020, -5100177); (20081021, -5111038);
  (20081022, -5123172); (20081023, -5137301); (20081024, -5153234); (20081025, -5169633); (20081026, -5186246); (20081027, -5202393); (20081028, -5217037); (20081029, -5230063);
  (20081030, -5240949); (20081031, -5249606); (20081101, -5256889); (20081102, -5263202); (20081103, -5269231); (20081104, -5275769); (20081105, -5282666); (20081106, -5291036);
  (20081107, -5301687); (20081108, -5314366); (20081109, -5329028); (20081110, -5345332); (20081111, -5361857); (20081112, -5377822); (20081113, -5391873); (20081114, -5402950);
  (20081115, -5411528); (20081116, -5419368); (20081117, -5428013); (20081118, -5438709); (20081119, -5452608); (20081120, -5469385); (20081121, -5487597); (20081122, -5506442);
  (20081123, -5524895); (20081124, -5541857); (20081125, -5557025); (20081126, -5570743); (20081127, -5582931); (20081128, -5593653); (20081129, -5603336); (20081130, -5612083);
  (20081201, -5620935); (20081202, -5630662); (20081203, -5641125); (20081204, -5653060); (20081205, -5666588); (20081206, -5681802); (20081207, -5698345); (20081208, -5715368);
  (20081209, -5731247); (20081210, -5744951); (20081211, -5755993); (20081212, -5764728); (20081213, -5771481); (20081214, -5778595); (20081215, -5787741); (20081216, -5799221);
  (20081217, -5812425); (20081218, -5826649); (20081219, -5841249); (20081220, -5855222); (20081221, -5867493); (20081222, -5877763); (20081223, -5885878); (20081224, -5891944);
  (20081225, -5895836); (20081226, -5898430); (20081227, -5900627); (20081228, -5903182); (20081229, -5906552); (20081230, -5911423); (20081231, -5918665); (20090101, 4071435);
  (20090102, 4059555); (20090103, 4046525); (20090104, 4033375); (20090105, 4020601); (20090106, 4009087); (20090107, 3999378); (20090108, 3991882); (20090109, 3986776);
  (20090110, 3981247); (20090111, 3974354); (20090112, 3964965); (20090113, 3952878); (20090114, 3938595); (20090115, 3923477); (20090116, 3908933); (20090117, 3895976);
  (20090118, 3885235); (20090119, 3877562); (20090120, 3872620); (20090121, 3869761); (20090122, 3868388); (20090123, 3867876); (20090124, 3867344); (20090125, 3866085);
  (20090126, 3863351); (20090127, 3858806); (20090128, 3851861); (20090129, 3843295); (20090130, 3834283); (20090131, 3824607); (20090201, 3815331); (20090202, 3807125);
  (20090203, 3800410); (20090204, 3795297); (20090205, 3791001); (20090206, 3786449); (20090207, 3781118); (20090208, 3773339); (20090209, 3762964); (20090210, 3750238);
  (20090211, 3736042); (20090212, 3721673); (20090213, 3708957); (20090214, 3699140); (20090215, 3691801); (20090216, 3686365); (20090217, 3682746); (20090218, 3680571);
  (20090219, 3679187); (20090220, 3677819); (20090221, 3675957); (20090222, 3673264); (20090223, 3668570); (20090224, 3661489); (20090225, 3652188); (20090226, 3640897);
  (20090227, 3628416); (20090228, 3615663); (20090301, 3603364); (20090302, 3591913); (20090303, 3581891); (20090304, 3573157); (20090305, 3565658); (20090306, 3557903);
  (20090307, 3548775); (20090308, 3537724); (20090309, 3523789); (20090310, 3507474); (20090311, 3490096); (20090312, 3472847); (20090313, 3457014); (20090314, 3442850);
  (20090315, 3431745); (20090316, 3422886); (20090317, 3415471); (20090318, 3409379); (20090319, 3403549); (20090320, 3397125); (20090321, 3389364); (20090322, 3379322);
  (20090323, 3366831); (20090324, 3352237); (20090325, 3336133); (20090326, 3319239); (20090327, 3302884); (20090328, 3287291); (20090329, 3273503); (20090330, 3262107);
  (20090331, 3252896); (20090401, 3244933); (20090402, 3237170); (20090403, 3228417); (20090404, 3218176); (20090405, 3205732); (20090406, 3191025); (20090407, 3174741);
  (20090408, 3157101); (20090409, 3139828); (20090410, 3123869); (20090411, 3110027); (20090412, 3098686); (20090413, 3089493); (20090414, 3081687); (20090415, 3074334);
  (20090416, 3066503); (20090417, 3057535); (20090418, 3047113); (20090419, 3035233); (20090420, 3021439); (20090421, 3005765); (20090422, 2988254); (20090423, 2970232);
  (20090424, 2952631); (20090425, 2936368); (20090426, 2922287); (20090427, 2910227); (20090428, 2899653); (20090429, 2889698); (20090430, 2879086); (20090501, 2866979);
  (20090502, 2852853); (20090503, 2836683); (20090504, 2819113); (20090505, 2801297); (20090506, 2784292); (20090507, 2769037); (20090508, 2756356); (20090509, 2746515);
  (20090510, 2739072); (20090511, 2732871); (20090512, 2727621); (20090513, 2722362); (20090514, 2716504); (20090515, 2709409); (20090516, 2700837); (20090517, 2690887);
  (20090518, 2679578); (20090519, 2666888); (20090520, 2652501); (20090521, 2637763); (20090522, 2623811); (20090523, 2611662); (20090524, 2601180); (20090525, 2592484);
  (20090526, 2585230); (20090527, 2577892); (20090528, 2569361); (20090529, 2558836); (20090530, 2546023); (20090531, 2531507); (20090601, 2516973); (20090602, 2503438);
  (20090603, 2491542); (20090604, 2481759); (20090605, 2474236); (20090606, 2468890); (20090607, 2464878); (20090608, 2462047); (20090609, 2459647); (20090610, 2456586);
  (20090611, 2452444); (20090612, 2446380); (20090613, 2438876); (20090614, 2430614); (20090615, 2421289); (20090616, 2411449); (20090617, 2401099); (20090618, 2391441);
  (20090619, 2383439); (20090620, 2377284); (20090621, 2373304); (20090622, 2371297); (20090623, 2369989); (20090624, 2368314); (20090625, 2365320); (20090626, 2360367);
  (20090627, 2353492); (20090628, 2346059); (20090629, 2339186); (20090630, 2333902); (20090701, 2330926); (20090702, 2330292); (20090703, 2331450); (20090704, 2334145);
  (20090705, 2337901); (20090706, 2342189); (20090707, 2346263); (20090708, 2349503); (20090709, 2351440); (20090710, 2351992); (20090711, 2351159); (20090712, 2348761);
  (20090713, 2345838); (20090714, 2342849); (20090715, 2339957); (20090716, 2337961); (20090717, 2337415); (20090718, 2337926); (20090719, 2339470); (20090720, 2341207);
  (20090721, 2341910); (20090722, 2341102); (20090723, 2338207); (20090724, 2332871); (20090725, 2325548); (20090726, 2317889); (20090727, 2310801); (20090728, 2305487);
  (20090729, 2302534); (20090730, 2301803); (20090731, 2303164); (20090801, 2305639); (20090802, 2309289); (20090803, 2312319); (20090804, 2314042); (20090805, 2314710);
  (20090806, 2313662); (20090807, 2310590); (20090808, 2306060); (20090809, 2300057); (20090810, 2293411); (20090811, 2287046); (20090812, 2281772); (20090813, 2278050);
  (20090814, 2276092); (20090815, 2275898); (20090816, 2276471); (20090817, 2277038); (20090818, 2276204); (20090819, 2272310); (20090820, 2265509); (20090821, 2256787);
  (20090822, 2246937); (20090823, 2237316); (20090824, 2229126); (20090825, 2223147); (20090826, 2219418); (20090827, 2217324); (20090828, 2216388); (20090829, 2215504);
  (20090830, 2214840); (20090831, 2213859); (20090901, 2211660); (20090902, 2207647); (20090903, 2201914); (20090904, 2194929); (20090905, 2186152); (20090906, 2176577);
  (20090907, 2167136); (20090908, 2158545); (20090909, 2151637); (20090910, 2146537); (20090911, 2143016); (20090912, 2140206); (20090913, 2137304); (20090914, 2133208);
  (20090915, 2126896); (20090916, 2117962); (20090917, 2106477); (20090918, 2093299); (20090919, 2079893); (20090920, 2067093); (20090921, 2056406); (20090922, 2048393);
  (20090923, 2042882); (20090924, 2039145); (20090925, 2036183); (20090926, 2033413); (20090927, 2030546); (20090928, 2026594); (20090929, 2020876); (20090930, 2012021);
  (20091001, 2001066); (20091002, 1988982); (20091003, 1975968); (20091004, 1962547); (20091005, 1950044); (20091006, 1939110); (20091007, 1929751); (20091008, 1922182);
  (20091009, 1915881); (20091010, 1909778); (20091011, 1903665); (20091012, 1896743); (20091013, 1887401); (20091014, 1875448); (20091015, 1861560); (20091016, 1846794);
  (20091017, 1832013); (20091018, 1818821); (20091019, 1807765); (20091020, 1798915); (20091021, 1791856); (20091022, 1785861); (20091023, 1780321); (20091024, 1774891);
  (20091025, 1769336); (20091026, 1762209); (20091027, 1753286); (20091028, 1742942); (20091029, 1731269); (20091030, 1718631); (20091031, 1705643); (20091101, 1693127);
  (20091102, 1681793); (20091103, 1672139); (20091104, 1663777); (20091105, 1656772); (20091106, 1650268); (20091107, 1643651); (20091108, 1636032); (20091109, 1627271);
  (20091110, 1616830); (20091111, 1604715); (20091112, 1591639); (20091113, 1578255); (20091114, 1566477); (20091115, 1556979); (20091116, 1549559); (20091117, 1543998);
  (20091118, 1539496); (20091119, 1535972); (20091120, 1532354); (20091121, 1527842); (20091122, 1521542); (20091123, 1513226); (20091124, 1503085); (20091125, 1491691);
  (20091126, 1478948); (20091127, 1465452); (20091128, 1451960); (20091129, 1439380); (20091130, 1428485); (20091201, 1419507); (20091202, 1412194); (20091203, 1406016);
  (20091204, 1399584); (20091205, 1391852); (20091206, 1382413); (20091207, 1371176); (20091208, 1358293); (20091209, 1344324); (20091210, 1330514); (20091211, 1317856);
  (20091212, 1307385); (20091213, 1298906); (20091214, 1291896); (20091215, 1286022); (20091216, 1280413); (20091217, 1274404); (20091218, 1267789); (20091219, 1260232);
  (20091220, 1251143); (20091221, 1240445); (20091222, 1228456); (20091223, 1215382); (20091224, 1202286); (20091225, 1189637); (20091226, 1177956); (20091227, 1167686);
  (20091228, 1159325); (20091229, 1152991); (20091230, 1148715); (20091231, 1144889); (20100101, 1140330); (20100102, 1134203); (20100103, 1125087); (20100104, 1113329);
  (20100105, 1100064); (20100106, 1086158); (20100107, 1073280); (20100108, 1062553); (20100109, 1053959); (20100110, 1047965); (20100111, 1044057); (20100112, 1041319);
  (20100113, 1038825); (20100114, 1036160); (20100115, 1033179); (20100116, 1028507); (20100117, 1021916); (20100118, 1013568); (20100119, 1004243); (20100120, 994233);
  (20100121, 983926); (20100122, 973826); (20100123, 964038); (20100124, 954957); (20100125, 947361); (20100126, 940955); (20100127, 935434); (20100128, 929250);
  (20100129, 921063); (20100130, 910101); (20100131, 895895); (20100201, 878535); (20100202, 859781); (20100203, 841118); (20100204, 823402); (20100205, 809846);
  (20100206, 798431); (20100207, 789044); (20100208, 781738); (20100209, 775465); (20100210, 770015); (20100211, 763959); (20100212, 756577); (20100213, 747526);
  (20100214, 736823); (20100215, 724261); (20100216, 710346); (20100217, 695762); (20100218, 680591); (20100219, 665792); (20100220, 651978); (20100221, 639573);
  (20100222, 628517); (20100223, 618273); (20100224, 608376); (20100225, 597472); (20100226, 584521); (20100227, 568890); (20100228, 550258); (20100301, 529802);
  (20100302, 509260); (20100303, 490187); (20100304, 473680); (20100305, 460213); (20100306, 449084); (20100307, 440081); (20100308, 432120); (20100309, 424382);
  (20100310, 415117); (20100311, 405179); (20100312, 395710); (20100313, 384831); (20100314, 373665); (20100315, 362124); (20100316, 350336); (20100317, 337682);
  (20100318, 325611); (20100319, 314879); (20100320, 306082); (20100321, 298895); (20100322, 292716); (20100323, 286717); (20100324, 280488); (20100325, 272378);
  (20100326, 261280); (20100327, 246781); (20100328, 229438); (20100329, 210007); (20100330, 190432); (20100331, 172747); (20100401, 157570); (20100402, 145642);
  (20100403, 136222); (20100404, 128386); (20100405, 120363); (20100406, 111785); (20100407, 102304); (20100408, 91338); (20100409, 78772); (20100410, 65022);
  (20100411, 50500); (20100412, 35182); (20100413, 19548); (20100414, 3875); (20100415, -11024); (20100416, -24625); (20100417, -36776); (20100418, -47710);
  (20100419, -57957); (20100420, -68501); (20100421, -80242); (20100422, -93930); (20100423, -109741); (20100424, -127474); (20100425, -146273); (20100426, -165350);
  (20100427, -183205); (20100428, -199388); (20100429, -212834); (20100430, -223468); (20100501, -231571); (20100502, -238185); (20100503, -243697); (20100504, -249087);
  (20100505, -254723); (20100506, -260985); (20100507, -268336); (20100508, -277227); (20100509, -287558); (20100510, -299344); (20100511, -311512); (20100512, -322956);
  (20100513, -333394); (20100514, -342664); (20100515, -349856); (20100516, -356508); (20100517, -363480); (20100518, -371631); (20100519, -382163); (20100520, -395040);
  (20100521, -410187); (20100522, -426922); (20100523, -443925); (20100524, -459217); (20100525, -472195); (20100526, -482669); (20100527, -491371); (20100528, -498140);
  (20100529, -503486); (20100530, -507575); (20100531, -511310); (20100601, -516012); (20100602, -521712); (20100603, -528355); (20100604, -535710); (20100605, -543194);
  (20100606, -550444); (20100607, -556878); (20100608, -562229); (20100609, -566585); (20100610, -569602); (20100611, -571681); (20100612, -572520); (20100613, -573093);
  (20100614, -573934); (20100615, -576002); (20100616, -579658); (20100617, -584914); (20100618, -591078); (20100619, -597487); (20100620, -602116); (20100621, -604370);
  (20100622, -604120); (20100623, -601573); (20100624, -597063); (20100625, -591314); (20100626, -585118); (20100627, -579371); (20100628, -574625); (20100629, -571160);
  (20100630, -569194); (20100701, -568332); (20100702, -568266); (20100703, -568832); (20100704, -569131); (20100705, -568753); (20100706, -566838); (20100707, -563295);
  (20100708, -558396); (20100709, -552345); (20100710, -546065); (20100711, -540633); (20100712, -536588); (20100713, -534821); (20100714, -535452); (20100715, -537931);
  (20100716, -540779); (20100717, -544073); (20100718, -545882); (20100719, -546070); (20100720, -544256); (20100721, -540092); (20100722, -533528); (20100723, -526044);
  (20100724, -518747); (20100725, -511642); (20100726, -506020); (20100727, -502011); (20100728, -499644); (20100729, -498368); (20100730, -497688); (20100731, -496578);
  (20100801, -494963); (20100802, -492694); (20100803, -489529); (20100804, -485744); (20100805, -481275); (20100806, -476756); (20100807, -472704); (20100808, -470216);
  (20100809, -470316); (20100810, -473476); (20100811, -479588); (20100812, -487261); (20100813, -494394); (20100814, -500724); (20100815, -504865); (20100816, -506289);
  (20100817, -505329); (20100818, -502360); (20100819, -498519); (20100820, -494712); (20100821, -491318); (20100822, -489340); (20100823, -489083); (20100824, -490340);
  (20100825, -492887); (20100826, -496304); (20100827, -500080); (20100828, -503284); (20100829, -505966); (20100830, -508042); (20100831, -509107); (20100901, -509038);
  (20100902, -508241); (20100903, -507399); (20100904, -507097); (20100905, -508555); (20100906, -512576); (20100907, -519407); (20100908, -528593); (20100909, -539362);
  (20100910, -549671); (20100911, -557592); (20100912, -563034); (20100913, -565484); (20100914, -565559); (20100915, -564331); (20100916, -562857); (20100917, -561820);
  (20100918, -561765); (20100919, -563129); (20100920, -565573); (20100921, -569043); (20100922, -573029); (20100923, -577824); (20100924, -582727); (20100925, -587331);
  (20100926, -591584); (20100927, -594678); (20100928, -596697); (20100929, -597782); (20100930, -598876); (20101001, -600999); (20101002, -604511); (20101003, -611065);
  (20101004, -621353); (20101005, -634901); (20101006, -651007); (20101007, -667967); (20101008, -684245); (20101009, -698513); (20101010, -710536); (20101011, -720112);
  (20101012, -728329); (20101013, -736104); (20101014, -743761); (20101015, -752142); (20101016, -761102); (20101017, -771057); (20101018, -781982); (20101019, -793537);
  (20101020, -806178); (20101021, -818582); (20101022, -829506); (20101023, -839396); (20101024, -847952); (20101025, -855127); (20101026, -861201); (20101027, -866387);
  (20101028, -871737); (20101029, -878244); (20101030, -886605); (20101031, -897496); (20101101, -911248); (20101102, -927329); (20101103, -944537); (20101104, -961615);
  (20101105, -977173); (20101106, -990923); (20101107, -1001737); (20101108, -1009893); (20101109, -1016684); (20101110, -1022454); (20101111, -1028453); (20101112, -1035313);
  (20101113, -1043664); (20101114, -1053536); (20101115, -1064500); (20101116, -1075981); (20101117, -1087634); (20101118, -1098764); (20101119, -1108910); (20101120, -1117420);
  (20101121, -1124284); (20101122, -1129852); (20101123, -1134635); (20101124, -1139499); (20101125, -1145148); (20101126, -1152321); (20101127, -1161515); (20101128, -1173305);
  (20101129, -1186656); (20101130, -1200619); (20101201, -1214508); (20101202, -1226957); (20101203, -1236679); (20101204, -1244067); (20101205, -1249515); (20101206, -1253878);
  (20101207, -1257855); (20101208, -1262427); (20101209, -1268057); (20101210, -1274673); (20101211, -1281858); (20101212, -1289152); (20101213, -1296415); (20101214, -1303463);
  (20101215, -1309912); (20101216, -1315524); (20101217, -1320368); (20101218, -1324176); (20101219, -1326897); (20101220, -1328195); (20101221, -1329022); (20101222, -1330838);
  (20101223, -1334306); (20101224, -1339840); (20101225, -1347659); (20101226, -1357365); (20101227, -1368427); (20101228, -1379514); (20101229, -1389040); (20101230, -1396538);
  (20101231, -1402040); (20110101, -1405619); (20110102, -1407870); (20110103, -1409510); (20110104, -1411264); (20110105, -1413407); (20110106, -1416521); (20110107, -1420692);
  (20110108, -1425732); (20110109, -1431340); (20110110, -1437331); (20110111, -1443309); (20110112, -1449331); (20110113, -1454783); (20110114, -1459545); (20110115, -1463280);
  (20110116, -1466479); (20110117, -1469091); (20110118, -1471746); (20110119, -1475565); (20110120, -1480615); (20110121, -1487896); (20110122, -1497184); (20110123, -1508300);
  (20110124, -1520081); (20110125, -1530958); (20110126, -1540122); (20110127, -1547148); (20110128, -1552211); (20110129, -1555766); (20110130, -1558746); (20110131, -1561888);
  (20110201, -1565741); (20110202, -1570585); (20110203, -1577068); (20110204, -1584274); (20110205, -1592139); (20110206, -1599990); (20110207, -1607575); (20110208, -1614635);
  (20110209, -1620869); (20110210, -1626188); (20110211, -1630842); (20110212, -1634765); (20110213, -1638268); (20110214, -1641900); (20110215, -1646675); (20110216, -1653742);
  (20110217, -1663660); (20110218, -1676491); (20110219, -1691320); (20110220, -1707632); (20110221, -1723881); (20110222, -1738330); (20110223, -1749976); (20110224, -1758512);
  (20110225, -1764740); (20110226, -1769661); (20110227, -1773972); (20110228, -1778730); (20110301, -1784590); (20110302, -1792056); (20110303, -1801076); (20110304, -1811639);
  (20110305, -1823118); (20110306, -1835199); (20110307, -1846795); (20110308, -1857534); (20110309, -1867518); (20110310, -1876395); (20110311, -1884119); (20110312, -1890680);
  (20110313, -1896712); (20110314, -1903022); (20110315, -1910495); (20110316, -1920012); (20110317, -1931996); (20110318, -1946409); (20110319, -1962253); (20110320, -1978407);
  (20110321, -1993796); (20110322, -2007296); (20110323, -2018371); (20110324, -2027541); (20110325, -2035673); (20110326, -2043220); (20110327, -2051301); (20110328, -2062086);
  (20110329, -2075017); (20110330, -2088378); (20110331, -2102414); (20110401, -2117083); (20110402, -2132326); (20110403, -2147146); (20110404, -2160709); (20110405, -2172828);
  (20110406, -2183356); (20110407, -2192283); (20110408, -2199957); (20110409, -2207528); (20110410, -2215252); (20110411, -2223485); (20110412, -2233115); (20110413, -2244345)].
Definition eop_c04_data_18 : list (Z * Z) := [
  (20110414, -2257791); (20110415, -2272981); (20110416, -2289499); (20110417, -2306067); (20110418, -2321451); (20110419, -2334610); (20110420, -2345577); (20110421, -2354274);
  (20110422, -2361793); (20110423, -2369210); (20110424, -2377161); (20110425, -2385787); (20110426, -2395275); (20110427, -2405602); (20110428, -2416513); (20110429, -2427721);
  (20110430, -2438839); (20110501, -2449508); (20110502, -2459456); (20110503, -2468539); (20110504, -2477550); (20110505, -2486052); (20110506, -2494023); (20110507, -2502269);
  (20110508, -2511237); (20110509, -2521313); (20110510, -2533310); (20110511, -2547550); (20110512, -2563879); (20110513, -2581611); (20110514, -2600319); (20110515, -2618333);
  (20110516, -2634599); (20110517, -2648445); (20110518, -2660323); (20110519, -2670231); (20110520, -2678021); (20110521, -2685896); (20110522, -2694060); (20110523, -2702331);
  (20110524, -2710990); (20110525, -2719979); (20110526, -2729265); (20110527, -2739062); (20110528, -2749010); (20110529, -2757977); (20110530, -2766323); (20110531, -2773235);
  (20110601, -2778924); (20110602, -2784052); (20110603, -2789059); (20110604, -2794125); (20110605, -2800870); (20110606, -2809045); (20110607, -2818704); (20110608, -2829558);
  (20110609, -2841241); (20110610, -2852942); (20110611, -2864047); (20110612, -2873090); (20110613, -2880049); (20110614, -2884886); (20110615, -2887905); (20110616, -2889945);
  (20110617, -2891855); (20110618, -2894221); (20110619, -2897378); (20110620, -2900941); (20110621, -2904804); (20110622, -2908692); (20110623, -2912247); (20110624, -2915099);
  (20110625, -2916926); (20110626, -2917544); (20110627, -2917353); (20110628, -2916167); (20110629, -2914345); (20110630, -2911537); (20110701, -2908780); (20110702, -2906434);
  (20110703, -2905597); (20110704, -2906978); (20110705, -2910636); (20110706, -2915676); (20110707, -2920688); (20110708, -2924910); (20110709, -2928016); (20110710, -2929001);
  (20110711, -2927792); (20110712, -2925010); (20110713, -2921571); (20110714, -2918199); (20110715, -2915625); (20110716, -2913939); (20110717, -2913537); (20110718, -2914350);
  (20110719, -2915937); (20110720, -2918102); (20110721, -2920144); (20110722, -2921558); (20110723, -2922284); (20110724, -2922234); (20110725, -2920967); (20110726, -2918661);
  (20110727, -2915549); (20110728, -2912283); (20110729, -2909199); (20110730, -2907520); (20110731, -2908265); (20110801, -2911466); (20110802, -2916574); (20110803, -2923189);
  (20110804, -2930173); (20110805, -2935977); (20110806, -2940002); (20110807, -2941726); (20110808, -2941351); (20110809, -2939776); (20110810, -2937158); (20110811, -2935351);
  (20110812, -2934627); (20110813, -2934675); (20110814, -2935795); (20110815, -2937438); (20110816, -2939669); (20110817, -2942454); (20110818, -2944791); (20110819, -2946368);
  (20110820, -2947019); (20110821, -2946787); (20110822, -2945603); (20110823, -2943923); (20110824, -2942407); (20110825, -2941647); (20110826, -2942142); (20110827, -2945410);
  (20110828, -2951141); (20110829, -2959225); (20110830, -2969014); (20110831, -2979366); (20110901, -2988971); (20110902, -2997146); (20110903, -3003226); (20110904, -3006788);
  (20110905, -3008935); (20110906, -3010474); (20110907, -3012208); (20110908, -3014812); (20110909, -3018570); (20110910, -3022935); (20110911, -3028329); (20110912, -3034489);
  (20110913, -3040916); (20110914, -3048120); (20110915, -3055097); (20110916, -3061272); (20110917, -3066351); (20110918, -3070703); (20110919, -3074796); (20110920, -3078934);
  (20110921, -3083892); (20110922, -3090352); (20110923, -3098923); (20110924, -3110082); (20110925, -3123875); (20110926, -3139962); (20110927, -3157499); (20110928, -3175137);
  (20110929, -3191208); (20110930, -3204869); (20111001, -3216323); (20111002, -3226271); (20111003, -3235328); (20111004, -3244463); (20111005, -3254779); (20111006, -3266289);
  (20111007, -3278876); (20111008, -3292346); (20111009, -3306392); (20111010, -3320341); (20111011, -3333686); (20111012, -3346509); (20111013, -3358072); (20111014, -3367681);
  (20111015, -3375327); (20111016, -3381594); (20111017, -3386815); (20111018, -3391686); (20111019, -3397253); (20111020, -3404194); (20111021, -3412976); (20111022, -3423944);
  (20111023, -3437086); (20111024, -3451960); (20111025, -3467510); (20111026, -3482856); (20111027, -3496642); (20111028, -3508069); (20111029, -3517677); (20111030, -3526141);
  (20111031, -3534278); (20111101, -3543057); (20111102, -3553012); (20111103, -3564122); (20111104, -3576727); (20111105, -3590637); (20111106, -3604876); (20111107, -3618803);
  (20111108, -3631993); (20111109, -3643872); (20111110, -3653772); (20111111, -3662289); (20111112, -3669779); (20111113, -3676536); (20111114, -3683096); (20111115, -3690021);
  (20111116, -3697859); (20111117, -3707342); (20111118, -3718691); (20111119, -3732129); (20111120, -3747230); (20111121, -3762567); (20111122, -3777423); (20111123, -3791593);
  (20111124, -3803896); (20111125, -3814113); (20111126, -3822744); (20111127, -3830460); (20111128, -3837961); (20111129, -3846108); (20111130, -3855271); (20111201, -3865995);
  (20111202, -3877421); (20111203, -3889332); (20111204, -3900280); (20111205, -3910273); (20111206, -3919312); (20111207, -3927082); (20111208, -3933570); (20111209, -3939111);
  (20111210, -3944668); (20111211, -3950278); (20111212, -3956046); (20111213, -3962746); (20111214, -3971246); (20111215, -3981640); (20111216, -3993855); (20111217, -4007880);
  (20111218, -4022627); (20111219, -4037324); (20111220, -4051201); (20111221, -4063433); (20111222, -4073802); (20111223, -4082653); (20111224, -4090835); (20111225, -4099305);
  (20111226, -4108846); (20111227, -4119865); (20111228, -4132321); (20111229, -4146757); (20111230, -4161923); (20111231, -4176669); (20120101, -4190280); (20120102, -4202700);
  (20120103, -4213955); (20120104, -4223919); (20120105, -4232682); (20120106, -4240514); (20120107, -4247937); (20120108, -4255511); (20120109, -4263593); (20120110, -4272823);
  (20120111, -4283659); (20120112, -4296191); (20120113, -4310125); (20120114, -4325344); (20120115, -4340314); (20120116, -4354355); (20120117, -4366748); (20120118, -4377235);
  (20120119, -4385770); (20120120, -4393130); (20120121, -4400366); (20120122, -4408166); (20120123, -4417035); (20120124, -4427066); (20120125, -4437951); (20120126, -4449238);
  (20120127, -4460363); (20120128, -4470825); (20120129, -4480069); (20120130, -4488023); (20120131, -4494690); (20120201, -4499960); (20120202, -4504295); (20120203, -4508222);
  (20120204, -4512807); (20120205, -4517988); (20120206, -4524509); (20120207, -4533073); (20120208, -4544126); (20120209, -4557258); (20120210, -4571673); (20120211, -4586352);
  (20120212, -4600478); (20120213, -4613111); (20120214, -4623691); (20120215, -4631618); (20120216, -4637889); (20120217, -4643437); (20120218, -4649210); (20120219, -4655914);
  (20120220, -4663682); (20120221, -4672331); (20120222, -4681565); (20120223, -4690471); (20120224, -4698850); (20120225, -4706373); (20120226, -4712748); (20120227, -4718307);
  (20120228, -4722813); (20120229, -4726370); (20120301, -4729311); (20120302, -4732008); (20120303, -4735444); (20120304, -4740170); (20120305, -4746213); (20120306, -4754416);
  (20120307, -4764587); (20120308, -4776866); (20120309, -4790644); (20120310, -4805653); (20120311, -4820405); (20120312, -4834013); (20120313, -4846316); (20120314, -4857628);
  (20120315, -4868827); (20120316, -4880519); (20120317, -4893769); (20120318, -4908432); (20120319, -4923519); (20120320, -4939173); (20120321, -4954533); (20120322, -4969557);
  (20120323, -4983929); (20120324, -4997667); (20120325, -5010341); (20120326, -5021744); (20120327, -5032085); (20120328, -5041821); (20120329, -5051721); (20120330, -5061940);
  (20120331, -5073079); (20120401, -5085227); (20120402, -5098815); (20120403, -5114292); (20120404, -5131576); (20120405, -5149966); (20120406, -5168769); (20120407, -5186753);
  (20120408, -5202117); (20120409, -5215509); (20120410, -5226988); (20120411, -5237181); (20120412, -5247550); (20120413, -5258453); (20120414, -5270634); (20120415, -5283026);
  (20120416, -5295690); (20120417, -5308789); (20120418, -5321994); (20120419, -5334838); (20120420, -5347227); (20120421, -5358474); (20120422, -5368877); (20120423, -5378149);
  (20120424, -5386364); (20120425, -5394113); (20120426, -5401670); (20120427, -5409457); (20120428, -5417990); (20120429, -5426959); (20120430, -5436964); (20120501, -5448935);
  (20120502, -5462556); (20120503, -5477068); (20120504, -5491808); (20120505, -5505998); (20120506, -5518625); (20120507, -5529385); (20120508, -5538710); (20120509, -5546703);
  (20120510, -5555255); (20120511, -5564726); (20120512, -5574823); (20120513, -5585049); (20120514, -5595626); (20120515, -5606233); (20120516, -5617029); (20120517, -5627124);
  (20120518, -5636031); (20120519, -5643395); (20120520, -5649387); (20120521, -5654095); (20120522, -5657975); (20120523, -5661864); (20120524, -5666054); (20120525, -5670968);
  (20120526, -5677080); (20120527, -5684545); (20120528, -5693249); (20120529, -5703346); (20120530, -5714595); (20120531, -5726653); (20120601, -5738795); (20120602, -5750105);
  (20120603, -5759807); (20120604, -5768086); (20120605, -5774606); (20120606, -5780331); (20120607, -5786987); (20120608, -5794623); (20120609, -5803636); (20120610, -5812656);
  (20120611, -5820963); (20120612, -5828605); (20120613, -5835394); (20120614, -5840934); (20120615, -5844978); (20120616, -5847894); (20120617, -5849710); (20120618, -5850143);
  (20120619, -5849705); (20120620, -5848565); (20120621, -5847607); (20120622, -5847363); (20120623, -5848064); (20120624, -5850132); (20120625, -5853390); (20120626, -5857339);
  (20120627, -5861591); (20120628, -5865314); (20120629, -5867638); (20120630, -5868529); (20120701, 4132316); (20120702, 4134366); (20120703, 4136679); (20120704, 4138690);
  (20120705, 4139576); (20120706, 4139097); (20120707, 4137093); (20120708, 4134575); (20120709, 4131700); (20120710, 4129120); (20120711, 4127368); (20120712, 4127437);
  (20120713, 4128820); (20120714, 4130768); (20120715, 4133906); (20120716, 4137415); (20120717, 4140525); (20120718, 4142058); (20120719, 4142108); (20120720, 4140546);
  (20120721, 4137338); (20120722, 4132561); (20120723, 4127059); (20120724, 4121283); (20120725, 4115477); (20120726, 4110649); (20120727, 4107679); (20120728, 4105430);
  (20120729, 4104150); (20120730, 4103339); (20120731, 4102120); (20120801, 4099242); (20120802, 4095069); (20120803, 4090523); (20120804, 4084912); (20120805, 4078885);
  (20120806, 4073568); (20120807, 4069442); (20120808, 4066792); (20120809, 4065640); (20120810, 4065853); (20120811, 4066553); (20120812, 4068155); (20120813, 4070188);
  (20120814, 4071781); (20120815, 4072260); (20120816, 4071277); (20120817, 4068583); (20120818, 4064496); (20120819, 4058641); (20120820, 4051797); (20120821, 4044971);
  (20120822, 4038933); (20120823, 4034157); (20120824, 4031116); (20120825, 4029138); (20120826, 4027863); (20120827, 4025834); (20120828, 4022449); (20120829, 4017238);
  (20120830, 4010457); (20120831, 4002442); (20120901, 3993541); (20120902, 3985290); (20120903, 3977296); (20120904, 3970185); (20120905, 3964406); (20120906, 3960312);
  (20120907, 3957327); (20120908, 3954902); (20120909, 3952964); (20120910, 3950372); (20120911, 3946532); (20120912, 3941010); (20120913, 3933494); (20120914, 3923835);
  (20120915, 3911408); (20120916, 3897444); (20120917, 3883295); (20120918, 3869760); (20120919, 3857870); (20120920, 3847756); (20120921, 3839179); (20120922, 3832346);
  (20120923, 3825826); (20120924, 3818598); (20120925, 3810230); (20120926, 3800091); (20120927, 3787851); (20120928, 3774633); (20120929, 3761236); (20120930, 3748318);
  (20121001, 3736899); (20121002, 3727053); (20121003, 3719126); (20121004, 3712539); (20121005, 3706768); (20121006, 3701586); (20121007, 3696580); (20121008, 3691179);
  (20121009, 3684100); (20121010, 3675277); (20121011, 3664890); (20121012, 3652668); (20121013, 3638793); (20121014, 3623751); (20121015, 3608727); (20121016, 3594748);
  (20121017, 3582116); (20121018, 3571392); (20121019, 3562680); (20121020, 3554881); (20121021, 3547235); (20121022, 3539140); (20121023, 3530156); (20121024, 3519919);
  (20121025, 3508927); (20121026, 3497646); (20121027, 3486057); (20121028, 3474783); (20121029, 3464581); (20121030, 3455478); (20121031, 3447087); (20121101, 3439414);
  (20121102, 3432297); (20121103, 3425378); (20121104, 3417863); (20121105, 3409500); (20121106, 3400057); (20121107, 3388799); (20121108, 3376999); (20121109, 3363831);
  (20121110, 3349804); (20121111, 3335078); (20121112, 3319903); (20121113, 3305227); (20121114, 3291285); (20121115, 3278155); (20121116, 3265317); (20121117, 3252176);
  (20121118, 3237759); (20121119, 3221869); (20121120, 3204831); (20121121, 3187450); (20121122, 3169896); (20121123, 3153034); (20121124, 3137397); (20121125, 3123086);
  (20121126, 3110208); (20121127, 3098757); (20121128, 3088516); (20121129, 3079063); (20121130, 3070091); (20121201, 3061302); (20121202, 3051642); (20121203, 3041396);
  (20121204, 3030387); (20121205, 3018411); (20121206, 3005395); (20121207, 2991782); (20121208, 2977975); (20121209, 2964312); (20121210, 2951039); (20121211, 2938919);
  (20121212, 2928187); (20121213, 2918601); (20121214, 2909485); (20121215, 2900026); (20121216, 2889966); (20121217, 2879384); (20121218, 2868233); (20121219, 2857020);
  (20121220, 2846994); (20121221, 2838105); (20121222, 2830266); (20121223, 2823120); (20121224, 2816746); (20121225, 2811267); (20121226, 2806435); (20121227, 2801842);
  (20121228, 2797191); (20121229, 2792372); (20121230, 2786123); (20121231, 2778998); (20130101, 2770733); (20130102, 2761073); (20130103, 2750342); (20130104, 2738599);
  (20130105, 2726428); (20130106, 2714446); (20130107, 2703909); (20130108, 2694696); (20130109, 2686090); (20130110, 2677610); (20130111, 2668054); (20130112, 2657105);
  (20130113, 2644765); (20130114, 2630607); (20130115, 2615521); (20130116, 2600806); (20130117, 2586844); (20130118, 2573767); (20130119, 2561106); (20130120, 2549491);
  (20130121, 2538439); (20130122, 2527727); (20130123, 2517270); (20130124, 2506537); (20130125, 2495288); (20130126, 2483738); (20130127, 2471277); (20130128, 2457648);
  (20130129, 2443026); (20130130, 2427638); (20130131, 2412122); (20130201, 2397387); (20130202, 2383410); (20130203, 2371329); (20130204, 2360361); (20130205, 2350318);
  (20130206, 2340878); (20130207, 2331423); (20130208, 2321261); (20130209, 2309282); (20130210, 2296031); (20130211, 2281975); (20130212, 2267689); (20130213, 2254444);
  (20130214, 2242842); (20130215, 2232784); (20130216, 2223751); (20130217, 2215763); (20130218, 2208975); (20130219, 2202815); (20130220, 2196575); (20130221, 2189314);
  (20130222, 2180783); (20130223, 2170539); (20130224, 2158510); (20130225, 2144735); (20130226, 2129265); (20130227, 2112230); (20130228, 2094548); (20130301, 2077328);
  (20130302, 2060765); (20130303, 2045314); (20130304, 2030446); (20130305, 2015923); (20130306, 2001178); (20130307, 1985736); (20130308, 1969145); (20130309, 1951483);
  (20130310, 1932676); (20130311, 1913735); (20130312, 1894884); (20130313, 1876533); (20130314, 1859071); (20130315, 1843035); (20130316, 1828133); (20130317, 1814599);
  (20130318, 1802067); (20130319, 1790100); (20130320, 1778473); (20130321, 1766711); (20130322, 1754811); (20130323, 1741399); (20130324, 1726491); (20130325, 1710111);
  (20130326, 1692365); (20130327, 1673192); (20130328, 1653403); (20130329, 1633911); (20130330, 1615324); (20130331, 1598065); (20130401, 1581798); (20130402, 1566140);
  (20130403, 1550287); (20130404, 1534221); (20130405, 1517310); (20130406, 1498885); (20130407, 1479962); (20130408, 1461143); (20130409, 1442868); (20130410, 1425417);
  (20130411, 1409411); (20130412, 1395086); (20130413, 1382103); (20130414, 1370216); (20130415, 1359141); (20130416, 1348138); (20130417, 1336824); (20130418, 1325258);
  (20130419, 1312766); (20130420, 1298811); (20130421, 1283435); (20130422, 1266947); (20130423, 1249550); (20130424, 1231493); (20130425, 1213230); (20130426, 1195762);
  (20130427, 1179651); (20130428, 1165016); (20130429, 1151293); (20130430, 1137648); (20130501, 1123639); (20130502, 1108750); (20130503, 1092913); (20130504, 1076238);
  (20130505, 1059290); (20130506, 1042659); (20130507, 1026670); (20130508, 1011230); (20130509, 997635); (20130510, 985567); (20130511, 974615); (20130512, 964513);
  (20130513, 955436); (20130514, 946587); (20130515, 937165); (20130516, 927077); (20130517, 915998); (20130518, 903395); (20130519, 889514); (20130520, 874681);
  (20130521, 859344); (20130522, 844135); (20130523, 829814); (20130524, 817119); (20130525, 805181); (20130526, 794325); (20130527, 784968); (20130528, 776036);
  (20130529, 766822); (20130530, 757515); (20130531, 748157); (20130601, 739657); (20130602, 732150); (20130603, 725063); (20130604, 719077); (20130605, 714164);
  (20130606, 710478); (20130607, 707807); (20130608, 706302); (20130609, 705272); (20130610, 704108); (20130611, 702382); (20130612, 699931); (20130613, 696368);
  (20130614, 691516); (20130615, 684908); (20130616, 676997); (20130617, 669085); (20130618, 661099); (20130619, 652706); (20130620, 644819); (20130621, 637749);
  (20130622, 631586); (20130623, 625930); (20130624, 620134); (20130625, 613647); (20130626, 606340); (20130627, 598371); (20130628, 590462); (20130629, 583264);
  (20130630, 577434); (20130701, 573555); (20130702, 571643); (20130703, 571541); (20130704, 573059); (20130705, 575760); (20130706, 579190); (20130707, 582998);
  (20130708, 585873); (20130709, 587691); (20130710, 588261); (20130711, 587462); (20130712, 585307); (20130713, 582181); (20130714, 578244); (20130715, 574029);
  (20130716, 569745); (20130717, 565401); (20130718, 561690); (20130719, 558747); (20130720, 556450); (20130721, 554100); (20130722, 551500); (20130723, 547788);
  (20130724, 542736); (20130725, 536557); (20130726, 530040); (20130727, 523629); (20130728, 518137); (20130729, 513906); (20130730, 511034); (20130731, 509457);
  (20130801, 508848); (20130802, 508783); (20130803, 508340); (20130804, 507491); (20130805, 507629); (20130806, 507483); (20130807, 505603); (20130808, 502464);
  (20130809, 498354); (20130810, 493279); (20130811, 487762); (20130812, 482574); (20130813, 477935); (20130814, 473992); (20130815, 470576); (20130816, 467511);
  (20130817, 464336); (20130818, 460411); (20130819, 454580); (20130820, 446897); (20130821, 438471); (20130822, 429590); (20130823, 420853); (20130824, 412694);
  (20130825, 405769); (20130826, 399921); (20130827, 395351); (20130828, 391671); (20130829, 388828); (20130830, 386808); (20130831, 384740); (20130901, 382110);
  (20130902, 378712); (20130903, 374043); (20130904, 367986); (20130905, 360415); (20130906, 351753); (20130907, 342211); (20130908, 332465); (20130909, 323482);
  (20130910, 315186); (20130911, 307669); (20130912, 301115); (20130913, 294810); (20130914, 288014); (20130915, 280076); (20130916, 270598); (20130917, 259398);
  (20130918, 246687); (20130919, 233110); (20130920, 219582); (20130921, 207271); (20130922, 196382); (20130923, 186897); (20130924, 178128); (20130925, 169732);
  (20130926, 161882); (20130927, 154469); (20130928, 147489); (20130929, 140103); (20130930, 131784); (20131001, 122339); (20131002, 111900); (20131003, 100165);
  (20131004, 87955); (20131005, 75035); (20131006, 62059); (20131007, 49334); (20131008, 37325); (20131009, 25652); (20131010, 14458); (20131011, 3789);
  (20131012, -7375); (20131013, -19565); (20131014, -32686); (20131015, -47081); (20131016, -62269); (20131017, -77680); (20131018, -92482); (20131019, -105862);
  (20131020, -117699); (20131021, -127666); (20131022, -136356); (20131023, -144408); (20131024, -152294); (20131025, -160484); (20131026, -169963); (20131027, -180690);
  (20131028, -192767); (20131029, -206140); (20131030, -220581); (20131031, -235858); (20131101, -250817); (20131102, -265327); (20131103, -278886); (20131104, -292512);
  (20131105, -305387); (20131106, -317349); (20131107, -328871); (20131108, -340353); (20131109, -352053); (20131110, -364604); (20131111, -378139); (20131112, -392264);
  (20131113, -407182); (20131114, -421982); (20131115, -435577); (20131116, -447834); (20131117, -458832); (20131118, -468825); (20131119, -478077); (20131120, -486815);
  (20131121, -495622); (20131122, -504540); (20131123, -514536); (20131124, -525633); (20131125, -537420); (20131126, -550095); (20131127, -563689); (20131128, -577935);
  (20131129, -592413); (20131130, -606331); (20131201, -619990); (20131202, -632772); (20131203, -644756); (20131204, -656209); (20131205, -667769); (20131206, -679634);
  (20131207, -692558); (20131208, -706430); (20131209, -720747); (20131210, -734639); (20131211, -747629); (20131212, -759614); (20131213, -770606); (20131214, -780468);
  (20131215, -788703); (20131216, -796080); (20131217, -802390); (20131218, -808494); (20131219, -814842); (20131220, -821956); (20131221, -830511); (20131222, -840450);
  (20131223, -851666); (20131224, -864052); (20131225, -877381); (20131226, -891304); (20131227, -905397); (20131228, -919746); (20131229, -933653); (20131230, -946525);
  (20131231, -958694); (20140101, -970337); (20140102, -982274); (20140103, -995076); (20140104, -1008557); (20140105, -1022601); (20140106, -1036685); (20140107, -1049943)].
Definition eop_c04_data_19 : list (Z * Z) := [
  (20140108, -1061704); (20140109, -1071902); (20140110, -1080927); (20140111, -1088467); (20140112, -1094693); (20140113, -1100268); (20140114, -1105795); (20140115, -1111660);
  (20140116, -1118310); (20140117, -1126033); (20140118, -1135020); (20140119, -1145585); (20140120, -1157163); (20140121, -1169543); (20140122, -1182385); (20140123, -1195022);
  (20140124, -1207223); (20140125, -1218576); (20140126, -1229218); (20140127, -1238792); (20140128, -1248207); (20140129, -1258202); (20140130, -1269700); (20140131, -1282650);
  (20140201, -1296369); (20140202, -1310635); (20140203, -1324606); (20140204, -1337440); (20140205, -1348497); (20140206, -1357764); (20140207, -1365467); (20140208, -1372258);
  (20140209, -1378255); (20140210, -1383963); (20140211, -1389977); (20140212, -1396740); (20140213, -1404630); (20140214, -1413957); (20140215, -1424475); (20140216, -1436550);
  (20140217, -1449579); (20140218, -1463110); (20140219, -1477017); (20140220, -1490673); (20140221, -1503415); (20140222, -1515516); (20140223, -1526832); (20140224, -1538268);
  (20140225, -1550466); (20140226, -1563948); (20140227, -1579400); (20140228, -1597418); (20140301, -1616862); (20140302, -1636857); (20140303, -1656596); (20140304, -1675271);
  (20140305, -1692341); (20140306, -1707613); (20140307, -1721222); (20140308, -1733613); (20140309, -1744938); (20140310, -1755689); (20140311, -1766179); (20140312, -1776735);
  (20140313, -1787999); (20140314, -1799905); (20140315, -1812187); (20140316, -1825057); (20140317, -1837803); (20140318, -1850332); (20140319, -1862720); (20140320, -1874632);
  (20140321, -1885929); (20140322, -1896888); (20140323, -1908400); (20140324, -1920471); (20140325, -1933412); (20140326, -1947883); (20140327, -1963914); (20140328, -1980908);
  (20140329, -1998624); (20140330, -2016841); (20140331, -2034168); (20140401, -2050033); (20140402, -2064962); (20140403, -2078544); (20140404, -2090911); (20140405, -2102960);
  (20140406, -2115022); (20140407, -2126763); (20140408, -2138595); (20140409, -2150828); (20140410, -2163621); (20140411, -2176827); (20140412, -2190735); (20140413, -2205121);
  (20140414, -2219651); (20140415, -2233979); (20140416, -2247224); (20140417, -2259735); (20140418, -2271611); (20140419, -2283262); (20140420, -2295574); (20140421, -2308630);
  (20140422, -2322999); (20140423, -2338988); (20140424, -2356298); (20140425, -2374814); (20140426, -2394680); (20140427, -2414444); (20140428, -2433097); (20140429, -2450254);
  (20140430, -2465423); (20140501, -2478612); (20140502, -2490457); (20140503, -2501393); (20140504, -2512148); (20140505, -2523558); (20140506, -2535595); (20140507, -2548236);
  (20140508, -2561154); (20140509, -2575214); (20140510, -2589579); (20140511, -2604021); (20140512, -2618058); (20140513, -2631278); (20140514, -2643018); (20140515, -2654058);
  (20140516, -2664370); (20140517, -2674275); (20140518, -2684662); (20140519, -2696226); (20140520, -2708936); (20140521, -2722819); (20140522, -2737383); (20140523, -2752160);
  (20140524, -2766438); (20140525, -2779093); (20140526, -2790022); (20140527, -2799498); (20140528, -2807300); (20140529, -2813422); (20140530, -2818370); (20140531, -2822336);
  (20140601, -2826206); (20140602, -2830270); (20140603, -2834733); (20140604, -2839887); (20140605, -2845746); (20140606, -2852241); (20140607, -2859356); (20140608, -2866940);
  (20140609, -2874275); (20140610, -2881208); (20140611, -2887730); (20140612, -2894124); (20140613, -2900425); (20140614, -2906768); (20140615, -2914131); (20140616, -2922623);
  (20140617, -2932489); (20140618, -2943594); (20140619, -2955342); (20140620, -2966861); (20140621, -2977375); (20140622, -2986676); (20140623, -2994180); (20140624, -2999887);
  (20140625, -3004161); (20140626, -3007143); (20140627, -3008726); (20140628, -3010385); (20140629, -3013155); (20140630, -3015851); (20140701, -3018654); (20140702, -3022527);
  (20140703, -3027059); (20140704, -3032096); (20140705, -3037341); (20140706, -3042797); (20140707, -3047156); (20140708, -3050576); (20140709, -3053481); (20140710, -3056221);
  (20140711, -3059680); (20140712, -3063918); (20140713, -3069513); (20140714, -3076598); (20140715, -3085064); (20140716, -3094238); (20140717, -3103375); (20140718, -3111677);
  (20140719, -3119354); (20140720, -3124358); (20140721, -3127697); (20140722, -3129932); (20140723, -3130876); (20140724, -3131198); (20140725, -3131499); (20140726, -3131883);
  (20140727, -3132543); (20140728, -3134156); (20140729, -3136677); (20140730, -3140392); (20140731, -3144689); (20140801, -3149162); (20140802, -3153203); (20140803, -3156533);
  (20140804, -3159233); (20140805, -3161174); (20140806, -3162285); (20140807, -3162780); (20140808, -3164044); (20140809, -3166652); (20140810, -3170624); (20140811, -3176562);
  (20140812, -3183974); (20140813, -3192193); (20140814, -3200515); (20140815, -3207972); (20140816, -3214559); (20140817, -3219576); (20140818, -3223541); (20140819, -3226677);
  (20140820, -3228809); (20140821, -3230539); (20140822, -3232207); (20140823, -3234365); (20140824, -3236747); (20140825, -3239175); (20140826, -3242071); (20140827, -3246118);
  (20140828, -3250768); (20140829, -3255682); (20140830, -3260948); (20140831, -3265890); (20140901, -3270994); (20140902, -3276173); (20140903, -3281375); (20140904, -3286670);
  (20140905, -3292852); (20140906, -3300561); (20140907, -3309914); (20140908, -3321224); (20140909, -3333936); (20140910, -3346599); (20140911, -3358564); (20140912, -3369194);
  (20140913, -3377903); (20140914, -3385051); (20140915, -3391232); (20140916, -3396788); (20140917, -3402897); (20140918, -3409352); (20140919, -3416136); (20140920, -3423379);
  (20140921, -3430967); (20140922, -3439301); (20140923, -3448281); (20140924, -3457480); (20140925, -3466688); (20140926, -3475647); (20140927, -3483902); (20140928, -3491628);
  (20140929, -3498846); (20140930, -3505708); (20141001, -3512755); (20141002, -3520497); (20141003, -3529360); (20141004, -3540107); (20141005, -3553184); (20141006, -3567588);
  (20141007, -3582977); (20141008, -3599127); (20141009, -3614586); (20141010, -3628154); (20141011, -3639980); (20141012, -3650957); (20141013, -3660750); (20141014, -3669794);
  (20141015, -3678828); (20141016, -3688284); (20141017, -3697731); (20141018, -3707763); (20141019, -3718673); (20141020, -3730523); (20141021, -3742981); (20141022, -3756384);
  (20141023, -3769722); (20141024, -3782630); (20141025, -3794855); (20141026, -3805842); (20141027, -3816063); (20141028, -3825955); (20141029, -3836062); (20141030, -3846781);
  (20141031, -3858199); (20141101, -3871542); (20141102, -3886745); (20141103, -3903258); (20141104, -3920206); (20141105, -3936623); (20141106, -3951827); (20141107, -3965300);
  (20141108, -3977362); (20141109, -3987622); (20141110, -3996631); (20141111, -4005145); (20141112, -4013791); (20141113, -4022790); (20141114, -4032322); (20141115, -4042393);
  (20141116, -4053039); (20141117, -4064685); (20141118, -4076939); (20141119, -4089339); (20141120, -4101584); (20141121, -4113394); (20141122, -4124775); (20141123, -4135328);
  (20141124, -4145335); (20141125, -4155285); (20141126, -4165163); (20141127, -4175848); (20141128, -4187766); (20141129, -4200917); (20141130, -4215179); (20141201, -4230049);
  (20141202, -4244809); (20141203, -4259088); (20141204, -4272337); (20141205, -4284372); (20141206, -4295162); (20141207, -4304906); (20141208, -4314549); (20141209, -4324454);
  (20141210, -4334766); (20141211, -4345643); (20141212, -4357170); (20141213, -4369258); (20141214, -4381561); (20141215, -4394119); (20141216, -4406732); (20141217, -4419626);
  (20141218, -4432143); (20141219, -4443922); (20141220, -4454795); (20141221, -4464599); (20141222, -4473938); (20141223, -4483571); (20141224, -4494026); (20141225, -4506018);
  (20141226, -4519395); (20141227, -4533686); (20141228, -4548790); (20141229, -4563538); (20141230, -4577153); (20141231, -4589078); (20150101, -4599543); (20150102, -4608547);
  (20150103, -4616403); (20150104, -4623373); (20150105, -4629963); (20150106, -4636581); (20150107, -4643704); (20150108, -4651583); (20150109, -4660317); (20150110, -4670556);
  (20150111, -4681815); (20150112, -4692885); (20150113, -4704035); (20150114, -4715393); (20150115, -4726793); (20150116, -4737919); (20150117, -4748877); (20150118, -4759595);
  (20150119, -4770233); (20150120, -4781495); (20150121, -4793960); (20150122, -4808011); (20150123, -4823227); (20150124, -4838844); (20150125, -4854229); (20150126, -4868111);
  (20150127, -4880236); (20150128, -4890647); (20150129, -4899752); (20150130, -4908278); (20150131, -4916578); (20150201, -4925369); (20150202, -4934539); (20150203, -4944347);
  (20150204, -4955093); (20150205, -4966677); (20150206, -4978706); (20150207, -4991359); (20150208, -5004983); (20150209, -5018499); (20150210, -5031573); (20150211, -5043748);
  (20150212, -5055428); (20150213, -5067174); (20150214, -5078755); (20150215, -5090477); (20150216, -5102615); (20150217, -5115845); (20150218, -5130870); (20150219, -5147495);
  (20150220, -5165063); (20150221, -5182588); (20150222, -5199492); (20150223, -5215097); (20150224, -5228816); (20150225, -5240488); (20150226, -5250547); (20150227, -5259535);
  (20150228, -5268047); (20150301, -5276786); (20150302, -5285920); (20150303, -5295616); (20150304, -5306071); (20150305, -5317004); (20150306, -5328650); (20150307, -5340851);
  (20150308, -5353674); (20150309, -5366988); (20150310, -5380452); (20150311, -5394424); (20150312, -5408460); (20150313, -5422526); (20150314, -5436896); (20150315, -5452054);
  (20150316, -5467979); (20150317, -5485410); (20150318, -5504543); (20150319, -5525471); (20150320, -5547657); (20150321, -5570527); (20150322, -5592698); (20150323, -5613431);
  (20150324, -5632364); (20150325, -5650215); (20150326, -5666588); (20150327, -5681223); (20150328, -5695450); (20150329, -5709452); (20150330, -5723159); (20150331, -5736790);
  (20150401, -5750400); (20150402, -5764041); (20150403, -5777184); (20150404, -5789914); (20150405, -5801957); (20150406, -5814340); (20150407, -5826732); (20150408, -5838883);
  (20150409, -5851319); (20150410, -5864009); (20150411, -5877604); (20150412, -5892538); (20150413, -5908875); (20150414, -5926764); (20150415, -5945568); (20150416, -5965329);
  (20150417, -5985428); (20150418, -6004369); (20150419, -6021849); (20150420, -6037249); (20150421, -6050505); (20150422, -6061816); (20150423, -6072056); (20150424, -6082140);
  (20150425, -6092759); (20150426, -6104401); (20150427, -6116831); (20150428, -6129919); (20150429, -6143441); (20150430, -6157300); (20150501, -6171285); (20150502, -6185091);
  (20150503, -6197799); (20150504, -6209594); (20150505, -6220701); (20150506, -6231067); (20150507, -6241126); (20150508, -6251602); (20150509, -6262808); (20150510, -6275273);
  (20150511, -6289633); (20150512, -6305941); (20150513, -6323609); (20150514, -6342359); (20150515, -6361499); (20150516, -6380194); (20150517, -6397679); (20150518, -6413505);
  (20150519, -6427619); (20150520, -6440787); (20150521, -6452950); (20150522, -6464116); (20150523, -6475071); (20150524, -6485679); (20150525, -6495972); (20150526, -6506220);
  (20150527, -6516442); (20150528, -6526740); (20150529, -6536724); (20150530, -6545748); (20150531, -6554604); (20150601, -6562478); (20150602, -6569312); (20150603, -6575803);
  (20150604, -6582044); (20150605, -6588364); (20150606, -6595758); (20150607, -6604105); (20150608, -6613568); (20150609, -6624113); (20150610, -6635178); (20150611, -6645587);
  (20150612, -6655042); (20150613, -6663060); (20150614, -6669671); (20150615, -6674415); (20150616, -6677659); (20150617, -6679851); (20150618, -6681826); (20150619, -6684352);
  (20150620, -6688172); (20150621, -6692903); (20150622, -6698768); (20150623, -6705553); (20150624, -6713150); (20150625, -6721249); (20150626, -6729622); (20150627, -6738120);
  (20150628, -6746323); (20150629, -6753621); (20150630, -6760316); (20150701, 3233730); (20150702, 3227664); (20150703, 3220722); (20150704, 3212454); (20150705, 3202267);
  (20150706, 3190425); (20150707, 3177556); (20150708, 3164239); (20150709, 3151156); (20150710, 3138523); (20150711, 3127139); (20150712, 3118151); (20150713, 3111205);
  (20150714, 3105539); (20150715, 3101367); (20150716, 3097491); (20150717, 3092665); (20150718, 3087877); (20150719, 3083295); (20150720, 3078466); (20150721, 3073386);
  (20150722, 3068129); (20150723, 3062979); (20150724, 3058125); (20150725, 3053051); (20150726, 3048779); (20150727, 3044913); (20150728, 3041009); (20150729, 3037083);
  (20150730, 3032419); (20150731, 3026413); (20150801, 3018647); (20150802, 3008636); (20150803, 2997053); (20150804, 2984615); (20150805, 2972126); (20150806, 2960421);
  (20150807, 2950026); (20150808, 2941224); (20150809, 2933769); (20150810, 2927241); (20150811, 2921203); (20150812, 2915253); (20150813, 2908846); (20150814, 2901864);
  (20150815, 2894182); (20150816, 2886155); (20150817, 2877733); (20150818, 2869278); (20150819, 2861171); (20150820, 2852742); (20150821, 2844624); (20150822, 2836407);
  (20150823, 2828758); (20150824, 2821117); (20150825, 2813070); (20150826, 2804470); (20150827, 2794739); (20150828, 2783470); (20150829, 2770184); (20150830, 2755072);
  (20150831, 2737918); (20150901, 2719870); (20150902, 2701948); (20150903, 2685232); (20150904, 2670339); (20150905, 2657100); (20150906, 2644765); (20150907, 2633555);
  (20150908, 2623086); (20150909, 2612617); (20150910, 2602228); (20150911, 2591434); (20150912, 2579439); (20150913, 2566794); (20150914, 2553711); (20150915, 2540437);
  (20150916, 2527679); (20150917, 2515283); (20150918, 2503235); (20150919, 2491320); (20150920, 2479621); (20150921, 2467769); (20150922, 2455414); (20150923, 2442125);
  (20150924, 2427581); (20150925, 2411888); (20150926, 2393644); (20150927, 2373373); (20150928, 2352195); (20150929, 2331201); (20150930, 2311442); (20151001, 2293614);
  (20151002, 2278130); (20151003, 2264607); (20151004, 2252193); (20151005, 2239927); (20151006, 2227439); (20151007, 2214187); (20151008, 2200277); (20151009, 2186087);
  (20151010, 2170719); (20151011, 2154596); (20151012, 2138063); (20151013, 2121604); (20151014, 2105428); (20151015, 2090434); (20151016, 2076127); (20151017, 2061891);
  (20151018, 2047354); (20151019, 2032274); (20151020, 2016548); (20151021, 2000859); (20151022, 1983957); (20151023, 1965255); (20151024, 1944588); (20151025, 1922366);
  (20151026, 1899316); (20151027, 1876564); (20151028, 1854603); (20151029, 1834430); (20151030, 1816532); (20151031, 1800455); (20151101, 1785271); (20151102, 1770174);
  (20151103, 1755891); (20151104, 1741802); (20151105, 1727222); (20151106, 1712218); (20151107, 1696517); (20151108, 1680337); (20151109, 1664352); (20151110, 1648736);
  (20151111, 1633551); (20151112, 1618895); (20151113, 1604744); (20151114, 1590894); (20151115, 1577298); (20151116, 1563511); (20151117, 1549210); (20151118, 1534481);
  (20151119, 1518866); (20151120, 1502557); (20151121, 1484979); (20151122, 1466954); (20151123, 1448629); (20151124, 1430745); (20151125, 1413786); (20151126, 1398214);
  (20151127, 1383787); (20151128, 1369969); (20151129, 1355960); (20151130, 1341305); (20151201, 1325921); (20151202, 1309918); (20151203, 1293286); (20151204, 1276232);
  (20151205, 1259459); (20151206, 1242876); (20151207, 1226034); (20151208, 1209410); (20151209, 1193057); (20151210, 1177301); (20151211, 1162190); (20151212, 1147890);
  (20151213, 1133847); (20151214, 1119775); (20151215, 1105065); (20151216, 1089304); (20151217, 1072276); (20151218, 1054034); (20151219, 1034897); (20151220, 1014947);
  (20151221, 995085); (20151222, 976170); (20151223, 958869); (20151224, 943447); (20151225, 929084); (20151226, 915019); (20151227, 900897); (20151228, 885825);
  (20151229, 869674); (20151230, 852533); (20151231, 834255); (20160101, 815311); (20160102, 796376); (20160103, 777240); (20160104, 757783); (20160105, 738438);
  (20160106, 719583); (20160107, 701201); (20160108, 683188); (20160109, 665714); (20160110, 648150); (20160111, 629732); (20160112, 610318); (20160113, 589932);
  (20160114, 568475); (20160115, 546433); (20160116, 524926); (20160117, 504060); (20160118, 483894); (20160119, 464968); (20160120, 447528); (20160121, 431234);
  (20160122, 415616); (20160123, 400087); (20160124, 384439); (20160125, 368283); (20160126, 351993); (20160127, 335758); (20160128, 319966); (20160129, 304597);
  (20160130, 289753); (20160131, 275838); (20160201, 262579); (20160202, 249918); (20160203, 237813); (20160204, 225960); (20160205, 213968); (20160206, 201401);
  (20160207, 187401); (20160208, 171296); (20160209, 153150); (20160210, 133295); (20160211, 112354); (20160212, 91523); (20160213, 71486); (20160214, 52577);
  (20160215, 35034); (20160216, 19068); (20160217, 4702); (20160218, -8679); (20160219, -21484); (20160220, -34600); (20160221, -48806); (20160222, -64281);
  (20160223, -80755); (20160224, -97951); (20160225, -115755); (20160226, -134142); (20160227, -152085); (20160228, -169590); (20160229, -186780); (20160301, -203641);
  (20160302, -220462); (20160303, -237308); (20160304, -254463); (20160305, -272269); (20160306, -292061); (20160307, -313092); (20160308, -335557); (20160309, -359172);
  (20160310, -383731); (20160311, -408670); (20160312, -432775); (20160313, -455735); (20160314, -477393); (20160315, -497668); (20160316, -516599); (20160317, -534883);
  (20160318, -552844); (20160319, -571439); (20160320, -590834); (20160321, -611071); (20160322, -631927); (20160323, -652635); (20160324, -673267); (20160325, -693774);
  (20160326, -713853); (20160327, -733848); (20160328, -753197); (20160329, -771721); (20160330, -789646); (20160331, -807077); (20160401, -824550); (20160402, -842540);
  (20160403, -861405); (20160404, -881463); (20160405, -903044); (20160406, -925838); (20160407, -949320); (20160408, -972855); (20160409, -995828); (20160410, -1017106);
  (20160411, -1036653); (20160412, -1054787); (20160413, -1071537); (20160414, -1087588); (20160415, -1103011); (20160416, -1119013); (20160417, -1135368); (20160418, -1152136);
  (20160419, -1169144); (20160420, -1186274); (20160421, -1203189); (20160422, -1219770); (20160423, -1235732); (20160424, -1250957); (20160425, -1265210); (20160426, -1278100);
  (20160427, -1290383); (20160428, -1303342); (20160429, -1317046); (20160430, -1331866); (20160501, -1347965); (20160502, -1365722); (20160503, -1385393); (20160504, -1406800);
  (20160505, -1428769); (20160506, -1450247); (20160507, -1470165); (20160508, -1488460); (20160509, -1505136); (20160510, -1520617); (20160511, -1534782); (20160512, -1548696);
  (20160513, -1562749); (20160514, -1578092); (20160515, -1594537); (20160516, -1611664); (20160517, -1629081); (20160518, -1646480); (20160519, -1662934); (20160520, -1678722);
  (20160521, -1693848); (20160522, -1708410); (20160523, -1723116); (20160524, -1737698); (20160525, -1751318); (20160526, -1764903); (20160527, -1779051); (20160528, -1793940);
  (20160529, -1809659); (20160530, -1827392); (20160531, -1845600); (20160601, -1863750); (20160602, -1882111); (20160603, -1899457); (20160604, -1914782); (20160605, -1928282);
  (20160606, -1940490); (20160607, -1951599); (20160608, -1961923); (20160609, -1971626); (20160610, -1981136); (20160611, -1990544); (20160612, -1999716); (20160613, -2008590);
  (20160614, -2016869); (20160615, -2024258); (20160616, -2030611); (20160617, -2035862); (20160618, -2040250); (20160619, -2043427); (20160620, -2045931); (20160621, -2048291);
  (20160622, -2050920); (20160623, -2054332); (20160624, -2058916); (20160625, -2065099); (20160626, -2073079); (20160627, -2082591); (20160628, -2093096); (20160629, -2104187);
  (20160630, -2114917); (20160701, -2124423); (20160702, -2133267); (20160703, -2140991); (20160704, -2147379); (20160705, -2153134); (20160706, -2158272); (20160707, -2163505);
  (20160708, -2169175); (20160709, -2175113); (20160710, -2181389); (20160711, -2186923); (20160712, -2191498); (20160713, -2195325); (20160714, -2198169); (20160715, -2199981);
  (20160716, -2200469); (20160717, -2200312); (20160718, -2200092); (20160719, -2200025); (20160720, -2200762); (20160721, -2202537); (20160722, -2205521); (20160723, -2209468);
  (20160724, -2214263); (20160725, -2219975); (20160726, -2226051); (20160727, -2232066); (20160728, -2237563); (20160729, -2242657); (20160730, -2246999); (20160731, -2250569);
  (20160801, -2254179); (20160802, -2258422); (20160803, -2263367); (20160804, -2269184); (20160805, -2275668); (20160806, -2282361); (20160807, -2289430); (20160808, -2296771);
  (20160809, -2303774); (20160810, -2310234); (20160811, -2315908); (20160812, -2320766); (20160813, -2324464); (20160814, -2327195); (20160815, -2329880); (20160816, -2333320);
  (20160817, -2338018); (20160818, -2344336); (20160819, -2352444); (20160820, -2362120); (20160821, -2373060); (20160822, -2384478); (20160823, -2395542); (20160824, -2406044);
  (20160825, -2415364); (20160826, -2423422); (20160827, -2430413); (20160828, -2436926); (20160829, -2443096); (20160830, -2449574); (20160831, -2456656); (20160901, -2464483);
  (20160902, -2472901); (20160903, -2481783); (20160904, -2491163); (20160905, -2500960); (20160906, -2510406); (20160907, -2519211); (20160908, -2527417); (20160909, -2535062);
  (20160910, -2541895); (20160911, -2548767); (20160912, -2556014); (20160913, -2564017); (20160914, -2572712); (20160915, -2583016); (20160916, -2595464); (20160917, -2609258);
  (20160918, -2623966); (20160919, -2639124); (20160920, -2653748); (20160921, -2667351); (20160922, -2679718); (20160923, -2691091); (20160924, -2701980); (20160925, -2712536);
  (20160926, -2723677); (20160927, -2735732); (20160928, -2748195); (20160929, -2761407); (20160930, -2775743); (20161001, -2789780); (20161002, -2803389); (20161003, -2816060)].
Definition eop_c04_data_20 : list (Z * Z) := [
  (20161004, -2827870); (20161005, -2838976); (20161006, -2849405); (20161007, -2859351); (20161008, -2868949); (20161009, -2878706); (20161010, -2889343); (20161011, -2901532);
  (20161012, -2915675); (20161013, -2931891); (20161014, -2950153); (20161015, -2970271); (20161016, -2991181); (20161017, -3011669); (20161018, -3030933); (20161019, -3048657);
  (20161020, -3064684); (20161021, -3079124); (20161022, -3093297); (20161023, -3107438); (20161024, -3121565); (20161025, -3135985); (20161026, -3150530); (20161027, -3165269);
  (20161028, -3180064); (20161029, -3195138); (20161030, -3210008); (20161031, -3224372); (20161101, -3238172); (20161102, -3251186); (20161103, -3263755); (20161104, -3276200);
  (20161105, -3288930); (20161106, -3302327); (20161107, -3316843); (20161108, -3332744); (20161109, -3350148); (20161110, -3369164); (20161111, -3389584); (20161112, -3411206);
  (20161113, -3432560); (20161114, -3452691); (20161115, -3471086); (20161116, -3486768); (20161117, -3500638); (20161118, -3513618); (20161119, -3526354); (20161120, -3539512);
  (20161121, -3553472); (20161122, -3568130); (20161123, -3583369); (20161124, -3599070); (20161125, -3614841); (20161126, -3630348); (20161127, -3645165); (20161128, -3659122);
  (20161129, -3672301); (20161130, -3684958); (20161201, -3697168); (20161202, -3709275); (20161203, -3721002); (20161204, -3732960); (20161205, -3746066); (20161206, -3760460);
  (20161207, -3775534); (20161208, -3791758); (20161209, -3809210); (20161210, -3827214); (20161211, -3844930); (20161212, -3861689); (20161213, -3877018); (20161214, -3890412);
  (20161215, -3902622); (20161216, -3914918); (20161217, -3927496); (20161218, -3940176); (20161219, -3952855); (20161220, -3965694); (20161221, -3978541); (20161222, -3991151);
  (20161223, -4003409); (20161224, -4014972); (20161225, -4025647); (20161226, -4035423); (20161227, -4044438); (20161228, -4052887); (20161229, -4060978); (20161230, -4069175);
  (20161231, -4077492); (20170101, 5912977); (20170102, 5901980); (20170103, 5889489); (20170104, 5875560); (20170105, 5860113); (20170106, 5844176); (20170107, 5828289);
  (20170108, 5812971); (20170109, 5798632); (20170110, 5785447); (20170111, 5773226); (20170112, 5761501); (20170113, 5749710); (20170114, 5737486); (20170115, 5724482);
  (20170116, 5710855); (20170117, 5697355); (20170118, 5684687); (20170119, 5672621); (20170120, 5661354); (20170121, 5650772); (20170122, 5640539); (20170123, 5631156);
  (20170124, 5622595); (20170125, 5614608); (20170126, 5606755); (20170127, 5598651); (20170128, 5589886); (20170129, 5579999); (20170130, 5568596); (20170131, 5555742);
  (20170201, 5541788); (20170202, 5527206); (20170203, 5512606); (20170204, 5498336); (20170205, 5484764); (20170206, 5471907); (20170207, 5459617); (20170208, 5447813);
  (20170209, 5435687); (20170210, 5422705); (20170211, 5408616); (20170212, 5393236); (20170213, 5376803); (20170214, 5360022); (20170215, 5343223); (20170216, 5327041);
  (20170217, 5311837); (20170218, 5298432); (20170219, 5286507); (20170220, 5275398); (20170221, 5265701); (20170222, 5256816); (20170223, 5247251); (20170224, 5237032);
  (20170225, 5226220); (20170226, 5214174); (20170227, 5200555); (20170228, 5185559); (20170301, 5169206); (20170302, 5152707); (20170303, 5137386); (20170304, 5122784);
  (20170305, 5108909); (20170306, 5095838); (20170307, 5083262); (20170308, 5070546); (20170309, 5057278); (20170310, 5043303); (20170311, 5028649); (20170312, 5012981);
  (20170313, 4996338); (20170314, 4979534); (20170315, 4963503); (20170316, 4948329); (20170317, 4934113); (20170318, 4921127); (20170319, 4909106); (20170320, 4897700);
  (20170321, 4886539); (20170322, 4875037); (20170323, 4862691); (20170324, 4848670); (20170325, 4833895); (20170326, 4817351); (20170327, 4799358); (20170328, 4780207);
  (20170329, 4760266); (20170330, 4740320); (20170331, 4721706); (20170401, 4704666); (20170402, 4689063); (20170403, 4674913); (20170404, 4661507); (20170405, 4648247);
  (20170406, 4634343); (20170407, 4619097); (20170408, 4603054); (20170409, 4586447); (20170410, 4570130); (20170411, 4554115); (20170412, 4538072); (20170413, 4522472);
  (20170414, 4507197); (20170415, 4492444); (20170416, 4478193); (20170417, 4463842); (20170418, 4449259); (20170419, 4434259); (20170420, 4419414); (20170421, 4403657);
  (20170422, 4386298); (20170423, 4367309); (20170424, 4346461); (20170425, 4324562); (20170426, 4302575); (20170427, 4281606); (20170428, 4262633); (20170429, 4246052);
  (20170430, 4231249); (20170501, 4217257); (20170502, 4203557); (20170503, 4189708); (20170504, 4175587); (20170505, 4160970); (20170506, 4145443); (20170507, 4129179);
  (20170508, 4113774); (20170509, 4099350); (20170510, 4085580); (20170511, 4072740); (20170512, 4060909); (20170513, 4049824); (20170514, 4039607); (20170515, 4029798);
  (20170516, 4019951); (20170517, 4009243); (20170518, 3997859); (20170519, 3985764); (20170520, 3972817); (20170521, 3958681); (20170522, 3942892); (20170523, 3926231);
  (20170524, 3909289); (20170525, 3893134); (20170526, 3878318); (20170527, 3865631); (20170528, 3854661); (20170529, 3844115); (20170530, 3832675); (20170531, 3820383);
  (20170601, 3807131); (20170602, 3793404); (20170603, 3779862); (20170604, 3766834); (20170605, 3754598); (20170606, 3743504); (20170607, 3733798); (20170608, 3725887);
  (20170609, 3719481); (20170610, 3714596); (20170611, 3710437); (20170612, 3706514); (20170613, 3702609); (20170614, 3698380); (20170615, 3693452); (20170616, 3687665);
  (20170617, 3680847); (20170618, 3672999); (20170619, 3664782); (20170620, 3656602); (20170621, 3648458); (20170622, 3641273); (20170623, 3635410); (20170624, 3631326);
  (20170625, 3627390); (20170626, 3623006); (20170627, 3618042); (20170628, 3612434); (20170629, 3606418); (20170630, 3600727); (20170701, 3595126); (20170702, 3589361);
  (20170703, 3584609); (20170704, 3581064); (20170705, 3578547); (20170706, 3576899); (20170707, 3575860); (20170708, 3575080); (20170709, 3574431); (20170710, 3573311);
  (20170711, 3571391); (20170712, 3568049); (20170713, 3563455); (20170714, 3557732); (20170715, 3551376); (20170716, 3545254); (20170717, 3539270); (20170718, 3533529);
  (20170719, 3528581); (20170720, 3524275); (20170721, 3520860); (20170722, 3518093); (20170723, 3515352); (20170724, 3512073); (20170725, 3507753); (20170726, 3501881);
  (20170727, 3495150); (20170728, 3488203); (20170729, 3481523); (20170730, 3475431); (20170731, 3470427); (20170801, 3466598); (20170802, 3464200); (20170803, 3462795);
  (20170804, 3462009); (20170805, 3461365); (20170806, 3459953); (20170807, 3458381); (20170808, 3456227); (20170809, 3452912); (20170810, 3448193); (20170811, 3441755);
  (20170812, 3435062); (20170813, 3428387); (20170814, 3422042); (20170815, 3416548); (20170816, 3412337); (20170817, 3409345); (20170818, 3407294); (20170819, 3405044);
  (20170820, 3403106); (20170821, 3399784); (20170822, 3394944); (20170823, 3390036); (20170824, 3384781); (20170825, 3379075); (20170826, 3374465); (20170827, 3370878);
  (20170828, 3367924); (20170829, 3365842); (20170830, 3364611); (20170831, 3363733); (20170901, 3362970); (20170902, 3361941); (20170903, 3360359); (20170904, 3357933);
  (20170905, 3353965); (20170906, 3348249); (20170907, 3340654); (20170908, 3331719); (20170909, 3322438); (20170910, 3312789); (20170911, 3303711); (20170912, 3295699);
  (20170913, 3289039); (20170914, 3283142); (20170915, 3277308); (20170916, 3271296); (20170917, 3263790); (20170918, 3254469); (20170919, 3243832); (20170920, 3232856);
  (20170921, 3221774); (20170922, 3211052); (20170923, 3201659); (20170924, 3193171); (20170925, 3186011); (20170926, 3180127); (20170927, 3174763); (20170928, 3169636);
  (20170929, 3163823); (20170930, 3157773); (20171001, 3151520); (20171002, 3145029); (20171003, 3137523); (20171004, 3128743); (20171005, 3118597); (20171006, 3107083);
  (20171007, 3095429); (20171008, 3084078); (20171009, 3073780); (20171010, 3064886); (20171011, 3057000); (20171012, 3049588); (20171013, 3041878); (20171014, 3033061);
  (20171015, 3023366); (20171016, 3012098); (20171017, 2999400); (20171018, 2985802); (20171019, 2971914); (20171020, 2958171); (20171021, 2945597); (20171022, 2933902);
  (20171023, 2923027); (20171024, 2913105); (20171025, 2904360); (20171026, 2896147); (20171027, 2887939); (20171028, 2879459); (20171029, 2869850); (20171030, 2859308);
  (20171031, 2847593); (20171101, 2834260); (20171102, 2819666); (20171103, 2804309); (20171104, 2788424); (20171105, 2773391); (20171106, 2760567); (20171107, 2749413);
  (20171108, 2738988); (20171109, 2728644); (20171110, 2717606); (20171111, 2705042); (20171112, 2691669); (20171113, 2677576); (20171114, 2663008); (20171115, 2648310);
  (20171116, 2634238); (20171117, 2621434); (20171118, 2610143); (20171119, 2599935); (20171120, 2591342); (20171121, 2584099); (20171122, 2577664); (20171123, 2571255);
  (20171124, 2564500); (20171125, 2557083); (20171126, 2548803); (20171127, 2539082); (20171128, 2527766); (20171129, 2514787); (20171130, 2500223); (20171201, 2485146);
  (20171202, 2469845); (20171203, 2455790); (20171204, 2442675); (20171205, 2430519); (20171206, 2418883); (20171207, 2406610); (20171208, 2393921); (20171209, 2380590);
  (20171210, 2366194); (20171211, 2351531); (20171212, 2337292); (20171213, 2323789); (20171214, 2311805); (20171215, 2301449); (20171216, 2292828); (20171217, 2285224);
  (20171218, 2279421); (20171219, 2274388); (20171220, 2269498); (20171221, 2263773); (20171222, 2258219); (20171223, 2252380); (20171224, 2245258); (20171225, 2236718);
  (20171226, 2226951); (20171227, 2216122); (20171228, 2204482); (20171229, 2192942); (20171230, 2182464); (20171231, 2172353); (20180101, 2163654); (20180102, 2156078);
  (20180103, 2148691); (20180104, 2140616); (20180105, 2131861); (20180106, 2122905); (20180107, 2114201); (20180108, 2106218); (20180109, 2099302); (20180110, 2093475);
  (20180111, 2088731); (20180112, 2085075); (20180113, 2082775); (20180114, 2081607); (20180115, 2081094); (20180116, 2080798); (20180117, 2080186); (20180118, 2078912);
  (20180119, 2076636); (20180120, 2073080); (20180121, 2067994); (20180122, 2061278); (20180123, 2053153); (20180124, 2044009); (20180125, 2034218); (20180126, 2024259);
  (20180127, 2014710); (20180128, 2005689); (20180129, 1996857); (20180130, 1987616); (20180131, 1977227); (20180201, 1965069); (20180202, 1950929); (20180203, 1935028);
  (20180204, 1918164); (20180205, 1901389); (20180206, 1885561); (20180207, 1871202); (20180208, 1858660); (20180209, 1847954); (20180210, 1839041); (20180211, 1831267);
  (20180212, 1823799); (20180213, 1816279); (20180214, 1808512); (20180215, 1800285); (20180216, 1791409); (20180217, 1781745); (20180218, 1771163); (20180219, 1759756);
  (20180220, 1747959); (20180221, 1736372); (20180222, 1725392); (20180223, 1715292); (20180224, 1706169); (20180225, 1697908); (20180226, 1690150); (20180227, 1682352);
  (20180228, 1673848); (20180301, 1664040); (20180302, 1652728); (20180303, 1640424); (20180304, 1627918); (20180305, 1615893); (20180306, 1604864); (20180307, 1594963);
  (20180308, 1586161); (20180309, 1578248); (20180310, 1570935); (20180311, 1563865); (20180312, 1556864); (20180313, 1549527); (20180314, 1541281); (20180315, 1532194);
  (20180316, 1522313); (20180317, 1511761); (20180318, 1500468); (20180319, 1488428); (20180320, 1475917); (20180321, 1463366); (20180322, 1451449); (20180323, 1440622);
  (20180324, 1430972); (20180325, 1422092); (20180326, 1413379); (20180327, 1404065); (20180328, 1393347); (20180329, 1381541); (20180330, 1368509); (20180331, 1354288);
  (20180401, 1340372); (20180402, 1327228); (20180403, 1315290); (20180404, 1304899); (20180405, 1296118); (20180406, 1288635); (20180407, 1281968); (20180408, 1275568);
  (20180409, 1268920); (20180410, 1261868); (20180411, 1254467); (20180412, 1246552); (20180413, 1237615); (20180414, 1227404); (20180415, 1215701); (20180416, 1202380);
  (20180417, 1188655); (20180418, 1176157); (20180419, 1164865); (20180420, 1154525); (20180421, 1144821); (20180422, 1135260); (20180423, 1125234); (20180424, 1113951);
  (20180425, 1100992); (20180426, 1086636); (20180427, 1071450); (20180428, 1055951); (20180429, 1041191); (20180430, 1028034); (20180501, 1016513); (20180502, 1006354);
  (20180503, 997424); (20180504, 989734); (20180505, 982642); (20180506, 976011); (20180507, 969513); (20180508, 962777); (20180509, 955178); (20180510, 946444);
  (20180511, 936809); (20180512, 926207); (20180513, 915097); (20180514, 904261); (20180515, 894081); (20180516, 885287); (20180517, 877927); (20180518, 871846);
  (20180519, 866198); (20180520, 860403); (20180521, 854020); (20180522, 846313); (20180523, 837199); (20180524, 826952); (20180525, 816500); (20180526, 806253);
  (20180527, 796856); (20180528, 788342); (20180529, 781916); (20180530, 777028); (20180531, 773029); (20180601, 769859); (20180602, 766843); (20180603, 763717);
  (20180604, 760220); (20180605, 756060); (20180606, 751102); (20180607, 744992); (20180608, 737808); (20180609, 729647); (20180610, 720932); (20180611, 712602);
  (20180612, 705446); (20180613, 699876); (20180614, 695863); (20180615, 693087); (20180616, 690922); (20180617, 688800); (20180618, 685978); (20180619, 682100);
  (20180620, 677780); (20180621, 673423); (20180622, 669892); (20180623, 668460); (20180624, 669409); (20180625, 671880); (20180626, 675349); (20180627, 680172);
  (20180628, 686157); (20180629, 692978); (20180630, 699969); (20180701, 706673); (20180702, 712428); (20180703, 716877); (20180704, 720020); (20180705, 722155);
  (20180706, 723399); (20180707, 723312); (20180708, 722035); (20180709, 720414); (20180710, 718882); (20180711, 717859); (20180712, 717594); (20180713, 717762);
  (20180714, 717853); (20180715, 716902); (20180716, 714208); (20180717, 709820); (20180718, 704302); (20180719, 698823); (20180720, 694402); (20180721, 691558);
  (20180722, 690418); (20180723, 690641); (20180724, 691774); (20180725, 693378); (20180726, 695047); (20180727, 696524); (20180728, 698066); (20180729, 699385);
  (20180730, 699910); (20180731, 699410); (20180801, 697827); (20180802, 695405); (20180803, 692490); (20180804, 689270); (20180805, 686353); (20180806, 684321);
  (20180807, 683256); (20180808, 683069); (20180809, 682933); (20180810, 682018); (20180811, 679453); (20180812, 675175); (20180813, 669514); (20180814, 663162);
  (20180815, 657262); (20180816, 651953); (20180817, 647660); (20180818, 644980); (20180819, 644053); (20180820, 644261); (20180821, 645243); (20180822, 646862);
  (20180823, 648586); (20180824, 650048); (20180825, 651013); (20180826, 651186); (20180827, 650147); (20180828, 647918); (20180829, 644813); (20180830, 641044);
  (20180831, 636996); (20180901, 633163); (20180902, 629941); (20180903, 627594); (20180904, 626152); (20180905, 625141); (20180906, 623951); (20180907, 621697);
  (20180908, 617750); (20180909, 611591); (20180910, 603230); (20180911, 593573); (20180912, 583947); (20180913, 575376); (20180914, 568606); (20180915, 563961);
  (20180916, 561269); (20180917, 559831); (20180918, 559101); (20180919, 558825); (20180920, 558190); (20180921, 556640); (20180922, 553655); (20180923, 549109);
  (20180924, 543066); (20180925, 535719); (20180926, 527362); (20180927, 518376); (20180928, 509139); (20180929, 500141); (20180930, 491808); (20181001, 484320);
  (20181002, 477521); (20181003, 470980); (20181004, 463869); (20181005, 455337); (20181006, 444666); (20181007, 431936); (20181008, 417907); (20181009, 403497);
  (20181010, 389687); (20181011, 377295); (20181012, 366742); (20181013, 357993); (20181014, 350913); (20181015, 345237); (20181016, 340535); (20181017, 336228);
  (20181018, 331706); (20181019, 326354); (20181020, 319874); (20181021, 311912); (20181022, 302229); (20181023, 290990); (20181024, 278631); (20181025, 265748);
  (20181026, 253051); (20181027, 241148); (20181028, 230447); (20181029, 220904); (20181030, 212105); (20181031, 203477); (20181101, 194049); (20181102, 183388);
  (20181103, 171490); (20181104, 159215); (20181105, 146529); (20181106, 134069); (20181107, 122412); (20181108, 111876); (20181109, 102529); (20181110, 94525);
  (20181111, 87502); (20181112, 80933); (20181113, 74412); (20181114, 67457); (20181115, 59726); (20181116, 50997); (20181117, 41430); (20181118, 30788);
  (20181119, 18622); (20181120, 5233); (20181121, -8724); (20181122, -22440); (20181123, -35499); (20181124, -47834); (20181125, -58934); (20181126, -68777);
  (20181127, -78373); (20181128, -88268); (20181129, -99233); (20181130, -111364); (20181201, -124404); (20181202, -137573); (20181203, -150086); (20181204, -161171);
  (20181205, -170051); (20181206, -176993); (20181207, -182430); (20181208, -187018); (20181209, -191110); (20181210, -194946); (20181211, -198879); (20181212, -203412);
  (20181213, -208707); (20181214, -214888); (20181215, -221963); (20181216, -230150); (20181217, -239543); (20181218, -249722); (20181219, -259807); (20181220, -268884);
  (20181221, -276359); (20181222, -282166); (20181223, -286836); (20181224, -291417); (20181225, -296751); (20181226, -302990); (20181227, -310764); (20181228, -320059);
  (20181229, -330198); (20181230, -340678); (20181231, -351611); (20190101, -361345); (20190102, -370076); (20190103, -377478); (20190104, -382792); (20190105, -387496);
  (20190106, -391547); (20190107, -394760); (20190108, -397729); (20190109, -401419); (20190110, -405867); (20190111, -410933); (20190112, -417183); (20190113, -424490);
  (20190114, -432643); (20190115, -441419); (20190116, -450371); (20190117, -459084); (20190118, -467215); (20190119, -474810); (20190120, -482192); (20190121, -490001);
  (20190122, -499002); (20190123, -509753); (20190124, -522360); (20190125, -536317); (20190126, -550842); (20190127, -565001); (20190128, -577925); (20190129, -589106);
  (20190130, -598406); (20190131, -605800); (20190201, -611621); (20190202, -616373); (20190203, -620986); (20190204, -626460); (20190205, -633149); (20190206, -640945);
  (20190207, -649870); (20190208, -659817); (20190209, -670693); (20190210, -682263); (20190211, -694157); (20190212, -706131); (20190213, -717962); (20190214, -729229);
  (20190215, -739690); (20190216, -749476); (20190217, -759113); (20190218, -769283); (20190219, -781012); (20190220, -794595); (20190221, -809464); (20190222, -824905);
  (20190223, -840100); (20190224, -853945); (20190225, -865600); (20190226, -874895); (20190227, -882138); (20190228, -887866); (20190301, -892695); (20190302, -897285);
  (20190303, -902115); (20190304, -907359); (20190305, -913366); (20190306, -920497); (20190307, -928815); (20190308, -938209); (20190309, -948250); (20190310, -958689);
  (20190311, -969307); (20190312, -979533); (20190313, -988761); (20190314, -997021); (20190315, -1004688); (20190316, -1012581); (20190317, -1021314); (20190318, -1031393);
  (20190319, -1043490); (20190320, -1057537); (20190321, -1073331); (20190322, -1090042); (20190323, -1106258); (20190324, -1121099); (20190325, -1133803); (20190326, -1144432);
  (20190327, -1153100); (20190328, -1160950); (20190329, -1168183); (20190330, -1175404); (20190331, -1183133); (20190401, -1191791); (20190402, -1201631); (20190403, -1212445);
  (20190404, -1224765); (20190405, -1237650); (20190406, -1250294); (20190407, -1263223); (20190408, -1275976); (20190409, -1287589); (20190410, -1297840); (20190411, -1307304);
  (20190412, -1314543); (20190413, -1322260); (20190414, -1330707); (20190415, -1340708); (20190416, -1352472); (20190417, -1365967); (20190418, -1380786); (20190419, -1394963);
  (20190420, -1408141); (20190421, -1419326); (20190422, -1427672); (20190423, -1433845); (20190424, -1440057); (20190425, -1444919); (20190426, -1449987); (20190427, -1455687);
  (20190428, -1461789); (20190429, -1468502); (20190430, -1476395); (20190501, -1485556); (20190502, -1496023); (20190503, -1506622); (20190504, -1516396); (20190505, -1525399);
  (20190506, -1533570); (20190507, -1540793); (20190508, -1547104); (20190509, -1552848); (20190510, -1558351); (20190511, -1564141); (20190512, -1571147); (20190513, -1579536);
  (20190514, -1589774); (20190515, -1601841); (20190516, -1614640); (20190517, -1627193); (20190518, -1637982); (20190519, -1646108); (20190520, -1652087); (20190521, -1656005);
  (20190522, -1658605); (20190523, -1660855); (20190524, -1663191); (20190525, -1665911); (20190526, -1669195); (20190527, -1673156); (20190528, -1677794); (20190529, -1683015);
  (20190530, -1688666); (20190531, -1694735); (20190601, -1700445); (20190602, -1705907); (20190603, -1709787); (20190604, -1712318); (20190605, -1714035); (20190606, -1715420);
  (20190607, -1716602); (20190608, -1718378); (20190609, -1721356); (20190610, -1725999); (20190611, -1732075); (20190612, -1738778); (20190613, -1744966); (20190614, -1750200);
  (20190615, -1753572); (20190616, -1754768); (20190617, -1753998); (20190618, -1752467); (20190619, -1750128); (20190620, -1747707); (20190621, -1745848); (20190622, -1744462);
  (20190623, -1743743); (20190624, -1743632); (20190625, -1744216); (20190626, -1744781); (20190627, -1745257); (20190628, -1745566); (20190629, -1745339); (20190630, -1744325)].
Definition eop_c04_data_21 : list (Z * Z) := [
  (20190701, -1741775); (20190702, -1738182); (20190703, -1733282); (20190704, -1727712); (20190705, -1722981); (20190706, -1719953); (20190707, -1719175); (20190708, -1719241);
  (20190709, -1720129); (20190710, -1720373); (20190711, -1720134); (20190712, -1717954); (20190713, -1713282); (20190714, -1706787); (20190715, -1698085); (20190716, -1688618);
  (20190717, -1679382); (20190718, -1670432); (20190719, -1662851); (20190720, -1656322); (20190721, -1651379); (20190722, -1646548); (20190723, -1642195); (20190724, -1638659);
  (20190725, -1635104); (20190726, -1631804); (20190727, -1627645); (20190728, -1623692); (20190729, -1618353); (20190730, -1612463); (20190731, -1606707); (20190801, -1602267);
  (20190802, -1598692); (20190803, -1597619); (20190804, -1598705); (20190805, -1601388); (20190806, -1604604); (20190807, -1606720); (20190808, -1606950); (20190809, -1605177);
  (20190810, -1600900); (20190811, -1595070); (20190812, -1588184); (20190813, -1580556); (20190814, -1573339); (20190815, -1567325); (20190816, -1562758); (20190817, -1558223);
  (20190818, -1555081); (20190819, -1552168); (20190820, -1549961); (20190821, -1548084); (20190822, -1546673); (20190823, -1545252); (20190824, -1543575); (20190825, -1540886);
  (20190826, -1537159); (20190827, -1533169); (20190828, -1529938); (20190829, -1528093); (20190830, -1528582); (20190831, -1531164); (20190901, -1536230); (20190902, -1542362);
  (20190903, -1548126); (20190904, -1552653); (20190905, -1555174); (20190906, -1555427); (20190907, -1553511); (20190908, -1551104); (20190909, -1547174); (20190910, -1543020);
  (20190911, -1539400); (20190912, -1535993); (20190913, -1533809); (20190914, -1532910); (20190915, -1533171); (20190916, -1533320); (20190917, -1533303); (20190918, -1532853);
  (20190919, -1531654); (20190920, -1529207); (20190921, -1525495); (20190922, -1521046); (20190923, -1516530); (20190924, -1512166); (20190925, -1508992); (20190926, -1508833);
  (20190927, -1512096); (20190928, -1518123); (20190929, -1525147); (20190930, -1532049); (20191001, -1537485); (20191002, -1539883); (20191003, -1539122); (20191004, -1536855);
  (20191005, -1532978); (20191006, -1528333); (20191007, -1523685); (20191008, -1519645); (20191009, -1516533); (20191010, -1514464); (20191011, -1513803); (20191012, -1514616);
  (20191013, -1516517); (20191014, -1519120); (20191015, -1522347); (20191016, -1525644); (20191017, -1528796); (20191018, -1531347); (20191019, -1533264); (20191020, -1534304);
  (20191021, -1535058); (20191022, -1536109); (20191023, -1538184); (20191024, -1542370); (20191025, -1549127); (20191026, -1558032); (20191027, -1568092); (20191028, -1577255);
  (20191029, -1584554); (20191030, -1589241); (20191031, -1591501); (20191101, -1592044); (20191102, -1591866); (20191103, -1591777); (20191104, -1591947); (20191105, -1592855);
  (20191106, -1594469); (20191107, -1597681); (20191108, -1602407); (20191109, -1608634); (20191110, -1615582); (20191111, -1622553); (20191112, -1629060); (20191113, -1634446);
  (20191114, -1639043); (20191115, -1641959); (20191116, -1643655); (20191117, -1644541); (20191118, -1645155); (20191119, -1646594); (20191120, -1650117); (20191121, -1655856);
  (20191122, -1663474); (20191123, -1672098); (20191124, -1680987); (20191125, -1688806); (20191126, -1694679); (20191127, -1698161); (20191128, -1699512); (20191129, -1700093);
  (20191130, -1700295); (20191201, -1700083); (20191202, -1700652); (20191203, -1702069); (20191204, -1704075); (20191205, -1706831); (20191206, -1710324); (20191207, -1714476);
  (20191208, -1718773); (20191209, -1722563); (20191210, -1725299); (20191211, -1726501); (20191212, -1726192); (20191213, -1724695); (20191214, -1722776); (20191215, -1721003);
  (20191216, -1719915); (20191217, -1720193); (20191218, -1722457); (20191219, -1727030); (20191220, -1733419); (20191221, -1740825); (20191222, -1748044); (20191223, -1753803);
  (20191224, -1757728); (20191225, -1760220); (20191226, -1761523); (20191227, -1762143); (20191228, -1762581); (20191229, -1763377); (20191230, -1764974); (20191231, -1767593);
  (20200101, -1771222); (20200102, -1775806); (20200103, -1781029); (20200104, -1786507); (20200105, -1791377); (20200106, -1794674); (20200107, -1796058); (20200108, -1795597);
  (20200109, -1793746); (20200110, -1791201); (20200111, -1788961); (20200112, -1788057); (20200113, -1789353); (20200114, -1793255); (20200115, -1799543); (20200116, -1807846);
  (20200117, -1817437); (20200118, -1827608); (20200119, -1837339); (20200120, -1845425); (20200121, -1852307); (20200122, -1857979); (20200123, -1861858); (20200124, -1864849);
  (20200125, -1867979); (20200126, -1871882); (20200127, -1876943); (20200128, -1883290); (20200129, -1890559); (20200130, -1898028); (20200131, -1905245); (20200201, -1911699);
  (20200202, -1917194); (20200203, -1921721); (20200204, -1925141); (20200205, -1927412); (20200206, -1928644); (20200207, -1929351); (20200208, -1930242); (20200209, -1932662);
  (20200210, -1937899); (20200211, -1945859); (20200212, -1955386); (20200213, -1965300); (20200214, -1974312); (20200215, -1981377); (20200216, -1986185); (20200217, -1989191);
  (20200218, -1990725); (20200219, -1991016); (20200220, -1991206); (20200221, -1992279); (20200222, -1995108); (20200223, -1999703); (20200224, -2005609); (20200225, -2012484);
  (20200226, -2019948); (20200227, -2027642); (20200228, -2035270); (20200229, -2042647); (20200301, -2049580); (20200302, -2055930); (20200303, -2061635); (20200304, -2066763);
  (20200305, -2071658); (20200306, -2076964); (20200307, -2083559); (20200308, -2092279); (20200309, -2103544); (20200310, -2117167); (20200311, -2132290); (20200312, -2147503);
  (20200313, -2161386); (20200314, -2172921); (20200315, -2181787); (20200316, -2188244); (20200317, -2192893); (20200318, -2196482); (20200319, -2199551); (20200320, -2202542);
  (20200321, -2205675); (20200322, -2209353); (20200323, -2213969); (20200324, -2219350); (20200325, -2224998); (20200326, -2230571); (20200327, -2235761); (20200328, -2240329);
  (20200329, -2244108); (20200330, -2247096); (20200331, -2249477); (20200401, -2251625); (20200402, -2254211); (20200403, -2258088); (20200404, -2264201); (20200405, -2273265);
  (20200406, -2285432); (20200407, -2300159); (20200408, -2316246); (20200409, -2332083); (20200410, -2346158); (20200411, -2357568); (20200412, -2366150); (20200413, -2372105);
  (20200414, -2375994); (20200415, -2378589); (20200416, -2380460); (20200417, -2382560); (20200418, -2385852); (20200419, -2390202); (20200420, -2395002); (20200421, -2399975);
  (20200422, -2405026); (20200423, -2409715); (20200424, -2413900); (20200425, -2416852); (20200426, -2418475); (20200427, -2419828); (20200428, -2420713); (20200429, -2421323);
  (20200430, -2422391); (20200501, -2424745); (20200502, -2429170); (20200503, -2436308); (20200504, -2445748); (20200505, -2456700); (20200506, -2468040); (20200507, -2478448);
  (20200508, -2486936); (20200509, -2493145); (20200510, -2497270); (20200511, -2499850); (20200512, -2501641); (20200513, -2503571); (20200514, -2505619); (20200515, -2507604);
  (20200516, -2510803); (20200517, -2514781); (20200518, -2520116); (20200519, -2526084); (20200520, -2531595); (20200521, -2536215); (20200522, -2539584); (20200523, -2541455);
  (20200524, -2541522); (20200525, -2540079); (20200526, -2538363); (20200527, -2536837); (20200528, -2535569); (20200529, -2535459); (20200530, -2537140); (20200531, -2540926);
  (20200601, -2546428); (20200602, -2552636); (20200603, -2558111); (20200604, -2561433); (20200605, -2562125); (20200606, -2560362); (20200607, -2556732); (20200608, -2551905);
  (20200609, -2546373); (20200610, -2540253); (20200611, -2533824); (20200612, -2527082); (20200613, -2520923); (20200614, -2515698); (20200615, -2511455); (20200616, -2507551);
  (20200617, -2502728); (20200618, -2496915); (20200619, -2490204); (20200620, -2481020); (20200621, -2470621); (20200622, -2459006); (20200623, -2447075); (20200624, -2435776);
  (20200625, -2426081); (20200626, -2418658); (20200627, -2413584); (20200628, -2410263); (20200629, -2408089); (20200630, -2405730); (20200701, -2401540); (20200702, -2394930);
  (20200703, -2386042); (20200704, -2374976); (20200705, -2362157); (20200706, -2348932); (20200707, -2336113); (20200708, -2324088); (20200709, -2312898); (20200710, -2302231);
  (20200711, -2292534); (20200712, -2282505); (20200713, -2272025); (20200714, -2261191); (20200715, -2249892); (20200716, -2237845); (20200717, -2224785); (20200718, -2211074);
  (20200719, -2196918); (20200720, -2182373); (20200721, -2168640); (20200722, -2156688); (20200723, -2147063); (20200724, -2139791); (20200725, -2134367); (20200726, -2129757);
  (20200727, -2124662); (20200728, -2118373); (20200729, -2110818); (20200730, -2101850); (20200731, -2091724); (20200801, -2081196); (20200802, -2070472); (20200803, -2060676);
  (20200804, -2052248); (20200805, -2044963); (20200806, -2038968); (20200807, -2034232); (20200808, -2030598); (20200809, -2027319); (20200810, -2023438); (20200811, -2018452);
  (20200812, -2012087); (20200813, -2004326); (20200814, -1995089); (20200815, -1984422); (20200816, -1972937); (20200817, -1961824); (20200818, -1951499); (20200819, -1942910);
  (20200820, -1936905); (20200821, -1933538); (20200822, -1932222); (20200823, -1931667); (20200824, -1930381); (20200825, -1927121); (20200826, -1921170); (20200827, -1912433);
  (20200828, -1901406); (20200829, -1888889); (20200830, -1876041); (20200831, -1864039); (20200901, -1853447); (20200902, -1844359); (20200903, -1836718); (20200904, -1830210);
  (20200905, -1824364); (20200906, -1818721); (20200907, -1812925); (20200908, -1806562); (20200909, -1799467); (20200910, -1791721); (20200911, -1783511); (20200912, -1775178);
  (20200913, -1767408); (20200914, -1761147); (20200915, -1757085); (20200916, -1755535); (20200917, -1756637); (20200918, -1759844); (20200919, -1764092); (20200920, -1767967);
  (20200921, -1770190); (20200922, -1770237); (20200923, -1768324); (20200924, -1764820); (20200925, -1760287); (20200926, -1755265); (20200927, -1750164); (20200928, -1745224);
  (20200929, -1740769); (20200930, -1737113); (20201001, -1734352); (20201002, -1732413); (20201003, -1731044); (20201004, -1729735); (20201005, -1727946); (20201006, -1725157);
  (20201007, -1720944); (20201008, -1715545); (20201009, -1709438); (20201010, -1703470); (20201011, -1698266); (20201012, -1694229); (20201013, -1692873); (20201014, -1694783);
  (20201015, -1699480); (20201016, -1706403); (20201017, -1714530); (20201018, -1722056); (20201019, -1727351); (20201020, -1730135); (20201021, -1731105); (20201022, -1731120);
  (20201023, -1731129); (20201024, -1731915); (20201025, -1733234); (20201026, -1735104); (20201027, -1737708); (20201028, -1741049); (20201029, -1744617); (20201030, -1747434);
  (20201031, -1750666); (20201101, -1753208); (20201102, -1754892); (20201103, -1755506); (20201104, -1755009); (20201105, -1753222); (20201106, -1750506); (20201107, -1747265);
  (20201108, -1745355); (20201109, -1745810); (20201110, -1748950); (20201111, -1754908); (20201112, -1762784); (20201113, -1771548); (20201114, -1779689); (20201115, -1786182);
  (20201116, -1790137); (20201117, -1791225); (20201118, -1790233); (20201119, -1787553); (20201120, -1784481); (20201121, -1781848); (20201122, -1780687); (20201123, -1781330);
  (20201124, -1783447); (20201125, -1786339); (20201126, -1789614); (20201127, -1791698); (20201128, -1793065); (20201129, -1792998); (20201130, -1792037); (20201201, -1790069);
  (20201202, -1787175); (20201203, -1783211); (20201204, -1779212); (20201205, -1776326); (20201206, -1775418); (20201207, -1776428); (20201208, -1779633); (20201209, -1785100);
  (20201210, -1791348); (20201211, -1797372); (20201212, -1801889); (20201213, -1803980); (20201214, -1803677); (20201215, -1801153); (20201216, -1797032); (20201217, -1792128);
  (20201218, -1787692); (20201219, -1784509); (20201220, -1783092); (20201221, -1782871); (20201222, -1783855); (20201223, -1785628); (20201224, -1786707); (20201225, -1786670);
  (20201226, -1785195); (20201227, -1782183); (20201228, -1777849); (20201229, -1772430); (20201230, -1766472); (20201231, -1760010); (20210101, -1753710); (20210102, -1748394);
  (20210103, -1744761); (20210104, -1743246); (20210105, -1743819); (20210106, -1746023); (20210107, -1748751); (20210108, -1750757); (20210109, -1750823); (20210110, -1748654);
  (20210111, -1744765); (20210112, -1739724); (20210113, -1734272); (20210114, -1729081); (20210115, -1724606); (20210116, -1721004); (20210117, -1718081); (20210118, -1715790);
  (20210119, -1714126); (20210120, -1712427); (20210121, -1710484); (20210122, -1707975); (20210123, -1704758); (20210124, -1700327); (20210125, -1694247); (20210126, -1687165);
  (20210127, -1680026); (20210128, -1673675); (20210129, -1669073); (20210130, -1666565); (20210131, -1666887); (20210201, -1670204); (20210202, -1675614); (20210203, -1681920);
  (20210204, -1688000); (20210205, -1692802); (20210206, -1696139); (20210207, -1696850); (20210208, -1694924); (20210209, -1693373); (20210210, -1692436); (20210211, -1692657);
  (20210212, -1694090); (20210213, -1697045); (20210214, -1701305); (20210215, -1706473); (20210216, -1711965); (20210217, -1716669); (20210218, -1719511); (20210219, -1720228);
  (20210220, -1719007); (20210221, -1715820); (20210222, -1710795); (20210223, -1704677); (20210224, -1698548); (20210225, -1693475); (20210226, -1690477); (20210227, -1690351);
  (20210228, -1693081); (20210301, -1697877); (20210302, -1703934); (20210303, -1710261); (20210304, -1715540); (20210305, -1718838); (20210306, -1719881); (20210307, -1718731);
  (20210308, -1716080); (20210309, -1713243); (20210310, -1710993); (20210311, -1710012); (20210312, -1710599); (20210313, -1712387); (20210314, -1715574); (20210315, -1719515);
  (20210316, -1722335); (20210317, -1724026); (20210318, -1724204); (20210319, -1722871); (20210320, -1720284); (20210321, -1716900); (20210322, -1713132); (20210323, -1709575);
  (20210324, -1706787); (20210325, -1705313); (20210326, -1705938); (20210327, -1709185); (20210328, -1714942); (20210329, -1722454); (20210330, -1730409); (20210331, -1737315);
  (20210401, -1742201); (20210402, -1744884); (20210403, -1745594); (20210404, -1744710); (20210405, -1744009); (20210406, -1744328); (20210407, -1745974); (20210408, -1748862);
  (20210409, -1752874); (20210410, -1757729); (20210411, -1762939); (20210412, -1767986); (20210413, -1772455); (20210414, -1776055); (20210415, -1778557); (20210416, -1779907);
  (20210417, -1780250); (20210418, -1779868); (20210419, -1779103); (20210420, -1778571); (20210421, -1779160); (20210422, -1781298); (20210423, -1785406); (20210424, -1791390);
  (20210425, -1799364); (20210426, -1809123); (20210427, -1819026); (20210428, -1826964); (20210429, -1831982); (20210430, -1833833); (20210501, -1833089); (20210502, -1830909);
  (20210503, -1827909); (20210504, -1825243); (20210505, -1823978); (20210506, -1824200); (20210507, -1825670); (20210508, -1827886); (20210509, -1830318); (20210510, -1832398);
  (20210511, -1833696); (20210512, -1834050); (20210513, -1833166); (20210514, -1831001); (20210515, -1828031); (20210516, -1824802); (20210517, -1822601); (20210518, -1820734);
  (20210519, -1819842); (20210520, -1821300); (20210521, -1825058); (20210522, -1830591); (20210523, -1837359); (20210524, -1844377); (20210525, -1850358); (20210526, -1854186);
  (20210527, -1855433); (20210528, -1854061); (20210529, -1850586); (20210530, -1846181); (20210531, -1841962); (20210601, -1838763); (20210602, -1837088); (20210603, -1836734);
  (20210604, -1837182); (20210605, -1837435); (20210606, -1837213); (20210607, -1835146); (20210608, -1831307); (20210609, -1825961); (20210610, -1819126); (20210611, -1810931);
  (20210612, -1802017); (20210613, -1792824); (20210614, -1783898); (20210615, -1776041); (20210616, -1769638); (20210617, -1765219); (20210618, -1762920); (20210619, -1762499);
  (20210620, -1762848); (20210621, -1762299); (20210622, -1759694); (20210623, -1754577); (20210624, -1746551); (20210625, -1736026); (20210626, -1723902); (20210627, -1711520);
  (20210628, -1700013); (20210629, -1689979); (20210630, -1681557); (20210701, -1674255); (20210702, -1667352); (20210703, -1660067); (20210704, -1651797); (20210705, -1642095);
  (20210706, -1630892); (20210707, -1618291); (20210708, -1604574); (20210709, -1590228); (20210710, -1575892); (20210711, -1562169); (20210712, -1549674); (20210713, -1538980);
  (20210714, -1530567); (20210715, -1524225); (20210716, -1520045); (20210717, -1517411); (20210718, -1515176); (20210719, -1511975); (20210720, -1507114); (20210721, -1500616);
  (20210722, -1492653); (20210723, -1483896); (20210724, -1475216); (20210725, -1467385); (20210726, -1460743); (20210727, -1455380); (20210728, -1451164); (20210729, -1447485);
  (20210730, -1443684); (20210731, -1439172); (20210801, -1433541); (20210802, -1426563); (20210803, -1418281); (20210804, -1408819); (20210805, -1398588); (20210806, -1388293);
  (20210807, -1377997); (20210808, -1367543); (20210809, -1358220); (20210810, -1350686); (20210811, -1345085); (20210812, -1341190); (20210813, -1338317); (20210814, -1335458);
  (20210815, -1331531); (20210816, -1325675); (20210817, -1317488); (20210818, -1307185); (20210819, -1295488); (20210820, -1283563); (20210821, -1272649); (20210822, -1263384);
  (20210823, -1255763); (20210824, -1249636); (20210825, -1244735); (20210826, -1240162); (20210827, -1235117); (20210828, -1228899); (20210829, -1221387); (20210830, -1212791);
  (20210831, -1203267); (20210901, -1193071); (20210902, -1182574); (20210903, -1172280); (20210904, -1162657); (20210905, -1154565); (20210906, -1149183); (20210907, -1145864);
  (20210908, -1144389); (20210909, -1144456); (20210910, -1145001); (20210911, -1145067); (20210912, -1143417); (20210913, -1139194); (20210914, -1132542); (20210915, -1124265);
  (20210916, -1115600); (20210917, -1107776); (20210918, -1101847); (20210919, -1097908); (20210920, -1095369); (20210921, -1093835); (20210922, -1092939); (20210923, -1092075);
  (20210924, -1090710); (20210925, -1088548); (20210926, -1085235); (20210927, -1080259); (20210928, -1073996); (20210929, -1067014); (20210930, -1059687); (20211001, -1052566);
  (20211002, -1046635); (20211003, -1042262); (20211004, -1040412); (20211005, -1041427); (20211006, -1045130); (20211007, -1050355); (20211008, -1055552); (20211009, -1059176);
  (20211010, -1060489); (20211011, -1059506); (20211012, -1056985); (20211013, -1053769); (20211014, -1050561); (20211015, -1048215); (20211016, -1047296); (20211017, -1047961);
  (20211018, -1049797); (20211019, -1053261); (20211020, -1056852); (20211021, -1059933); (20211022, -1061695); (20211023, -1061599); (20211024, -1059532); (20211025, -1055673);
  (20211026, -1050710); (20211027, -1045560); (20211028, -1040921); (20211029, -1037503); (20211030, -1035881); (20211031, -1036762); (20211101, -1040619); (20211102, -1047142);
  (20211103, -1055305); (20211104, -1063597); (20211105, -1070350); (20211106, -1074216); (20211107, -1075061); (20211108, -1073849); (20211109, -1071716); (20211110, -1069620);
  (20211111, -1068772); (20211112, -1069721); (20211113, -1072523); (20211114, -1076527); (20211115, -1080024); (20211116, -1082774); (20211117, -1084806); (20211118, -1085552);
  (20211119, -1084680); (20211120, -1081943); (20211121, -1077699); (20211122, -1072664); (20211123, -1067281); (20211124, -1062044); (20211125, -1057277); (20211126, -1053900);
  (20211127, -1053000); (20211128, -1054501); (20211129, -1057693); (20211130, -1062356); (20211201, -1068219); (20211202, -1073817); (20211203, -1077758); (20211204, -1079062);
  (20211205, -1077891); (20211206, -1075299); (20211207, -1072636); (20211208, -1071092); (20211209, -1071653); (20211210, -1074002); (20211211, -1077748); (20211212, -1082102);
  (20211213, -1086201); (20211214, -1089586); (20211215, -1091980); (20211216, -1093060); (20211217, -1092661); (20211218, -1090678); (20211219, -1087469); (20211220, -1083780);
  (20211221, -1079991); (20211222, -1076234); (20211223, -1073418); (20211224, -1072445); (20211225, -1073681); (20211226, -1077173); (20211227, -1082590); (20211228, -1089162);
  (20211229, -1095688); (20211230, -1101029); (20211231, -1104355); (20220101, -1105197); (20220102, -1103891); (20220103, -1101398); (20220104, -1099190); (20220105, -1098692);
  (20220106, -1100259); (20220107, -1103610); (20220108, -1107892); (20220109, -1112277); (20220110, -1116091); (20220111, -1118697); (20220112, -1119606); (20220113, -1118677);
  (20220114, -1115941); (20220115, -1111643); (20220116, -1106129); (20220117, -1100064); (20220118, -1093760); (20220119, -1088179); (20220120, -1084531); (20220121, -1082981);
  (20220122, -1083306); (20220123, -1085119); (20220124, -1087689); (20220125, -1090294); (20220126, -1092242); (20220127, -1092764); (20220128, -1091370); (20220129, -1088191);
  (20220130, -1083658); (20220131, -1078483); (20220201, -1073994); (20220202, -1071431); (20220203, -1070987); (20220204, -1072225); (20220205, -1074267); (20220206, -1076113);
  (20220207, -1076870); (20220208, -1075919); (20220209, -1072977); (20220210, -1067962); (20220211, -1061126); (20220212, -1052912); (20220213, -1044265); (20220214, -1036375);
  (20220215, -1029937); (20220216, -1025279); (20220217, -1022855); (20220218, -1022778); (20220219, -1024803); (20220220, -1028229); (20220221, -1032042); (20220222, -1035256);
  (20220223, -1037081); (20220224, -1036928); (20220225, -1034734); (20220226, -1031018); (20220227, -1026797); (20220228, -1023250); (20220301, -1021425); (20220302, -1021944);
  (20220303, -1024561); (20220304, -1028435); (20220305, -1032424); (20220306, -1035550); (20220307, -1037203); (20220308, -1036844); (20220309, -1034089); (20220310, -1029383);
  (20220311, -1023346); (20220312, -1016864); (20220313, -1010372); (20220314, -1004104); (20220315, -998830); (20220316, -995467); (20220317, -994339); (20220318, -995428);
  (20220319, -998242); (20220320, -1001905); (20220321, -1005194); (20220322, -1007374); (20220323, -1007668); (20220324, -1005632); (20220325, -1001852); (20220326, -997325)].
Definition eop_c04_data_22 : list (Z * Z) := [
  (20220327, -993188); (20220328, -990554); (20220329, -989777); (20220330, -990426); (20220331, -992346); (20220401, -995031); (20220402, -997958); (20220403, -1000185);
  (20220404, -1000877); (20220405, -999601); (20220406, -996161); (20220407, -991087); (20220408, -985116); (20220409, -979207); (20220410, -973816); (20220411, -969159);
  (20220412, -965845); (20220413, -964523); (20220414, -965557); (20220415, -968994); (20220416, -974129); (20220417, -979865); (20220418, -985020); (20220419, -988272);
  (20220420, -988949); (20220421, -987060); (20220422, -983386); (20220423, -979051); (20220424, -975194); (20220425, -972632); (20220426, -971847); (20220427, -972203);
  (20220428, -973522); (20220429, -974914); (20220430, -975559); (20220501, -975257); (20220502, -974187); (20220503, -972185); (20220504, -969126); (20220505, -964992);
  (20220506, -960256); (20220507, -955546); (20220508, -951550); (20220509, -949242); (20220510, -948334); (20220511, -950144); (20220512, -954543); (20220513, -960629);
  (20220514, -967431); (20220515, -973670); (20220516, -978659); (20220517, -981728); (20220518, -982338); (20220519, -980742); (20220520, -979421); (20220521, -977739);
  (20220522, -977075); (20220523, -977582); (20220524, -979698); (20220525, -982642); (20220526, -985094); (20220527, -986407); (20220528, -986068); (20220529, -983314);
  (20220530, -977877); (20220531, -969563); (20220601, -959109); (20220602, -947757); (20220603, -936356); (20220604, -925602); (20220605, -916220); (20220606, -908246);
  (20220607, -901686)].
Definition eop_c04_data : list (Z * Z) :=
  eop_c04_data_0 ++ eop_c04_data_1 ++ eop_c04_data_2 ++ eop_c04_data_3 ++ eop_c04_data_4 ++ eop_c04_data_5 ++ eop_c04_data_6 ++ eop_c04_data_7 ++ eop_c04_data_8 ++ eop_c04_data_9 ++ eop_c04_data_10 ++ eop_c04_data_11 ++ eop_c04_data_12 ++ eop_c04_data_13 ++ eop_c04_data_14 ++ eop_c04_data_15 ++ eop_c04_data_16 ++ eop_c04_data_17 ++ eop_c04_data_18 ++ eop_c04_data_19 ++ eop_c04_data_20 ++ eop_c04_data_21 ++ eop_c04_data_22.
