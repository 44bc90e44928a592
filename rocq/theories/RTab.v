(** The tables of /repo/src/ratio/pi.rs:25-282 and /repo/src/ratio/ln2.rs:20-228, copied entry by entry
    (by a script, from the source text, without the commented-out first entries). *)
From Coq Require Import ZArith List.
Import ListNotations.
Local Open Scope Z_scope.

(** pi.rs:25-282: (numerator, denominator) *)
Definition PI_TABLE : list (Z * Z) := [
  (70799, 1626900);
  (33662443, 2625198840);
  (1982956229, 327509721630);
  (228989737, 65143118040);
  (56713845719, 24723378969660);
  (12184350679, 7548367087800);
  (29630969671, 24748459861125);
  (213497751823, 231230758752840);
  (289363916749, 394409636325900);
  (15740444724889, 26367018114276840);
  (4293208043, 8669397694230);
  (14812641860189, 35486209047615480);
  (3194992450019, 8959200669679260);
  (7174515738107, 23279380010875800);
  (953446618598, 3544391306059065);
  (3101157142393, 13094004233002680);
  (4236292468649, 20161646820975660);
  (21924132713293, 116819744249161800);
  (31522668620687, 186916351001621010);
  (94433041419671, 619757704623493800);
  (7530712703191, 54435048289983900);
  (211736085151211, 1678221187692755160);
  (80082366434687, 693171250698564495);
  (2988570682115, 28145099499484968);
  (74563337733967, 761407550585613540);
  (52551972630139, 580050537938671800);
  (409880495171011, 4875889721930880030);
  (6089784140908423, 77865400489264809960);
  (11880520620827, 162866620405829340);
  (234265481616851, 3435108248219745240);
  (55405660196284, 867100921058707125);
  (90879516497521, 1514861230603188600);
  (2669175946882493, 47297466193274273340);
  (141458711684727, 2659845442413405400);
  (171650923393127, 3418979374693452570);
  (50963555026171, 1073576205257479560);
  (15726832938274421, 349844169442842608820);
  (4091066578746677, 95962741748243392680);
  (51104304006467, 1262296171244233125);
  (49857639033197339, 1295114333595280441320);
  (384639228066809, 10494585291865738140);
  (22178391944057299, 634841818661955373560);
  (70032307163509, 2100729284229425850);
  (5841549250711961, 183430102982588240280);
  (16682286929045819, 547803256967440343100);
  (59225648442833, 2031796916978829000);
  (1798627480285066, 64403035712858807685);
  (48902943832132721, 1826017800080947232760);
  (3315622257371911, 128993014018200194772);
  (1271267185686187, 51488520397692875640);
  (700541473094761, 29514490831775609550);
  (78605999436922469, 3442340079773633558520);
  (6286476482050169, 285945551931423908580);
  (19666976445495779, 928506225756180982680);
  (41118448327520633, 2013536610028720348845);
  (125157084800471, 6352853964330673800);
  (880197716148701, 46281707326315622700);
  (450897088897766633, 24544651794997011070440);
  (8318064964521647, 468485022735429049350);
  (26261320781656459, 1529453099759321184840);
  (1351997366919497, 81377068396886682420);
  (223374024188254039, 13887805414009523276280);
  (30707402727321032, 1971035100106389171855);
  (23122899047660513, 1531533427705862359800);
  (49302531744488623, 3368027791205115435540);
  (12957050817535043, 912495206014222493880);
  (37953117025072649, 2754176218621257370710);
  (35168934747590591, 2628639603149604244200);
  (3245804429122231, 249766995821950168380);
  (459664999386899263, 36401030082112870251000);
  (357245039521427, 29101928945827905825);
  (543548909181412009, 45530900432484571086840);
  (885074369803464419, 76206644400725207324340);
  (1218703109437823, 107818776423103433688);
  (173259718395536447, 15744169967589792245790);
  (89987705951438447, 8396097596729096053800);
  (405295773667287947, 38814049481208820838460);
  (125046442514860513, 12287544469240800319560);
  (195105471345818, 19665187570672233435);
  (1017768238295799313, 105189886262928622665720);
  (447317297466893, 47391693298597662300);
  (272082830221654549, 29540470735216344376200);
  (105609124252311203, 11746782879941888391690);
  (272206955230405633, 31009338202048596898200);
  (312957109985600251, 36503238697523716978860);
  (62635173224196967, 7478225015432774568120);
  (209694706488134183, 25620318053127991528335);
  (85514091743426261, 10689006444752143074840);
  (192089886276037621, 24558120505396692914700);
  (186652878411749033, 24400973606219102609640);
  (65789107814100001, 8792281113026513621610);
  (111457217352811769, 15223919017120478363160);
  (1248211849511965363, 174210817333238027581500);
  (1596477751256077153, 227624111790249256522440);
  (3892981488216596, 566902598666821141725);
  (120667591057427977, 17942859304313774153400);
  (1604494746228698717, 243568080506434274434620);
  (3411397627649008171, 528571288400074025466360);
  (739660178088277, 116950629460826005038);
  (11544704744349530239, 1862361612137569694459880);
  (2474875577694719, 407247955878136873500);
  (618674959475520617, 103826365577349975410760);
  (1721343462117474931, 294556816254698718057645);
  (972521320389642869, 169658477576458133379480);
  (2574149762179625969, 457725551251652216947260);
  (31130544716207837, 5641239143495569105800);
  (1440444059586046951, 265964477690399913861150);
  (468510745246630897, 88127343011147100275160);
  (275785653319839931, 52838745245098255789500);
  (2265143858467971821, 441970717243920012245160);
  (35862667048867894, 7125013042026266602215);
  (2063704134859356697, 417412699237758342342840);
  (569943182857384979, 117342665342506581983460);
  (1682009257282764287, 352444842588570327624600);
  (246113952013397833, 52477219730926455382190);
  (53314582899435499, 11566100684313702274440);
  (4910296422602082287, 1083654195676018522936380);
  (30997320945567459853, 6958025214565750321319400);
  (90552736958460629, 20671885653609053884545);
  (1631858575210491359, 378805770575451485065800);
  (4261511372993227, 1005757244828692178100);
  (12607860845449797859, 3024873768546680064731640);
  (42979326677205287, 10481022001872461925270);
  (555736143872865301, 137731611854033293489848);
  (7288012729386358019, 1835434005079209825208380);
  (611454825197414959, 156459987237669565577400);
  (858499962171828272, 223169032247874486008235);
  (5597942131347810347, 1478165688465695832156840);
  (1759278864028984457, 471821385020918020412940);
  (1127949684777229361, 307205412011982507752040);
  (192859763000909101, 53336649979235605855950);
  (20182187061252954229, 5666917018821481335339000);
  (10556418847714161943, 3009123896210970424826940);
  (4411384402705723, 1276421886992808355800);
  (2885210672009492261, 847314291964977419099535);
  (2894646699794426611, 862705803267544541649960);
  (600028897573832317, 181464911095048216484940);
  (26320307316679882931, 8076415493711003086965240);
  (4122076551049306249, 1283232896633814645368850);
  (28683022103077179613, 9057977863741955279771640);
  (85511622834100037, 27390769297532418943620);
  (10406633273829232333, 3380792435441636565399720);
  (4069599526395770522, 1340744919671990663314575);
  (969744656148295163, 323963259191435864163240);
  (4823731834798159837, 1633893083635815304787100);
  (491427586739715569, 168756664572768925434600);
  (738299216943338717, 257012414232627989205270);
  (2447689143563263487, 863690550042103266006120);
  (832412134356421655, 297701471210529856167324);
  (43318088441421763663, 15700501394851797737773560);
  (32194910578406369, 11824822388896016155425);
  (46886503104226026169, 17449397018665183054512120);
  (24380270665380758633, 9193032412791178885593660);
  (30417953175978589877, 11619861227941146689712840);
  (627336615115872407, 242764820699000681819430);
  (199131873056874559, 78055588602356939145000);
  (85339877830952703481, 33881119685541532357970100);
  (8441994834631585873, 3394362256734961811847240);
  (1534129048587716596, 624665716073980790739075);
  (4900664677354348901, 2020594513228916419955160);
  (1322524581933757061, 552118755206632094402460);
  (9802827137961431677, 4143346327353905691936840);
  (53393416105096323367, 22846818621880074874621530);
  (4922830468385602459, 2132349721456760944677000);
  (5469676129276058017, 2398161809909461812767460);
  (9527070387948928229, 4227832180571328902412840);
  (935168879131757323, 420008874637291838143245);
  (85285369376201963401, 38763407400455183957393400);
  (420789971416147433, 193535698560386719877340);
  (91538589955671879763, 42600812213761185662110200);
  (948056504335419343, 446412000292062269676750);
  (42072560366698790161, 20042824680241306196012760);
  (1302972213839977357, 627948748267949416728420);
  (4207821487569196319, 2051381623186597536241848);
  (40823539734275494858, 20131275974372793352083885);
  (643633893223542367, 321027876469848259038600);
  (58258723404219669797, 29388676484509364127475260);
  (10955435850233441681, 5589028059837596208754920);
  (127158664651765949, 65601354320521605337830);
  (128837097882705859813, 67211092226676021244540920);
  (7990633026162089141, 4214903472642589946841300);
  (45879498600301910693, 24468372714592018735122600);
  (2539707586566277381, 1369379923987599946203705);
  (88161203813168895439, 48055786741991511969664200);
  (75888210416893354169, 41816226075602067994298940);
  (68900964549590977, 38377161382411259127720);
  (40464508089286625291, 22781052552883752677207070);
  (167104353522636034381, 95085539926160332529358840);
  (1568105668771443701, 901788533945691011720100);
  (76295509609084094227, 44341131691650804892575960);
  (306168519034370632, 179813681307239144839245);
  (189529500458660006849, 112478538453808363787091960);
  (41895253251787903777, 25122612774303249963657900);
  (40329872826771233231, 24434907974911028891945880);
  (51986826501710140597, 31822771837691923457118750);
  (952925852260964693, 589307349265307589975800);
  (2255466906486484583, 1409076903270681908579580);
  (227833038356341019071, 143783183522421101817133560);
  (270927260352438971, 172709070506935360959561);
  (95218825553003693, 61310438692180613996760);
  (4985576778784227337, 3242309771122570102758300);
  (770371978113107204057, 505994286363602249860406760);
  (66122543866257363679, 43861096698520214523955230);
  (7782317729575651007, 5213179213687175913622440);
  (140233641656488406219, 94861250478068741440204860);
  (11550100339738274239, 7889413171376245069961400);
  (5307869594344281134, 3660842736706321747776825);
  (917807423855879861683, 639137132694855623241252840);
  (10494728546185987643, 7378622867798970715613700);
  (323962916643207455963, 229954111884078449372338680);
  (129858359032204447, 93054613531132580497170);
  (26374358699148107353, 19078865971159222591398360);
  (176328896652644846303, 128758972080646048060277820);
  (10362309272393295781, 7637914922514036185932200);
  (46617516267277800311, 34682686023270792197946255);
  (15337605802007277793, 11517222007884128796663480);
  (591278049515928176411, 448115449209618964721487540);
  (19294302562592282231, 14757637175424628801407000);
  (20821486527881247319, 16072033138995357305508870);
  (1283814550661210660039, 1000033729434860336058599400);
  (1256315612151620093, 987521290877531121812100);
  (41068308105862140869, 32574077791564807264452840);
  (19336076685275360804, 15475108181622029728293765);
  (19066350660066867337, 15396269102732933090123448);
  (2689753750395801959, 2191420622047133775441780);
  (60324020560727952937, 49585155809472303443049000);
  (43013240293889184287, 35669315063685721852505610);
  (10814623234745169509, 9047287380317614510076280);
  (163193527466572434641, 137723365255809466114397220);
  (558349901169377140063, 475326811452666907652438520);
  (2865181981524448073, 2460383822485939067929575);
  (84006201477967452847, 72762989611916924193673800);
  (27426205229604243763, 23960580528118318352089140);
  (123808270901984414903, 109093212431833997534895000);
  (68040390617420690563, 60466592301589830518854230);
  (8685189059048622359, 7784180469577229989035240);
  (334041910167220852507, 301928378630493140790804540);
  (158107732648763785961, 144115272698995837773173640);
  (2509086635700652402, 2306275410021597826690725);
  (720322161134894360113, 667645187144591536873422840);
  (14769467711096455309, 13803593846766769409904540);
  (108143453805743710957, 101910989423426154856900680);
  (193980214452533022769, 184313381123101388914705950);
  (43376172609047434633, 41554171143819502250922840);
  (135822929690145308773, 131185516795144801831214100);
  (681674008288534583, 663780495853027584761400);
  (320840894723306134369, 314961955683214953718216365);
  (876519478823728154521, 867433851562001779154567160);
  (2565396411868293239, 2559302343658195981824132);
  (306563467730233234721, 308294546817707551448266920);
  (724562636277313567, 734489912498301285730950);
  (964618871246797769869, 985635526453598035964745720);
  (211662830413182802607, 217992842318686769060154540);
  (67424110954611374713, 69990058431635303704845960);
  (11766267608108384576, 12310335845559428975370765)
].

(** ln2.rs:20-228: (denominator, numerator) *)
Definition LN2_TABLE : list (Z * Z) := [
  (17821440, 1270037);
  (258424320, 12822709);
  (228009600, 8681597);
  (467470080, 14442269);
  (2517977280, 65453077);
  (23561303040, 528635839);
  (49588156800, 978669859);
  (1922452224, 33865613);
  (87224417280, 1387494551);
  (299978703360, 4349920153);
  (493155062400, 6570252229);
  (195111141120, 2404166671);
  (29885502240, 342519931);
  (1779932743680, 19067679427);
  (2585373436800, 25998200023);
  (1837012020480, 17405773247);
  (2560249063680, 22933828217);
  (1402654256640, 11913933401);
  (9456301008000, 76366364377);
  (785671011840, 6047164573);
  (4124179039680, 30320476471);
  (21395259325440, 150548612359);
  (5490048278400, 37042125839);
  (17435231573760, 112990864601);
  (21945903920640, 136818015419);
  (54779488135680, 329010447649);
  (67830382638720, 393007137709);
  (4168773100800, 23329797653);
  (1590348510660, 8606513893);
  (123457702072320, 646782534283);
  (148850353491840, 755680519039);
  (89226825273600, 439387982867);
  (4256171023104, 20348278757);
  (252506543132160, 1173021889477);
  (298192697362560, 1347112114753);
  (43821101318400, 192660524663);
  (102599159382720, 439306864921);
  (95700242641920, 399344682563);
  (555774264017280, 2261648205427);
  (321588854496000, 1276987536749);
  (370873625210880, 1437888394847);
  (852596054069760, 3229228112809);
  (195383703795840, 723321647441);
  (278998534214400, 1010075810563);
  (158898930130080, 562851067721);
  (1443972045035520, 5006731333459);
  (1635894770643840, 5554793048359);
  (184861986566400, 614983180027);
  (1041956655586560, 3397402417601);
  (2343651218388480, 7492790980813);
  (2629824315108480, 8246993095849);
  (92016953804160, 283148141237);
  (164501980843200, 496874576063);
  (3668677992483840, 10880835749527);
  (4082953498715520, 11894496681883);
  (2267750189080320, 6491167037057);
  (2514548144908800, 7074173204867);
  (222666696903168, 615866933977);
  (6151293698309760, 16731598180477);
  (1696553516125440, 4539387566557);
  (467176992282000, 1229944218469);
  (8220720369377280, 21300998732059);
  (1805525643841920, 4605621252803);
  (4949742597085440, 12432734126651);
  (5420203947513600, 13409140592549);
  (11854705585282560, 28891902317269);
  (12946886110892160, 31091852129809);
  (353041547738880, 835595419357);
  (3845989027396800, 8973412630813);
  (16738908718371840, 38507378219743);
  (18191882900392320, 41271197726659);
  (9874235672421120, 22095741188117);
  (2141450272281600, 4727478341947);
  (23196048234078720, 50527832475577);
  (25099428243415680, 53957543981413);
  (6782804751640320, 14392754410231);
  (3662282435713440, 7671942609323);
  (6321531650918400, 13075718253767);
  (34066800493165440, 69587839025527);
  (18341677535919360, 37005574705679);
  (19732640862654720, 39328292603657);
  (42420838315968000, 83532409158109);
  (1822343527475328, 3545883456865);
  (3055462975272960, 5875580438647);
  (13104123322530240, 24906972070207);
  (56155370042956800, 105511977303079);
  (60113898450103680, 111670853390059);
  (6430228268808960, 11811403050709);
  (34365539206602240, 62425619864651);
  (73411200741542400, 131892431691073);
  (78353932318623360, 139247779035469);
  (20892732869648640, 36731919715921);
  (556714003081320, 968392219903);
  (94876293909196800, 163303861363627);
  (100989926978183040, 172022082573343);
  (53714192086114560, 90554369120867);
  (57102663895960320, 95287692251117);
  (24266969332569600, 40086763328609);
  (128831464921864320, 210696071556577);
  (17088768861615360, 27671803773611);
  (36246581513123520, 58120354997281);
  (153675874084561920, 244029817358959);
  (32559030005040000, 51206530020407);
  (86180494748363520, 134251599936701);
  (91195359015720960, 140727502314479);
  (192902160484938240, 294901861074889);
  (203913650538998400, 308857827117109);
  (2154440402940672, 3233372243107);
  (28439088743913120, 42294330038669);
  (240139577584220160, 353924931314803);
  (253345108999881600, 370063224526279);
  (133575163844855040, 193392460294967);
  (28157682486984960, 40410569604829);
  (296646769611118080, 422041505789677);
  (312382919058537600, 440608585497673);
  (5137634824069440, 7184741470321);
  (86486965741794240, 119925729055171);
  (72765041063869440, 100052812924811);
  (382465869225686400, 521524282669627);
  (200947854315237120, 271750623379409);
  (211070614375272960, 283106464392467);
  (443229596921879040, 589677598582609);
  (93037730707152000, 122782765275449);
  (122011730766132480, 159735121308613);
  (31989601573556880, 41548547094343);
  (536578685942906880, 691442117296699);
  (562312749128296320, 718956372878959);
  (58906718757868800, 74733962917711);
  (308437057346584320, 388306155099701);
  (645766395987525120, 806795157490933);
  (675777660747047040, 837909232583089);
  (88367789221113600, 108746989930373);
  (7392955471941312, 9030169269229);
  (772873352429122560, 937054291209727);
  (807712532156799360, 972110378274403);
  (421925356218643200, 504103943160677);
  (440663177449098240, 522684924118967);
  (184035753802897920, 216723926808773);
  (960448124477911680, 1122980953340677);
  (250543865914003200, 290869464440287);
  (130675339267593120, 150641842927343);
  (1090172701386639360, 1247976353357059);
  (227305832287712640, 258405555999851);
  (592258376874528000, 668657233798751);
  (617090537042622720, 691931107341209);
  (1285568667525342720, 1431697176512509);
  (1338727041544717440, 1480845867523609);
  (17421308489894400, 19141689547229);
  (362637763088018880, 395798076353863);
  (1509316635105377280, 1636444899099463);
  (1570052917167799680, 1691120920469899);
  (816406208713455360, 873624358295417);
  (169764869756505600, 180485700840031);
  (1764616375772490240, 1863974893159777);
  (1833771140550088320, 1924631846903533);
  (476292441150408960, 496714431722041);
  (15459922803247650, 16020959172203);
  (82197247453483008, 84645504616579);
  (2133413076727820160, 2183253266625727);
  (1107188520108929280, 1126030567157939);
  (1148942741022585600, 1161296509297277);
  (2384001976885562880, 2394881115490309);
  (494558256674401920, 493791603880013);
  (320539919837948160, 318107090692319);
  (664663343335992000, 655652658096937);
  (2755861725809525760, 2702253544146319);
  (2856014057546981760, 2783819673179059);
  (295918126790065920, 286734364246633);
  (1532717764584652800, 1476430244026751);
  (3174850301752496640, 3040405661500393);
  (3287500349386619520, 3130015032330709);
  (850865438617608960, 805431222620371);
  (88070298337005600, 82889298718813);
  (3645629652474501120, 3411593345255827);
  (3771995042688324480, 3509826645865063);
  (1950994808108586240, 1805154923332487);
  (2017848140895202560, 1856540688200417);
  (834639872126860800, 763636019785577);
  (4314584602424691840, 3925645315660777);
  (139373100041535360, 126109899000719);
  (1152337953034676160, 1036958659974091);
  (4762912566489369600, 4262639560070359);
  (196828523566915968, 175198904187667);
  (2541423257268698880, 2249937649856801);
  (2624703751488698880, 2311194811672739);
  (5420492257513536000, 4747558008502129);
  (5596198540461809280, 4875423345253309);
  (288831284509620480, 250301449163657);
  (372617164873633680, 321213670893097);
  (6152047924932403200, 5275636874533723);
  (6347249719036786560, 5414728147189519);
  (3273792916129102080, 2778368882421467);
  (675316373775563520, 570171141193153);
  (6964092587176435200, 5849695247193877);
  (7180483228042227840, 6000735906118993);
  (925306027653047040, 769360062924473);
  (1907525464627258560, 1578044158840621);
  (1572712036050355200, 1294534476491219);
  (8102940993121806720, 6636416311661827);
  (4174181943967875840, 3401728739481269);
  (4299975128790512640, 3486922715894087);
  (8857823315028779520, 7147630211465209);
  (1824421622287286400, 1464972471133217);
  (2348232888584943360, 1876398225214663);
  (1208802803241831840, 961234173094451)
].
