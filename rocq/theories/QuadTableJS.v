(** The table of src/quadrules/JaskowiecSukumar2020.cpp (generated by tools/gen_quad_tables.py). *)
Require Import List Uint63.
Require Import Verif.QuadTableModel.
Import ListNotations.
Local Open Scope list_scope.
Local Open Scope uint63_scope.
(** JaskowiecSukumar2020.cpp:10-26, order 2. *)
Definition JS_Tet_2 : raw_rule := (
 [[pos0 [128515707071765436;745474110445949476;740261974395175477;166498492600000000]; pos0 [139571690967945106;821513934707094800;937249564297017406;233300459500000000]; pos0 [621705865573421885;830860228844946272;562426467578746119;92557103500000000]];
  [pos0 [608054478991729035;335202697605667792;180208291300555341;529193402200000000]; pos0 [137352730077163356;910788261086461890;51928075175413528;749253481600000000]; pos0 [145898694726674855;357442806651615060;903705081709154255;384084923300000000]];
  [pos0 [161734727754745992;361559518639262254;96187934771104599;639282324800000000]; pos0 [159340192246827600;106213219606194311;2606855518283835;493732566800000000]; pos0 [160612296342169676;166944611476449510;187765784300842705;3882364100000000]];
  [pos0 [137448101688510934;582128053797672440;479593426097258283;855439823900000000]; pos0 [615380511289738922;793197286357443196;371877892371096544;703032533400000000]; pos0 [135300542338319927;611289741423642503;505208543484665743;918642032100000000]]],
 [pos0 [213074006319706635;746072157283360116;892188232826481396;479577196500000000];
  pos0 [225533192268078527;571035648305017756;188505566210637420;99480593900000000];
  pos0 [342484823577903009;261265024882559250;33859475321887324;199687227800000000];
  pos0 [218907977834311827;421627169529062876;885446725640993859;221254981600000000]]).
(** JaskowiecSukumar2020.cpp:27-51, order 3. *)
Definition JS_Tet_3 : raw_rule := (
 [[pos0 [70102697365168348;977364620299764307;850118432984106226;250503158690000000]; pos0 [166660699730426029;701609288040479611;834089047947633367;791120326200000000]; pos0 [596575741463645016;196127228883390917;204701102016372258;550797964800000000]];
  [pos0 [168695371477743419;406388169776632084;60258356591791572;24046343700000000]; pos0 [584652626698847318;27633003407172415;330377469433616776;234736002200000000]; pos0 [168695218708539490;896370620711543760;331501984587926704;227560175700000000]];
  [pos0 [418175789241165648;317680318267160692;646011670324319160;368718415000000000]; pos0 [80303725670729298;433068580944186920;852040893834801805;819344909770000000]; pos0 [418101348156118305;823667501572575621;464008155684419419;27984804600000000]];
  [pos0 [596576288848820045;152795112851266727;38357250716958433;155227270200000000]; pos0 [166672635105982590;539023722229722256;619563485579936900;785560637100000000]; pos0 [70078602697824154;10416758843887453;511412408852368003;728816314420000000]];
  [pos0 [164808547352847971;473517709244103487;239781791364789250;562239135600000000]; pos0 [85113471518610735;621162063546617078;759324673794993080;660105734940000000]; pos0 [164808684755350015;222988598772645686;924409696746758943;179098466300000000]];
  [pos0 [73147566766861611;485316574323900112;88558486048971863;709950592390000000]; pos0 [440339136918212967;213938760161673278;442824874313765867;809641514900000000]; pos0 [73157061449777537;292377888407521907;660203828959752097;859139385870000000]]],
 [pos0 [180396407632724028;333441437186245373;264035484629990483;435201479400000000];
  pos0 [193316294293661716;204246176984947014;506372855255791588;459926731600000000];
  pos0 [133594798870358685;848840766586945744;996992268873520912;340197462800000000];
  pos0 [180371079146697622;550012852111531581;924194092797130011;288865818400000000];
  pos0 [201016720944590782;524841368331860631;670688461722959235;743159553400000000];
  pos0 [111304699111967164;538617398798469653;637716836720607768;732648954100000000]]).
(** JaskowiecSukumar2020.cpp:52-96, order 4. *)
Definition JS_Tet_4 : raw_rule := (
 [[pos0 [118728074080576561;465863938917026708;547254454891206866;112649174500000000]; pos0 [488139312218334883;295928445771838012;428326096366612776;61837213200000000]; pos0 [310812027444179207;990534798369595368;358996330663750118;836979659900000000]];
  [pos0 [5415713071965579;426862766019138515;996498526630062101;705897797222000000]; pos0 [28620108024415063;269431070750010855;765670149369389753;306037666530000000]; pos0 [114481145103298399;741196325141456853;812888093167568799;69453838800000000]];
  [pos0 [446993110669265447;784536250966900133;284268500863579502;614128547700000000]; pos0 [120114931119970255;154319076811425331;423996127510311140;806973088300000000]; pos0 [332488124672645435;195295449466759042;340426523302670605;900282278200000000]];
  [pos0 [12687245259173331;801722266043249436;277937305438577028;246127812740000000]; pos0 [190150550188709723;815336731056066468;472673797818994052;34973951500000000]; pos0 [585291075471326197;306477021652762157;604824393808489590;117494703900000000]];
  [pos0 [42795832950553140;524548129779601445;177463637431244322;973343672610000000]; pos0 [819345052438362676;210471526994931032;305935356551250774;688648420100000000]; pos0 [26719351714152292;358001822041522766;37511067383358350;360689176510000000]];
  [pos0 [91917866834421736;21295124122859889;252603339741428272;129443690530000000]; pos0 [337218262304315665;440859462508670390;980483940114383732;219307921200000000]; pos0 [112649133107394963;646374740966705484;58155613536170871;366097865700000000]];
  [pos0 [340216417701116940;346541848295569470;310535221679003229;895849849000000000]; pos0 [86557484679865964;396191225834119206;116312189672919720;815661208830000000]; pos0 [79391877387070836;824602934629666537;851097997063294211;81245583220000000]];
  [pos0 [750977943072009735;929919988929044933;892399299139372437;106254015100000000]; pos0 [79692524193577793;396514505036673514;193676653851512905;893461573620000000]; pos0 [63296594113889041;671912278689818082;452802849301182078;16857265050000000]];
  [pos0 [145047758851678602;834905640341753499;142513268547812133;76157675400000000]; pos0 [61206893331017436;249775983809968432;135501271545822662;339391770550000000]; pos0 [442997468087453199;318002931352921371;792831591351509773;508110930400000000]];
  [pos0 [394091337029761466;85050318379223957;982799004677563096;596274315200000000]; pos0 [439578878471170931;500978199283777417;426309757976480408;649058206400000000]; pos0 [57741550565775691;493059801564032741;539996956430280630;856824425270000000]];
  [pos0 [131683426201617270;624064772903341236;129619893778277790;541205480500000000]; pos0 [85226802665704914;820140138950787296;703216206493399941;328725237350000000]; pos0 [774284002090891568;595128950957518303;536396742224350736;739668859800000000]]],
 [pos0 [141866572546584701;494868503889846675;736608690506417072;750337513300000000];
  pos0 [24732082431070746;193106088354295296;14666185079473625;419158403330000000];
  pos0 [152919022432933859;190563748368722285;558568400952346072;656340131000000000];
  pos0 [54818147331537689;32839205311246098;718588048749644441;550358534920000000];
  pos0 [31696723377240063;917366002903829169;763345676028945471;93829396270000000];
  pos0 [151563297845794056;139778304497071602;255187553078491217;571127985600000000];
  pos0 [116968246154424693;64665651425642356;800896735012248331;182113661200000000];
  pos0 [56945671777658369;339516340977741731;350068836840997586;249493627700000000];
  pos0 [117132462663518443;700979428926154781;578502632812435946;838717878100000000];
  pos0 [111295566773724523;33313784376528646;910997330130131063;12321292400000000];
  pos0 [40062206665512854;893002940968921355;312569910808869171;676201575920000000]]).
(** JaskowiecSukumar2020.cpp:97-153, order 5. *)
Definition JS_Tet_5 : raw_rule := (
 [[pos0 [310885919263300609;797345733763457832;992617413439748379;102751749900000000]; pos0 [310885919263300609;797345733763457832;992617413439748379;102751749900000000]; pos0 [310885919263300609;797345733763457832;992617413439748379;102751749900000000]];
  [pos0 [454496295874350350;508119473720660560;934367578380943975;698540156500000000]; pos0 [454496295874350350;508119473720660560;934367578380943975;698540156500000000]; pos0 [45503704125649649;491880526279339439;65632421619056024;301459843400000000]];
  [pos0 [45503704125649649;491880526279339439;65632421619056024;301459843400000000]; pos0 [454496295874350350;508119473720660560;934367578380943975;698540156500000000]; pos0 [454496295874350350;508119473720660560;934367578380943975;698540156500000000]];
  [pos0 [454496295874350350;508119473720660560;934367578380943975;698540156500000000]; pos0 [45503704125649649;491880526279339439;65632421619056024;301459843400000000]; pos0 [45503704125649649;491880526279339439;65632421619056024;301459843400000000]];
  [pos0 [92735250310891226;402323913737030605;245203353760545763;28413335230000000]; pos0 [92735250310891226;402323913737030605;245203353760545763;28413335230000000]; pos0 [721794249067326320;793028258788908184;264389938718362710;914759994200000000]];
  [pos0 [310885919263300609;797345733763457832;992617413439748379;102751749900000000]; pos0 [310885919263300609;797345733763457832;992617413439748379;102751749900000000]; pos0 [67342242210098170;607962798709626501;22147759680754862;691744750180000000]];
  [pos0 [92735250310891226;402323913737030605;245203353760545763;28413335230000000]; pos0 [92735250310891226;402323913737030605;245203353760545763;28413335230000000]; pos0 [92735250310891226;402323913737030605;245203353760545763;28413335230000000]];
  [pos0 [92735250310891226;402323913737030605;245203353760545763;28413335230000000]; pos0 [721794249067326320;793028258788908184;264389938718362710;914759994200000000]; pos0 [92735250310891226;402323913737030605;245203353760545763;28413335230000000]];
  [pos0 [310885919263300609;797345733763457832;992617413439748379;102751749900000000]; pos0 [67342242210098170;607962798709626501;22147759680754862;691744750180000000]; pos0 [310885919263300609;797345733763457832;992617413439748379;102751749900000000]];
  [pos0 [721794249067326320;793028258788908184;264389938718362710;914759994200000000]; pos0 [92735250310891226;402323913737030605;245203353760545763;28413335230000000]; pos0 [92735250310891226;402323913737030605;245203353760545763;28413335230000000]];
  [pos0 [67342242210098170;607962798709626501;22147759680754862;691744750180000000]; pos0 [310885919263300609;797345733763457832;992617413439748379;102751749900000000]; pos0 [310885919263300609;797345733763457832;992617413439748379;102751749900000000]];
  [pos0 [45503704125649649;491880526279339439;65632421619056024;301459843400000000]; pos0 [45503704125649649;491880526279339439;65632421619056024;301459843400000000]; pos0 [454496295874350350;508119473720660560;934367578380943975;698540156500000000]];
  [pos0 [45503704125649649;491880526279339439;65632421619056024;301459843400000000]; pos0 [454496295874350350;508119473720660560;934367578380943975;698540156500000000]; pos0 [45503704125649649;491880526279339439;65632421619056024;301459843400000000]];
  [pos0 [454496295874350350;508119473720660560;934367578380943975;698540156500000000]; pos0 [45503704125649649;491880526279339439;65632421619056024;301459843400000000]; pos0 [454496295874350350;508119473720660560;934367578380943975;698540156500000000]]],
 [pos0 [112687925718015850;799185652333286333;810467794083662916;750111313700000000];
  pos0 [42546020777081466;438069428120257441;777627278117123448;683280995700000000];
  pos0 [42546020777081466;438069428120257441;777627278117123448;683280995700000000];
  pos0 [42546020777081466;438069428120257441;777627278117123448;683280995700000000];
  pos0 [73493043116361949;543710205486327503;523091288740651910;224967192650000000];
  pos0 [112687925718015850;799185652333286333;810467794083662916;750111313700000000];
  pos0 [73493043116361949;543710205486327503;523091288740651910;224967192650000000];
  pos0 [73493043116361949;543710205486327503;523091288740651910;224967192650000000];
  pos0 [112687925718015850;799185652333286333;810467794083662916;750111313700000000];
  pos0 [73493043116361949;543710205486327503;523091288740651910;224967192650000000];
  pos0 [112687925718015850;799185652333286333;810467794083662916;750111313700000000];
  pos0 [42546020777081466;438069428120257441;777627278117123448;683280995700000000];
  pos0 [42546020777081466;438069428120257441;777627278117123448;683280995700000000];
  pos0 [42546020777081466;438069428120257441;777627278117123448;683280995700000000]]).
(** JaskowiecSukumar2020.cpp:154-246, order 6. *)
Definition JS_Tet_6 : raw_rule := (
 [[pos0 [874616888567068321;151556034270509403;662559752253171049;483037100100000000]; pos0 [1650241439687542;348920482354188793;210543315647551672;559880280318000000]; pos0 [104298303780294255;142130632793626430;428874567628491574;3730527500000000]];
  [pos0 [162437774336480591;789998303132732166;962418939772271367;547147456500000000]; pos0 [48657825663951842;745242432141773015;569755164657919536;615947317040000000]; pos0 [555486554692277779;898146853307592150;827574020173497713;994293665000000000]];
  [pos0 [625595673327035001;183982799509549036;695847064278980697;370762743700000000]; pos0 [216784059585165686;101125137616633239;658470254086594788;766405205400000000]; pos0 [133572971716191862;675458967604127414;208623109660057973;985712388700000000]];
  [pos0 [48559034985499706;987356165590589712;987992010741643845;49136711970000000]; pos0 [315234134256591302;795553063433608109;60784686858939408;352913523800000000]; pos0 [77779944790670827;532891103946513306;230968657472612543;447880488220000000]];
  [pos0 [212391390843085020;324296616898736538;301982605957736818;666939501600000000]; pos0 [551204621552677982;324517183557336570;814236058007824433;500863726300000000]; pos0 [191129825373899076;602445652324025971;172727290626440230;737659481300000000]];
  [pos0 [80250249118098602;406579827900029469;579259136880641297;814111375590000000]; pos0 [873512812761488087;436060282849789843;772900764869737598;890897040400000000]; pos0 [23339822787965316;90280585437357584;893409961334781867;318668051000000000]];
  [pos0 [2045284371327750;281966983976994857;212527374015015020;870916964711000000]; pos0 [61918573760220043;583293413868097458;602700458147566301;230563004180000000]; pos0 [382110521336840641;336803036402976148;716227785003995257;654321520900000000]];
  [pos0 [743045447076817186;784747548134092178;515833984089217563;406808150000000000]; pos0 [111673587612287629;825929232139410248;139160643087302834;182001663900000000]; pos0 [1400971492713620;452185227365020696;765497862073586368;164046200245000000]];
  [pos0 [291249165644977389;927674150780717709;631136800317431616;309212077700000000]; pos0 [220190306749826565;290304951817837031;477884637258533902;86024202300000000]; pos0 [15677292865480798;9767966156244290;31833696729502912;419604023080000000]];
  [pos0 [512051241017705166;116968739832083451;268019351343228715;485672542700000000]; pos0 [11404611125849021;930695550641699259;552319896746302317;205274755230000000]; pos0 [414786688769784849;368587794346815575;224777539963078299;379198074600000000]];
  [pos0 [1195728927010588;214179446967734119;750747882412115799;710449056715000000]; pos0 [680301784905681268;880180819897495203;481024639069955087;563499678900000000]; pos0 [235050538574609567;880648297534733300;933671538705133119;431073707600000000]];
  [pos0 [418255642800152498;72474706282027535;713952308459371652;563418844300000000]; pos0 [502924384853926185;7358123314520760;7038095426987871;288019337400000000]; pos0 [1482349258806382;118029746320525466;697934167651916598;940034440430000000]];
  [pos0 [75649505773094385;374827812559940155;24548343615940653;488617567800000000]; pos0 [332321141871627545;593601023402216670;108230068523219232;702171351600000000]; pos0 [540372257953982206;429946985094738586;899564097115703483;853693612800000000]];
  [pos0 [548024921362050848;921429414627865647;414619985937296762;222425063300000000]; pos0 [59667216447000099;769694334312529070;999550062652572953;327343458630000000]; pos0 [154596349445486339;57550540668306545;849903859696259157;349794656500000000]];
  [pos0 [141008504673562736;376857820375956692;998959141566673364;294788934100000000]; pos0 [50893731325442502;831246284495267977;308922086261302551;533549130490000000]; pos0 [806281245135996851;450714583452021754;249677081460862671;7525745900000000]];
  [pos0 [216600806219125141;134778474158796105;910336982347875077;355862501200000000]; pos0 [68600311491698966;823085018550621383;620288842199606591;590435122300000000]; pos0 [216867091164196811;536929932681673295;51153048766654553;720576980300000000]];
  [pos0 [424691036866568890;385286312921318223;550666999483848420;623183353200000000]; pos0 [8480121919598680;578671903126927814;10991038160694223;798158123664000000]; pos0 [2614592869876169;181527701311231280;789795907522495676;278695893735000000]];
  [pos0 [334049658549677696;447906859187279454;647808772568898381;719714692900000000]; pos0 [309894633544695081;133409294109679329;604441361810967357;735099319900000000]; pos0 [128457262465984374;398815867797768334;506963207979969804;137554988900000000]];
  [pos0 [333761349466910621;553291453370286593;700354557618291870;742127435400000000]; pos0 [173167225575504239;662689240360854465;84831650084547982;649380607500000000]; pos0 [417350347836306558;956048156504076245;727893236323649441;155668327900000000]];
  [pos0 [76703973943437212;200364923227171719;325298877792608283;466720312730000000]; pos0 [301735680571603748;132310361645686255;149377710959875883;511793475300000000]; pos0 [327492235023628985;156782342459357348;917255820886556531;47887402600000000]];
  [pos0 [71876412629223041;762229057034704370;623200061386010017;306990620840000000]; pos0 [62888882434586534;107116044581475652;134957404723972740;408900389200000000]; pos0 [67060937478443923;646440829839652920;131194281211279646;706935331820000000]];
  [pos0 [6739627681279246;598233187323114368;141182559370144488;473382397554000000]; pos0 [90474589599660589;406608451629393209;522921684902477927;430593093660000000]; pos0 [766896445575367144;196810799911492066;283865648307407980;253735624400000000]];
  [pos0 [84095544583773187;562666972778550572;302339150032105556;704267401870000000]; pos0 [621120483149685899;457729413319898385;743044974612149204;345690604300000000]; pos0 [55514553070130850;194133985018028941;698347537281677727;281930805950000000]]],
 [pos0 [7205133350337782;940137339490138164;678345058797715414;925665471704000000];
  pos0 [64723023480938301;527184584717595954;268480164050079276;494212763050000000];
  pos0 [41756128981420289;267237331401902721;350031261978462167;648568092820000000];
  pos0 [46886659194977744;453722131688601596;671953755231260503;428912040370000000];
  pos0 [64262654704983714;516581600130268916;918480644699211904;576165901650000000];
  pos0 [9710719914043639;123721288037174395;894533834997209642;430039355032000000];
  pos0 [22830650763213849;348283003058365968;376936849531356489;75383937700000000];
  pos0 [20397704099624322;930737456863414744;470664273316658564;825810749570000000];
  pos0 [39680019298489920;525019919175225533;586277937615379277;497747856540000000];
  pos0 [21330355044711121;366653500816538080;976469840585178804;108273354230000000];
  pos0 [21163394238032089;686103221832334939;521081256149749983;167303773210000000];
  pos0 [23670321543232944;355052723925107053;705817107982427641;131814295690000000];
  pos0 [49053296901837275;162571152991102106;379301624432579313;159696353480000000];
  pos0 [69079023137850161;70714322589005671;148944478601782412;324187796100000000];
  pos0 [14331106467715437;1896708075492365;547967605636660006;757164778450000000];
  pos0 [83659169712337405;638588226923254587;733201783949535617;369974148010000000];
  pos0 [10846489275592889;812079033819768974;549012493143131273;205320893740000000];
  pos0 [102524062480595414;10887131003469143;796007569578270038;346064928600000000];
  pos0 [83012919414917970;356626157663135753;27623909687265620;606350342440000000];
  pos0 [101710545807978158;638993063039002345;885493823527270291;299659663900000000];
  pos0 [29552796716458875;532568698879641621;219996007404585686;113510324470000000];
  pos0 [20073996540079944;787504304151150750;771180431357958434;622998503290000000];
  pos0 [52539828930630747;947137099728308609;522198287746271636;885174675730000000]]).
(** JaskowiecSukumar2020.cpp:247-371, order 7. *)
Definition JS_Tet_7 : raw_rule := (
 [[pos0 [300241657297388765;686699267251935528;670052575797776899;836344180600000000]; pos0 [34395876409009778;480448544846679704;91829303831978533;471480249850000000]; pos0 [36357434455837576;952860625462105340;483072034478153737;466241431520000000]];
  [pos0 [456274874842101155;949279563752645412;436240527793677660;519533940400000000]; pos0 [177094933633891532;615495713941857902;750422250096664555;62867807300000000]; pos0 [202380043682611974;163766235874950900;306068529048743665;743772274400000000]];
  [pos0 [43515670705798011;819527884245153046;238220143168419763;837298830360000000]; pos0 [190708046390238579;216522515598881898;351207984613749037;305554062300000000]; pos0 [515611955473718057;929395860782236653;128756721173547087;553924800000000000]];
  [pos0 [67470426865205599;191487187463753223;231579324797865510;720786920930000000]; pos0 [624805208850692734;706244226372404751;435223428405091376;727260248100000000]; pos0 [286470491129704722;220114024194116008;49607419764522594;822098493900000000]];
  [pos0 [35175796200440085;156807256650286500;448844928883836114;179432688530000000]; pos0 [300932453666973693;402710817398448705;254904881771806824;80055753500000000]; pos0 [626389945605233837;262004377682229585;581494839013178340;171356029000000000]];
  [pos0 [46558623182369762;682015142488325197;615016540252515991;387314538010000000]; pos0 [278269467014770291;198147315958913621;561176673685794643;141022523500000000]; pos0 [190468606380694176;487656979654092313;257824742592552862;531159723400000000]];
  [pos0 [27040000745806503;297392764084674901;382865452464347915;352637878740000000]; pos0 [59255351370767938;139784999767629194;464392241520392827;948991061040000000]; pos0 [308553842211533749;355991809741352945;254220588196780565;252550777600000000]];
  [pos0 [264680100531844083;557511238639389546;350871216740799782;37221422000000000]; pos0 [197149327251644487;156825939522864542;213063745978074582;886777261000000000]; pos0 [64976542285521739;103779389499586796;51136828828456846;694870050440000000]];
  [pos0 [58430887028059241;731297361188244683;885698275973139131;601604000010000000]; pos0 [817899562157665793;35936090685448959;473377546369788235;991831153000000000]; pos0 [60389234955629890;969243644363919359;883554808205412885;113704586620000000]];
  [pos0 [277767315964988678;163604595878986328;71635989800771193;394815567500000000]; pos0 [47673657339810711;125098105703817234;238707315873821258;467484003740000000]; pos0 [479373996738206567;86848197147488534;828392796570352890;621312719300000000]];
  [pos0 [55514637328611136;95895769546104098;28934371475332656;843000596410000000]; pos0 [286921706513845168;437171768678228283;746398498092896215;440203527000000000]; pos0 [27249480848017314;798314253179116331;534649712235023254;764265534200000000]];
  [pos0 [20374616459283691;51778277929065899;806095177825849566;602359071040000000]; pos0 [612558396645051873;586626203743871709;377791737912651367;91417356300000000]; pos0 [62301816329693016;784326263755439656;814123492111922254;261979605010000000]];
  [pos0 [192224498552025937;817335252725472003;119823968778941857;163635367900000000]; pos0 [43028493833426013;435260645023921256;526790777064904148;697597330720000000]; pos0 [248571305669355449;447076956326097683;884826946779036000;962238336700000000]];
  [pos0 [199108791899590369;293884122483989480;180472481980821375;159295103000000000]; pos0 [264232528640043247;739299355498500212;233022269448568086;630647064400000000]; pos0 [471867679291237098;833783599826062730;328343915302001452;402207295300000000]];
  [pos0 [623552582635438188;881691040922659206;939723196405258160;422106487900000000]; pos0 [289431061035915676;864620387828271876;847056921265187947;676307741900000000]; pos0 [51483119275801263;679137773995846181;991192027350481576;786333324740000000]];
  [pos0 [59422569009615278;890705196432164359;371416954296456458;222235535040000000]; pos0 [58879630680140941;384521351469101143;42894686383037039;770507884130000000]; pos0 [63789265896822037;461626581746122635;60487936196049315;481903771230000000]];
  [pos0 [502832863683403061;404862451038973403;822395493114431384;339268476800000000]; pos0 [31143621202275968;609375036858298221;296499394852844060;891708436170000000]; pos0 [160314445663261550;862894955666883649;254499316130005064;193729239700000000]];
  [pos0 [164630125877445402;695582330607114778;963053676907895398;127543092500000000]; pos0 [520176572864711074;918094268142188140;138495549976038885;813914550400000000]; pos0 [22872914274344345;881778344894160188;840059056970807734;252903782480000000]];
  [pos0 [289131288099979922;370590940667205800;941421772953098423;212880143400000000]; pos0 [624198280058973595;106240040818370068;76989501457752393;479929082000000000]; pos0 [34731840118065757;328337397769493147;619568112883846791;626595776370000000]];
  [pos0 [457959217837901560;795633125426221589;60949349228836830;589064762900000000]; pos0 [305196692083037952;92707777698243218;430864390950513420;456775454400000000]; pos0 [38016029485137481;227625273789173682;213134199518498182;748217758040000000]];
  [pos0 [522678873428334292;998837787547131297;755167480005493623;749812456100000000]; pos0 [164195619120587064;63857937138142414;700388571801519114;357796325600000000]; pos0 [293643991233234936;709845332249035737;661484437879882865;363678398500000000]];
  [pos0 [817797025199446569;520858729789159119;138743443824379783;689962809200000000]; pos0 [58360651474292069;509980317807064186;58724050155125517;174194037440000000]; pos0 [63545259385653143;805611271221415727;687563603060103863;274216934240000000]];
  [pos0 [305313544878443306;50342213824488320;811170751666046672;779333141100000000]; pos0 [460399593495120109;949603924418451647;362076850147989612;113559822500000000]; pos0 [196571194518918304;425754902014138205;367614610064406900;549243017900000000]];
  [pos0 [610694728219321770;801400493915870551;9356310980081830;655117746400000000]; pos0 [20221485579975534;566164819766548999;978687543923611036;998017514190000000]; pos0 [305592531726565512;989501091481792885;970440829690706897;14018594700000000]];
  [pos0 [58569640235489924;326562699264750244;51299240694938951;361935961700000000]; pos0 [59878111221725024;601897489153010926;976708343777498274;763981303760000000]; pos0 [818404527991653512;671576511096204753;364733729324527184;240138351800000000]];
  [pos0 [194718377666172588;302118279183461252;954721991326649463;917255442800000000]; pos0 [198039077172379038;621115050709257555;598557511921544448;536857679000000000]; pos0 [301528337903181845;511496856215481213;223933553863180666;412886403300000000]];
  [pos0 [285833345790797533;677020407185502040;965939349298792937;669160266800000000]; pos0 [54718557331217780;427340189020324643;903073394603488882;622958072960000000]; pos0 [629688451467908018;953997909728738148;804251190266128490;426289402900000000]];
  [pos0 [30409194009910448;97566114922044993;14690798128159075;740328975950000000]; pos0 [501248640342411783;36792076191983459;214257450546014575;439532382600000000]; pos0 [304224465127423444;150400718589035494;108120255890729836;336328374600000000]];
  [pos0 [59717081576042894;603644523052063302;534450132191748667;69954446570000000]; pos0 [25959015407646396;829256723977578908;623230072652465798;120641873640000000]; pos0 [609378651041917153;378723464196214106;989253938670371755;527614690500000000]];
  [pos0 [176570652140718165;66734349085230026;964622468140796868;10829250800000000]; pos0 [455361494407223785;954971583135606050;662097922597693705;582097378400000000]; pos0 [167629404731700306;590952259435522294;974773206525115998;288054522200000000]];
  [pos0 [626230724573267336;197973108898408191;376027331824694449;363666348900000000]; pos0 [68057618119952384;86578363791386779;134112132037407408;184684614410000000]; pos0 [19879166641282443;728242908607169142;456668082629126661;555505396480000000]]],
 [pos0 [17463493496562998;410867788116729285;704655160065196330;468800373350000000];
  pos0 [64982280468373476;355385559141982677;217659068155615294;416163103320000000];
  pos0 [43290941941182208;578381215153362732;785014948616353748;79149513900000000];
  pos0 [19696618309697628;227349389401060402;526047970242880663;437206456450000000];
  pos0 [18036604523077518;414936018722878868;27497906237720312;468191578060000000];
  pos0 [46578978950072575;479742181413418200;924348464399077614;666746824630000000];
  pos0 [20825591985610921;475806864870034236;529871998875415346;96537164280000000];
  pos0 [57542521633569672;965472134890653060;999161982988203336;866303307880000000];
  pos0 [21194651650172590;71394572291402438;408309201055142611;777484217500000000];
  pos0 [47188381163711584;185518918069564737;127541306683986743;92162411820000000];
  pos0 [19650159189812112;390083070248465924;308993378843612412;783188013010000000];
  pos0 [18482083734478967;882725691369598310;80465308600725787;491669831280000000];
  pos0 [42744701100864747;614414770355073626;972789271039303784;7362970450000000];
  pos0 [57640722845782484;738152193974808121;4428407879784428;705789143340000000];
  pos0 [22357613913641793;449711160496234714;117990099795701338;346786176560000000];
  pos0 [21219138452602272;637636441111712748;668350873481902902;406923312780000000];
  pos0 [33872868573335183;752141785622649703;369267790347468023;764251307370000000];
  pos0 [26794935758090872;344387497570928561;111902977404827532;479870823060000000];
  pos0 [22103980350489853;604194266184343890;434261824999595898;667680694180000000];
  pos0 [37355957822595419;204122625484795757;951069816537385256;580035388140000000];
  pos0 [25171505346583168;998857226675185247;435222733922076926;87632679870000000];
  pos0 [21235168658352641;923726237921873087;636423524462241437;871888556180000000];
  pos0 [37235199094949874;294205259267959802;135855750442915007;339710776600000000];
  pos0 [18725549728415566;707870418936690263;956580954298105628;822907080850000000];
  pos0 [21041057151763304;421096033602647440;457110180028786217;367589740200000000];
  pos0 [60531535335626940;973833876161793580;295029025369465404;732768063520000000];
  pos0 [20461003238752070;29199529796969913;730849612063047856;793515987520000000];
  pos0 [33510923156972438;426236273964148929;839843691226878948;678380065550000000];
  pos0 [20346257321430723;526412139190899564;420716681567906765;664090583020000000];
  pos0 [63565448669069271;259350156080077636;112527753241913053;792272599480000000];
  pos0 [19154126434359117;656788703912056535;710212337126763386;246941255690000000]]).
(** JaskowiecSukumar2020.cpp:372-548, order 8. *)
Definition JS_Tet_8 : raw_rule := (
 [[pos0 [414577016512783952;326056316213715743;224801408559137930;161694821100000000]; pos0 [383083769281198975;504649388973228919;893310330114222700;241744020200000000]; pos0 [191218637011943023;740084197626318792;46951593724167163;970348629600000000]];
  [pos0 [47564986694965887;61126751452994938;249199283120013048;703490634570000000]; pos0 [38441373870250716;538635904099843097;527305600413153483;512730981710000000]; pos0 [887111950636645744;828625405666185632;969666922262633732;433426777600000000]];
  [pos0 [302239203947550609;341060568563207063;702356596745845081;434237305600000000]; pos0 [309675518922381828;935249483484380000;548714213494280511;808216955200000000]; pos0 [16216452704534623;829211188411529900;760870562985052975;157657658810000000]];
  [pos0 [42444418499087912;306931121655213582;546507018567870002;179869316330000000]; pos0 [47854865606402559;405183809261216211;415051526280067347;884304770460000000]; pos0 [726418555126709412;512978934533885244;877053924896538973;954911347500000000]];
  [pos0 [443854030653717311;742702101914228883;999157746720687221;53573307700000000]; pos0 [159300059999623885;427910307065345311;478061250047125482;892390196200000000]; pos0 [362666743803557636;277425330120684431;979541902152581567;197631548100000000]];
  [pos0 [134998506936398661;90542104979907821;570630154496175511;52966374100000000]; pos0 [432994810029609385;37176532918947364;213779486544241426;981468639600000000]; pos0 [406563216032465258;742083996765094864;443561933983064127;537971571300000000]];
  [pos0 [270249189503649806;658723842628431862;17122268187446477;891119138800000000]; pos0 [8432871254456106;96331768590487914;748391005172763338;616843672462000000]; pos0 [212511129165065749;126229685250052664;965493502385704224;780205897900000000]];
  [pos0 [214158895426001701;710249476986617319;560304198368464799;546632140300000000]; pos0 [50203857635624033;366975590959025707;63715807082883222;234734561500000000]; pos0 [493646212894191886;160140624541856808;345344392877344771;754499496800000000]];
  [pos0 [145679320756575505;10510219688667407;429450960695363220;739880312100000000]; pos0 [142079927773269318;511456425743153467;952144752662392864;616684720300000000]; pos0 [265496124808046244;519990325023960830;74279896117037303;493773221000000000]];
  [pos0 [480042263985587854;533716289745253844;685986435748774418;969295480000000000]; pos0 [24551596279034239;943891486937961920;25604637465541795;334365753600000000]; pos0 [455557066278125693;777081519326086407;258519066259077701;855453318400000000]];
  [pos0 [32489208136881278;199667265798031720;136341473745756069;196558554430000000]; pos0 [212600598913690279;660958861275841749;314714215816420427;156892714200000000]; pos0 [710384992109112604;751253286306023286;133258132829989477;646815076600000000]];
  [pos0 [699185289739283361;897217474831920617;921448879300855372;150427448500000000]; pos0 [9268153293509993;251799932447052196;755741149302784893;432622987749000000]; pos0 [73269587162915198;215780988566621304;433149975308944973;421386912470000000]];
  [pos0 [691270721362096976;955723155716432216;652408865412773740;574685876400000000]; pos0 [259032276955117159;308360704274511776;196272046994433045;803150705600000000]; pos0 [36550684792241494;252904420718275175;678142967092845150;523329767140000000]];
  [pos0 [11109282614455249;396773887052624868;936217891602732892;987767514330000000]; pos0 [501917251333736649;505343489627078098;21150821777804109;712449964500000000]; pos0 [433757238292295118;878575673934636119;350652951324028831;929409757800000000]];
  [pos0 [158917765874716021;475202731330451054;908714561729281913;599253065800000000]; pos0 [352563561284882633;796723065384533975;217658147053199558;343574252600000000]; pos0 [133511084204979611;40880762475283590;591663474153702444;767562503400000000]];
  [pos0 [63619535324727966;147850768754934788;470255888390035586;683605796040000000]; pos0 [242569499211630422;40612875287580037;722754634345848120;631525171200000000]; pos0 [495004824775533232;354444628752042675;425348325406447536;735050015700000000]];
  [pos0 [751210798427456535;301291613269302897;49699723698526478;678721999400000000]; pos0 [36130791730547864;465888506091847191;73362150846264667;162612613950000000]; pos0 [181426042652300167;300348450961368927;279848154553581879;198612893500000000]];
  [pos0 [441636536211775068;329934113984690500;869878243102043033;714158315700000000]; pos0 [454331286258816429;649254391378185265;899030219453686538;890417747700000000]; pos0 [24127952086538732;505977771241925060;667165904210490441;429727520330000000]];
  [pos0 [479399892597013233;964753784810572301;532386949458915338;950488520100000000]; pos0 [41211463604489554;698847751207618770;75154948611777756;507859209810000000]; pos0 [290034823069017969;992566745010560733;580638332889338911;839164093400000000]];
  [pos0 [152619691001444617;632037002972202322;979445245048188291;903618730000000000]; pos0 [11049423982768930;241880187502821846;989898656025106083;633618196090000000]; pos0 [39470355842203934;17450310363884269;757704531728583168;14424279370000000]];
  [pos0 [881257957515219407;707194812545049606;145313514244318663;82535032700000000]; pos0 [49354592493092416;177396221622234100;693600456004333299;282284520870000000]; pos0 [23816189278092678;135132563411694931;243767612097674498;347972584890000000]];
  [pos0 [634806528802436841;749055707964689052;830776913782298889;676042094200000000]; pos0 [147726977542755902;179383503330623447;454625489306739891;832293543900000000]; pos0 [14321190994574044;685463369201100039;253790407836232160;766583629760000000]];
  [pos0 [16153776836207873;929251987094090293;819190619941925534;61667675620000000]; pos0 [53315886335168110;234306706775903913;307414286560537133;70326902800000000]; pos0 [25427995705549033;532785459482677583;334655988299721347;563538725040000000]];
  [pos0 [157135080281583416;592500866627294032;242314308723476812;445689684900000000]; pos0 [634625470184913714;199325280629206755;128269891492723405;474912500100000000]; pos0 [39298700156349778;273822413055135989;452770049093983883;500115498310000000]];
  [pos0 [222143479347339009;497527162070444369;104365651949093389;745301843900000000]; pos0 [37392853107016664;551814258198913342;671551345731491568;362871823210000000]; pos0 [686553034819903605;900495300370833350;363287587325176520;293837603600000000]];
  [pos0 [47419766123086104;290757814166931292;175230354659109816;636110768610000000]; pos0 [892020288553363664;965698156437459054;586467031245163542;73594584100000000]; pos0 [13558201602530308;972603226175781404;663599080730362030;762655360000000]];
  [pos0 [197125737439910433;724378605273010203;549842202688803197;103619981600000000]; pos0 [126376640625308400;336753414322208892;546099613732587368;590676686300000000]; pos0 [53477378163019984;822555374383689294;319557527797164720;648366153800000000]];
  [pos0 [55794861217799247;359811462156204788;251222153290637745;25353142970000000]; pos0 [469841177589850096;293799451369882191;598450025965980948;850108375200000000]; pos0 [30968156756488624;642406124771572485;748455525011394418;110349065840000000]];
  [pos0 [631626145272423134;309622816104867151;465830313372076773;984822361700000000]; pos0 [156423391893459370;856924743998473901;590539231834925482;780183107900000000]; pos0 [131576232126842668;620129681794901304;450186271793797941;870392030200000000]];
  [pos0 [194139265592386214;21537967561351441;828800327469957400;483679659300000000]; pos0 [522275437478299184;673238417882241109;695823397133211260;754210094400000000]; pos0 [199377851325060962;588983931111842161;749088899176778484;651564030700000000]];
  [pos0 [53426642907766588;541547562122474561;179099283488356361;956781099170000000]; pos0 [20496753356122174;541157463287473844;881786147271590539;412145878610000000]; pos0 [458040702901735421;101591935959153963;358718753812431450;112368419000000000]];
  [pos0 [415195075192022241;319022427056547971;830589326786200796;154487395700000000]; pos0 [120634809535856242;405818784453709527;231427630381841847;795264496800000000]; pos0 [135657820501985783;227185575719239454;749459934528482261;73269868400000000]];
  [pos0 [389601138056127334;491976761389231256;639277002023446877;561862503900000000]; pos0 [333272485659918628;143856383058602626;938876494011874067;32889668300000000]; pos0 [111571753993636908;130729280664301796;147219712739243412;125094919400000000]];
  [pos0 [440551965782800801;501127367864656234;927149755801392045;851664047000000000]; pos0 [42623727718463218;72534300175809312;309460815280110733;81605704790000000]; pos0 [29887943067258311;42262533667400798;535844325354664129;4384417030000000]];
  [pos0 [190108773375479897;52732249816001573;29790026462245002;887904046600000000]; pos0 [181514250286073929;909850045218241209;797362691279465566;95121808200000000]; pos0 [590477774442602077;330788686639839766;677928253538543393;939370389600000000]];
  [pos0 [44528525616766437;615436854012945533;458563300368365903;853745932950000000]; pos0 [51195558828599514;725122129046019120;390460648023549139;472648315130000000]; pos0 [183833636159961629;692552642640655213;709177311270279965;17910444200000000]];
  [pos0 [8617799898794720;961797790528074408;46489675145755588;416533084753000000]; pos0 [702200230188865488;567076377332430511;321370993088344348;345908353700000000]; pos0 [66398904494806306;456987017209438094;321275512482766563;105150215710000000]];
  [pos0 [11604090065766672;210911756932293810;629878724746425054;607039586710000000]; pos0 [143320985891535644;601626826731996141;301218497859120942;562183417500000000]; pos0 [441216473790368443;92186457601958973;836864192694961051;905168652900000000]];
  [pos0 [245598739968395167;114971729592609435;972577713741439519;404337576800000000]; pos0 [692975944646558772;441633356417538841;568255843536901303;751577513700000000]; pos0 [52528591549320235;140522546098587515;940039041709634245;981944428500000000]];
  [pos0 [50061027293723125;573379817185947793;331518764224135768;131502707180000000]; pos0 [217380096120081298;180158768288558458;97356165580983073;175745935700000000]; pos0 [39590815032898494;353520891823333784;421292305096535442;879940124930000000]];
  [pos0 [267141554423203932;169751983797361615;654746243541952458;659368842900000000]; pos0 [237683965973186931;253392962627036716;159059573415373312;297313270100000000]; pos0 [337022817447687652;36569463049269930;195221933704447753;172379373100000000]];
  [pos0 [48050660342372909;360433301721978070;871192308197672541;457312237780000000]; pos0 [474285804579739915;389559096194997931;832772046290649379;285051657600000000]; pos0 [251846396441419887;889714438201768611;253157910315240212;528713963600000000]];
  [pos0 [13052811800961500;917082210636159200;112193885584291217;823155578310000000]; pos0 [282270749491210936;162121889675021279;190556851010300572;530387351100000000]; pos0 [184859180145377445;865201053508531277;227436954675495615;629255230700000000]];
  [pos0 [47546999618654406;42147729886014772;38346124453002669;409301830600000000]; pos0 [751686967870161545;841856657520506123;482895016134706760;116531681000000000]; pos0 [160027613551294093;251195469639314057;315663769581331355;488222029600000000]]],
 [pos0 [18169923192964448;65987482567914916;498760012903854961;352652668370000000];
  pos0 [5610582376754646;253542447320811019;454262931309910802;129013252531000000];
  pos0 [24618113592570711;164579308633114432;600783121897235031;947329263170000000];
  pos0 [18054018196019003;876414247076303859;335599932742823279;842057964820000000];
  pos0 [26753880728404350;72137164332702206;53201042471172600;702619725580000000];
  pos0 [22879887943820600;434955523219853639;427601823078579616;256227774970000000];
  pos0 [19792400009093018;254985216084423593;61293284384584267;759508381220000000];
  pos0 [40799907750859509;302638951740828393;163423248520461052;163462376740000000];
  pos0 [56048355006307431;820106444619923276;341366227229171279;896663758950000000];
  pos0 [11644535026307391;905380118262225762;70893851668043219;588955270670000000];
  pos0 [13941281563355842;336913220282589419;881061632541015891;876079762560000000];
  pos0 [12043467782753018;771178134433447379;716772059455884325;340691314290000000];
  pos0 [8058305251223210;510055950738171070;581391515917366116;883928658870000000];
  pos0 [11164022607228763;276700336490028721;670592054765220750;744066980080000000];
  pos0 [48901699498042445;892432947796852340;36443571471302176;97465814170000000];
  pos0 [42634596964042021;655029184768823174;211260348666195529;861730194650000000];
  pos0 [11041162921658176;641450465685909747;825282129494105573;242001284940000000];
  pos0 [18729702332284291;851923609592709767;98523264712381280;867272319210000000];
  pos0 [33267243730211238;226688206498216720;648205697053426298;824744018840000000];
  pos0 [6754871470699925;47713340043111735;514313113728347044;357741209337000000];
  pos0 [6242538545827603;548039066440186178;474642606591950010;341665821771000000];
  pos0 [17525860259128294;86004667916066173;919682142406200551;270086353610000000];
  pos0 [3488893720357850;56106626073441343;172256636708467731;603081594506000000];
  pos0 [29351666626653948;748761826208008190;223147883000211868;975255179800000000];
  pos0 [16742878232234521;998226838492702210;144763054017680530;959288858170000000];
  pos0 [4837963053622819;456642838604704795;6579451564709800;738872456613000000];
  pos0 [30004603093546233;54350217807582284;656674932992072382;424180232270000000];
  pos0 [18470050745108118;423178690644435769;413011474802228874;688556125340000000];
  pos0 [31491085043983882;926983154006203015;831388674239665408;125330127470000000];
  pos0 [37379691990781290;553762430896354928;613707820729454055;591246257640000000];
  pos0 [14592784559543437;603456141674009274;79050801801349439;589417362250000000];
  pos0 [49441879647422509;499685201660118600;695763247916046247;14714946800000000];
  pos0 [42552287871515467;99182478590487447;258162933669483124;12382932390000000];
  pos0 [15797110605445570;882273317060219870;586337511961215279;178165735930000000];
  pos0 [24142002450185486;867404545609677338;36063710110265428;24731775810000000];
  pos0 [19895858619262475;364284830373794384;445595315971857895;531764447910000000];
  pos0 [10374402568582639;755343945726420410;272036251196371909;776443377370000000];
  pos0 [14358451513608269;416011569466272015;408981420092850448;485564447700000000];
  pos0 [9882447251868656;491492661303077815;811027138628983914;384497484214000000];
  pos0 [15746479749431234;667124880772382477;881237769519393333;317004789560000000];
  pos0 [61881076708551737;253543165032858644;121419222007644310;451367340330000000];
  pos0 [39179604995754033;790442491129971559;227746041002913079;748176920110000000];
  pos0 [18829381693154095;617229788820233649;897660106913699512;71873755800000000];
  pos0 [16883042509829777;479656325502830447;632032988144203763;962119682490000000]]).
(** JaskowiecSukumar2020.cpp:549-777, order 9. *)
Definition JS_Tet_9 : raw_rule := (
 [[pos0 [22877192125946919;692383646202472072;585282595823161383;96002786670000000]; pos0 [385427779036254067;815165703194311984;472113295832240457;693151449800000000]; pos0 [203793787424762196;909370377907050100;422835625370885326;645725847500000000]];
  [pos0 [177901370911009078;369817958647033942;847165674323800151;467629025100000000]; pos0 [409178915220128242;980432004549101065;991451560714757850;72817586100000000]; pos0 [376832014422628393;375527812080040504;307229719478912353;156474174700000000]];
  [pos0 [15334628850485484;100543455520159555;630293595616282692;696672565830000000]; pos0 [439541431462766356;974605062874610208;660499026241872600;239781558500000000]; pos0 [385691592290734983;690382377193531834;751791628038717463;189331108900000000]];
  [pos0 [41026614348743255;217658766747382930;544824534781778859;503362076320000000]; pos0 [870266570705852599;820120460540525487;588600786602681829;663511212500000000]; pos0 [52400750094335127;761375376455755922;439709032878475611;339657149500000000]];
  [pos0 [122143507792125737;584103438189561920;352744740238798856;27909025200000000]; pos0 [170363211324020492;104654533238027917;432845582366268393;816690955700000000]; pos0 [693148389328368123;989336741485703485;226155559305365974;709285481900000000]];
  [pos0 [13006478824908;218580740285003087;967950073548565436;625564217342430000]; pos0 [169179587840199158;678142461823596363;699923196976611055;509402636100000000]; pos0 [784063680217126438;796424892658220578;923114594044782568;736292356000000000]];
  [pos0 [653954608803821541;655409378365162498;122031774197608552;559814617200000000]; pos0 [35801389833550165;665742765532444190;228016795640114974;213382043730000000]; pos0 [108442967679462078;857412249651729605;667383576178777195;385131906800000000]];
  [pos0 [42372027441104677;170098958288308050;529623973674749818;3824330390000000]; pos0 [46233039133440454;572940164579815351;115726078779590719;214988726270000000]; pos0 [36944313766950044;169303106629344064;303847333967225856;621777345680000000]];
  [pos0 [167676794396441859;328795408110517187;531216645430524672;44430434000000000]; pos0 [27610605652078904;890854928160838179;769622339428536486;50394685550000000]; pos0 [263378315066740418;494279534388639536;47780236231659387;992695992600000000]];
  [pos0 [30041654562109617;388661713929364392;817507228106590897;949510688040000000]; pos0 [168448886619147117;140530702058062402;776001958658618457;226415671500000000]; pos0 [225792886066731724;127131178830287936;868447676269545893;929480598100000000]];
  [pos0 [296910197278746904;67198816430111948;479930028785631;326682950400000000]; pos0 [346337868977219712;403888010788793701;761737188240409925;68499126800000000]; pos0 [24338782909081533;550077569146013865;771550898010183231;237875575820000000]];
  [pos0 [438930939896594760;770487413230220860;959897132435292285;517833612400000000]; pos0 [24275269360318817;312390377533507506;171998940681942384;447761323820000000]; pos0 [359948536190233284;615690529270561619;982248108168981853;362623720200000000]];
  [pos0 [506089400417666142;625747439470465268;418404401785935525;12372130100000000]; pos0 [112976699568915482;535738129378598948;761797596632230969;608183136500000000]; pos0 [284803419405873254;643393211012099853;179946764896264796;225171542600000000]];
  [pos0 [309345415872724110;255700109036919365;904530083556719010;160014560700000000]; pos0 [324982255540715421;349826694230799198;233014325041254812;449305406200000000]; pos0 [177472105217403379;181459182878009050;227727459083434095;531623073900000000]];
  [pos0 [200328857926004439;150174645088002982;36583103555984992;681460949300000000]; pos0 [635610946003682658;152355231824104513;161736042840065729;804616372800000000]; pos0 [145950733096125494;425537746777284729;483454173743707784;984431604200000000]];
  [pos0 [640944314832104340;509936207330036382;764598111355925062;80908738400000000]; pos0 [166965558790291397;193145501697504516;151166641032395205;641360394400000000]; pos0 [380430710048913;102017653554587709;318562178991353904;153422570266700000]];
  [pos0 [868434890615564089;52188785471510501;863469917179006412;501440042300000000]; pos0 [45952417930432737;155898426662375285;886681198044850143;520104663750000000]; pos0 [41943857936918388;86649418215740732;642998770640148309;356213569540000000]];
  [pos0 [35324418662479379;982030368668974500;737689444116121769;464413137150000000]; pos0 [34260278175843328;464743307984720250;972726933237608634;640782100230000000]; pos0 [192645699468434459;343059785357282679;384961647048180442;184373778700000000]];
  [pos0 [208252504781418721;310292120446101217;293682790213347775;639143906800000000]; pos0 [7498900544573472;929467514978076754;825942862727517851;841187258270000000]; pos0 [58748040567491749;298870475619485393;801124877726446481;316556139000000000]];
  [pos0 [42497932190207903;162780894823385818;420820394527605659;9185158670000000]; pos0 [38522252388103124;298809121601014852;98082015774229685;66271003790000000]; pos0 [712243093138443099;695235386247061056;467624677993551134;563850932200000000]];
  [pos0 [399213874368567325;825684195694741554;775467407660372561;389639276600000000]; pos0 [175754367691740935;173248797908615680;721239245478214361;464324691500000000]; pos0 [50952782620618374;582281171350321730;117118156102076255;608915837780000000]];
  [pos0 [197685768178897103;406548459086609795;356783265061725219;605284205100000000]; pos0 [734337185970291603;217497508948925501;5179771449388227;587136073100000000]; pos0 [19630274028151392;356923203385587697;122422799905624716;901853256790000000]];
  [pos0 [209968708336824671;895877282820202707;953638879071809967;835748649000000000]; pos0 [104499246413639889;966008643207730674;184119989334987523;989703125300000000]; pos0 [754026830783;273900049052799411;471535502232262250;721326916632588500]];
  [pos0 [75492795456114636;423617374924977296;261238971960898711;639327909650000000]; pos0 [195578046064232325;7852437991379015;325992710683074996;869535923900000000]; pos0 [595320492077940386;907436294006461774;471774567861970328;168374842800000000]];
  [pos0 [34826797193867501;189536185266918364;177271187353433172;416461059350000000]; pos0 [660357362725514931;892450734850793206;798370825246210690;597864430700000000]; pos0 [120065183433144954;515104069369068373;108273896128818899;618613200000000000]];
  [pos0 [28378708526272528;383056098332005266;395249633436865632;824896811180000000]; pos0 [784673472271241632;978101664868757841;91654071159148100;278651916400000000]; pos0 [403271458477;295064259852886227;264543344772338591;936605263868964600]];
  [pos0 [459957044852020736;653174789982201631;292855400883806062;492462553200000000]; pos0 [32939521905493101;97264832588485122;288561787427926385;312688035460000000]; pos0 [478566529405756463;140689930065164724;529773286683092355;610454575000000000]];
  [pos0 [352179851825749646;342944530165698810;630445156054153645;662330115400000000]; pos0 [175158807118092350;46107347039468145;486821012733159645;985976020100000000]; pos0 [461237400714158490;197483209063156713;481857045561411601;415271548900000000]];
  [pos0 [217182572890171494;87343003890418909;482885911513001196;286869413400000000]; pos0 [48615987198161225;359025543463231209;651677369187455926;408632362340000000]; pos0 [608307624275942657;705444803087018595;908529510829553999;54220443400000000]];
  [pos0 [176983504148618908;658236896172354754;174830692336822651;877337917900000000]; pos0 [122142188955746023;324576167988434333;566885753989583696;436511514700000000]; pos0 [109385151043690093;537406360824045205;556217009044811214;732618680900000000]];
  [pos0 [38568839636676234;579564559497492118;736043693114228607;125930174770000000]; pos0 [673756530458722939;853350754972689156;7335763958308551;469661407900000000]; pos0 [250834164446108294;242865335320005961;346243542504606625;733683175800000000]];
  [pos0 [571135787792135897;791942882059388676;437777149302874261;166440501700000000]; pos0 [172785579419611683;557280348753480118;262023897696965237;960971836600000000]; pos0 [103002231853212816;840156954179294211;837445284295510336;300717041900000000]];
  [pos0 [264659667304479658;100099530291268938;891779816986757008;970884462300000000]; pos0 [188466049418132215;300496051238257031;453508097553663593;693868367300000000]; pos0 [429125927595345117;85405276939794061;982945889330204153;613686584000000000]];
  [pos0 [157129282804506703;434238032656129362;136598603585780278;830245237000000000]; pos0 [580546140607515705;515105148217239122;374886115112919542;274401566200000000]; pos0 [34239844855217354;946933381350888877;31829553247348636;598052136550000000]];
  [pos0 [663538082938882571;648726379935832341;579054716019967713;108515925600000000]; pos0 [121761068773856891;813359018643537194;141709915655951667;912377157700000000]; pos0 [196958638567453918;28767878208668984;307672938784008923;186337908200000000]];
  [pos0 [213659368443952878;595213369875671985;477120132182140622;421557891800000000]; pos0 [30848661487529924;786341495426042489;203111304744658113;929256169080000000]; pos0 [717153055719686811;532266967457330548;111438599383172109;247373140300000000]];
  [pos0 [156677391799799788;956524665803425073;554647638531650368;4113041100000000]; pos0 [317518173603433315;770872990811225559;574247383477346702;280768770900000000]; pos0 [246005049082;103719433925969304;747777385150455555;543767383026745400]];
  [pos0 [107997667382742772;537811242222563365;824488765249844303;688589731100000000]; pos0 [401763148970229749;484495971701896753;684588905390217345;926785481200000000]; pos0 [298681294635522462;838809911625979836;624252871134464717;905467640000000000]];
  [pos0 [440980688045945223;626738318099690236;396008348883138129;946463995900000000]; pos0 [497011977439046972;665741514449514042;667368531357221845;513286650500000000]; pos0 [39950602693486365;122926271050888587;900162415572252487;498788250880000000]];
  [pos0 [425447751431853306;216975025223253481;400696732894147036;830182926100000000]; pos0 [340142145431848536;291826426281030976;777439008458814634;521565753400000000]; pos0 [198044883788350669;946616203852315883;269861869960805372;942733539500000000]];
  [pos0 [694692838456979884;317753298837341959;877012555162535912;621768485200000000]; pos0 [231931773598525582;698115056684658680;221754355104825805;832200134400000000]; pos0 [38855343379169701;936759199980329055;591738541780588156;19352084100000000]];
  [pos0 [35650581054802239;19665639667511510;367531868688279940;782802256540000000]; pos0 [403629343076350176;677186866906993964;598823353968393907;768902033000000000]; pos0 [529468504069882634;157465551987329188;103980211714186381;871760192700000000]];
  [pos0 [33487400656926103;591912595572799810;604802474216102167;282003546740000000]; pos0 [36186093443979239;642626332450024219;961537131958532169;525733937060000000]; pos0 [458170810803708077;169920274433337113;514952551584585818;164988357700000000]];
  [pos0 [45443036664799763;609193637513780942;818883791343627896;972839365580000000]; pos0 [33591440076535986;483536327257402832;409243552087422239;423379805260000000]; pos0 [880395233051974165;212113310443952401;466873554118394171;868956641900000000]];
  [pos0 [1044818554827728;425733381917849069;699044722940311838;24070532423000000]; pos0 [191691508954526870;44347608653664854;49710190902555012;980195371700000000]; pos0 [507418131848248643;569505678397989129;344984107299741022;57687949700000000]];
  [pos0 [316327020868707698;947082011015322408;769209756572994313;385003031200000000]; pos0 [136367833757902391;789536684635782206;695431843789706311;880769550400000000]; pos0 [241379061233215554;593873706618906222;837066596054423536;637927651800000000]];
  [pos0 [389640549270810285;937131964685547625;865251071400829730;107048097400000000]; pos0 [27774245419337670;834556228580154194;887188786825494188;261044330780000000]; pos0 [187868844910790759;303199596828036121;771654410655965658;576160313500000000]];
  [pos0 [740636410447173500;738084577296600951;52031335656994305;759725568600000000]; pos0 [27169502564854723;903910652924457496;192176950497181579;555651771900000000]; pos0 [1008844862560039;514563048750300805;255189559982208981;209436658139000000]];
  [pos0 [147779460183033333;183351395539879576;166705026640692687;961020922200000000]; pos0 [333986106040696299;744960303739450001;55251875301588902;615066971700000000]; pos0 [117128059709728549;514656668069034362;414379369790246785;332313236900000000]];
  [pos0 [188640490411991459;54282064662857963;427961687683098317;375025151400000000]; pos0 [32179191036744142;415096269456728903;936193759482554156;932936746480000000]; pos0 [483134847208482025;807771067612962690;419721137653628687;828830489700000000]];
  [pos0 [728135719241077973;352480644715002269;597899261546367479;789896373700000000]; pos0 [11296813087092604;165637286967743580;691721091555500308;117120340780000000]; pos0 [217563709210464577;962989837047137497;181886700187647439;604264428000000000]];
  [pos0 [32405127761277296;340527684935984812;368182872914883051;860239388150000000]; pos0 [492470800876220305;183898777760812565;761097514388764768;625381602700000000]; pos0 [38118057591388967;492389080933377844;308405251300787528;690904577140000000]];
  [pos0 [410840424435682540;919657768598034189;993956702572668399;822209155500000000]; pos0 [416132772314728384;445070323907322619;75558301047801663;666702402700000000]; pos0 [34155132922309869;574554028892833556;191306410734005512;66252676210000000]];
  [pos0 [187840430838923368;946699917456469964;837512245218938443;653446407600000000]; pos0 [563187240709385292;281433218095797555;86425899898972387;589788640500000000]; pos0 [137650147214800704;898164061505872537;349500038061326589;413260403100000000]];
  [pos0 [108913799993223807;919155768038872543;381800667076544866;519943886900000000]; pos0 [170376347465889929;679989670929088303;223010023868676809;602335371000000000]; pos0 [367106461061726444;716117578558920192;610781325649142144;603739893700000000]];
  [pos0 [453916299751804983;253588077362741011;848618972873338709;823230345200000000]; pos0 [38270448072734259;125320799220933436;394518854622986519;497048179330000000]; pos0 [37610183241574287;84413080624919570;243695319725664414;876678047480000000]];
  [pos0 [35049017304033131;626719131082858191;426887168167971270;304367287680000000]; pos0 [222986182476884488;230891795471894463;857362426106946727;630342515300000000]; pos0 [46550714146934036;978031273680490042;123050300469749020;632781844020000000]]],
 [pos0 [18454104095068257;475521589237649516;544885011162165107;94267480160000000];
  pos0 [26368844137933782;610831161734957025;190159928017107217;261133709530000000];
  pos0 [12984362999735245;350172271871787750;181156491983175479;147725444650000000];
  pos0 [7536988747324099;163001874321482595;711070016871990476;944966917759000000];
  pos0 [11290214595749852;396982802055890668;580970063847747839;340692979480000000];
  pos0 [4197459451012271;919206226241059501;117040877794310724;650076769499000000];
  pos0 [19529748124513956;597346356831297588;241351943166023548;353070510840000000];
  pos0 [7070128308920461;183702701460450312;306566264941866399;194360858432000000];
  pos0 [18229558618893330;36158488847223442;895174789552920402;555694831870000000];
  pos0 [18974249979946338;296673031350291282;804251185826888101;237899767960000000];
  pos0 [12479029904660961;81737750792672;746369466038036683;667632561500000000];
  pos0 [18859002852983751;578609677477728493;747185340717566814;850804528270000000];
  pos0 [23748550881765006;811083983585804087;889170013897261677;629668806790000000];
  pos0 [40866538228307911;324123691154419276;218280494759320712;138751628510000000];
  pos0 [12278143412965107;424436846013603310;573435914784305507;299010121400000000];
  pos0 [7080971736782364;232964619963830307;162376101506365644;16362717036000000];
  pos0 [8242683037014377;131452469322908997;116224170924417637;77644276627000000];
  pos0 [10196795572983886;827296157510457305;889116142989477439;12733439320000000];
  pos0 [7169073146995515;175540440140260098;45035632799440477;564005094042000000];
  pos0 [14056016459501554;773058559730189670;231831008707697220;232673489580000000];
  pos0 [28823113727055317;484889634091779286;320490019759273772;555287286370000000];
  pos0 [8907737555643785;998193780168545086;362616866808071456;249792128009000000];
  pos0 [6645719886780895;720770095543575189;364813366233605630;455679216134000000];
  pos0 [29903526545454769;405781247317094656;548187507396157168;555462178690000000];
  pos0 [19959979462548516;483606811056867491;953021418256754496;28969894090000000];
  pos0 [3290291235590296;381745981527566426;375171714105850531;915631918640000000];
  pos0 [10252642695841689;562174561953283146;359188883315598230;704329101530000000];
  pos0 [12474589780834495;44131025361314339;74505668529813321;921588930620000000];
  pos0 [16453607006931846;199958656705327655;987591188568243109;870230485630000000];
  pos0 [34321935392792222;183089620697546602;925944803665968444;922476498990000000];
  pos0 [13745497673952767;354491584578843729;554205376708962301;344180172930000000];
  pos0 [29087060171630810;663893559762975285;309485237880667884;39915113380000000];
  pos0 [39925644854182430;15546747837870949;528184184868237428;317093459980000000];
  pos0 [20380664285082929;260694558836367520;329335132439872848;387904703160000000];
  pos0 [11795566363924773;175265134665708928;525117580768772065;859440182590000000];
  pos0 [8939677834312218;959357957255155106;264740383921255535;180018075791000000];
  pos0 [7425779116095979;510762951907219484;100000496702976852;48634691955000000];
  pos0 [38485099722156820;579232985002323819;828274420804945758;765888429570000000];
  pos0 [9736618016837455;800258034548292754;438756802697393176;840260585123000000];
  pos0 [28341550351463422;14437058202100988;513620887568943718;799512640780000000];
  pos0 [12367019501907664;602961580609445139;869047332866707970;387790985860000000];
  pos0 [11669450441030113;409511476665702725;578293030660403857;585226118680000000];
  pos0 [13479271909198869;955270237322852959;170301808330084457;494001642030000000];
  pos0 [6025666941674677;523296014416841145;358592517093212364;272454299129000000];
  pos0 [9839388884278935;950167250811526493;491720406691423537;542316580617000000];
  pos0 [42843888688162575;307765648110471022;755911242051578302;40843818180000000];
  pos0 [19117719065479801;339088254733370600;858129592701896866;376716468860000000];
  pos0 [3348545129506310;653425284914326813;986145008130939391;495761781440000000];
  pos0 [41061241119110687;18441110676394184;165089909584728213;544940299850000000];
  pos0 [21903998524849753;632163607956784045;848556460383658394;237717698930000000];
  pos0 [6504429286287903;288630664925147279;955653419328097237;921373867610000000];
  pos0 [13281948262758632;999183998759678283;87209413563441975;677897484990000000];
  pos0 [22330585376245013;38189286326696666;201597666729676259;640143521940000000];
  pos0 [25138063698134009;91824963261275271;594996644184579946;972742152100000000];
  pos0 [43814065959769717;571524564384887290;184664266187998558;467423958280000000];
  pos0 [14318357252229055;54348339817026601;312245284603228102;455377919250000000];
  pos0 [14447593987204806;457681042685731125;726943195618895721;855799774840000000]]).
(** JaskowiecSukumar2020.cpp:778-1074, order 10. *)
Definition JS_Tet_10 : raw_rule := (
 [[pos0 [710821181163561004;890778738609362681;463287057852439962;236170434700000000]; pos0 [168093815148608258;908847610183340140;411352923110688930;9175651200000000]; pos0 [91043261506008295;539051363261271645;600071964398351506;476833337860000000]];
  [pos0 [579007667001554496;357134974544430827;86907887522538471;369670786800000000]; pos0 [75413341909639651;962751765920077682;52835151035501458;76459591840000000]; pos0 [193173199165442126;72880240857023697;551881125835861891;741181109800000000]];
  [pos0 [97894295280830007;800364500472585028;487311072176260268;550738428190000000]; pos0 [519326664905817731;897476417964944087;198125694717135143;818140947900000000]; pos0 [352023753338244266;333083828329932987;859483736273477006;631402621800000000]];
  [pos0 [71174277974313488;571053620994223810;711417128659797990;203246572400000000]; pos0 [299085994269323218;894107041044022179;615045710244076011;681393861300000000]; pos0 [574864439546898916;939037252345523551;977346154261610520;617083768300000000]];
  [pos0 [17880749089293777;450536932035878027;832015566366559788;421130087700000000]; pos0 [411156457218860277;885532767849187885;459107011232494634;965173508300000000]; pos0 [27100342875812305;449029823847505056;140859906332152317;809721468860000000]];
  [pos0 [3714135933259649;135272265549641893;519755323539524159;177460474632000000]; pos0 [487027149727789748;315544399452946338;928021918753931642;355614330900000000]; pos0 [508667162441936434;648357935719755415;784143625818145924;640861119900000000]];
  [pos0 [165301928762668738;48684450764491481;362705956776895566;821111818400000000]; pos0 [32214258648313131;194440395312342942;71137898731792383;498116024320000000]; pos0 [185606096904448124;403679781498810226;430926834458485476;890078390400000000]];
  [pos0 [154834593876529642;162643071786005441;486572621123482503;359046759200000000]; pos0 [166588606435463824;344494597141899689;607556491714286543;678765769400000000]; pos0 [100852167920593681;530828160099102811;788928455067606619;216040115600000000]];
  [pos0 [505365346710630347;927418538393845831;408708126874082519;836095505100000000]; pos0 [305274915800875908;227631868034448654;642792312183998236;290487103600000000]; pos0 [3529745262325717;63031933492443228;105081730690454729;944976193963000000]];
  [pos0 [349721451595561549;676034626058854484;941932561353407382;813508095100000000]; pos0 [65040629197533067;876773175295803538;445295432562142544;758300081940000000]; pos0 [370487586728316691;517387049003042117;260527363343480681;401189641400000000]];
  [pos0 [362129457118497282;922725405962664025;184950586498498401;647187644900000000]; pos0 [223047943728803069;531882918761327556;793246149228378754;647125670900000000]; pos0 [211122229756149666;163648916432020966;762462360992230272;98365295900000000]];
  [pos0 [1519081155224517;413881337263526846;225289709178603186;197804712915000000]; pos0 [411267091538767502;571390459903728942;17234113510437137;471561765600000000]; pos0 [458570806845948091;983775340857634918;682724253511234702;10455956000000000]];
  [pos0 [367671015888483266;686224052947135603;322064918323565306;699943191100000000]; pos0 [44230430969319516;434555164049630127;602325405525243076;652707142560000000]; pos0 [565336903160872039;247377833407702268;805064887881762652;14312731100000000]];
  [pos0 [49709772054708907;47743690894308330;63157455223745514;625892005690000000]; pos0 [838858847721160245;361599109207863520;303367612371059004;168125526700000000]; pos0 [107604804604589760;964417664740098867;675639099694824860;475296033400000000]];
  [pos0 [132539336531317979;32341565467083397;662336234737416119;300780855500000000]; pos0 [85196292116014844;256556518386386116;626439292425967916;433080893450000000]; pos0 [604412365542924088;136708416488966256;96500749909815109;127230945400000000]];
  [pos0 [16793055088974239;9586775134963918;759494913696508632;976107569440000000]; pos0 [146737983006163192;118989707764174063;99987765963069620;709909970900000000]; pos0 [719894257786155718;522919702612627339;215562720264571736;717345761500000000]];
  [pos0 [384644976510008888;553621834742862160;77740315430986091;354772761500000000]; pos0 [77830854428130452;530866785454865947;263734240767879326;461971029410000000]; pos0 [133820842318490240;264328826528730232;691333436723345803;443471869000000000]];
  [pos0 [610719347541429062;80789169983653166;226183764939521620;737629830000000000]; pos0 [31493054229378961;345787609312163982;121052453704145388;439925865430000000]; pos0 [25645923986776844;823724007267996295;78727928645168642;497976415370000000]];
  [pos0 [80009809180926627;111769815132969147;196677703772026569;275652720100000000]; pos0 [908233671118126695;464296950316306788;770588457741593721;873450477000000000]; pos0 [10606985116433330;849004478639917319;725927657655767840;461885648750000000]];
  [pos0 [172211544573607231;500749137842988327;694069031130915380;54097190600000000]; pos0 [4171136945129776;637992493806936352;369870419061540409;553698297913000000]; pos0 [788140429262158342;468680253677128707;673629587951727719;185299748800000000]];
  [pos0 [69735326902137974;936560641264233784;952639322494088803;193069550380000000]; pos0 [465324657892589599;908876700853158726;267144742736954221;419192793400000000]; pos0 [279743130325619603;472459618591333721;502526643687397070;264680152500000000]];
  [pos0 [611370160489733183;302874535414012445;58600425164884946;375780759300000000]; pos0 [136777765750491082;409869206988704979;378969195339916548;101476029000000000]; pos0 [51140189028374378;915924157069368581;551311111594712345;861148143720000000]];
  [pos0 [221116192418793230;569873829438904440;447517355036305329;296993750300000000]; pos0 [535674881793983028;860450871300458152;346357256805078375;717289787700000000]; pos0 [10811825572610978;387877303961790743;765349655140418352;895367144410000000]];
  [pos0 [575443581149477263;181202424018767506;951684584076645206;633653242600000000]; pos0 [382823350763782858;93347700616480056;487896353555662435;141237887100000000]; pos0 [17764367573077392;555903780733490238;249936484604783413;178780124120000000]];
  [pos0 [115839281892140834;467113521016512001;681264053827893288;555018716900000000]; pos0 [772788669239955026;653996343856994115;215512039056597002;272119798700000000]; pos0 [24219507940919968;821739991250913257;252536042195082058;353268323070000000]];
  [pos0 [782798881531462869;624707164331934590;230298332736921509;652309610000000000]; pos0 [161928384574725930;757544379372480937;468563781414983405;903941794700000000]; pos0 [1617373723301612;67366734051985710;632221833428454209;527303400018000000]];
  [pos0 [412163414906180645;706405118300374169;380723357222746127;904143624600000000]; pos0 [120290125453191509;123895846699134864;540910774015345247;298813127000000000]; pos0 [9527433995123112;759536603565685981;336056075834728834;32523544897000000]];
  [pos0 [181426179587850997;428229389617062074;956639979599428477;600811588900000000]; pos0 [109629539169664374;984024071204114259;523051488892377832;995274328200000000]; pos0 [330173323416455686;247774517606242326;220103827098417029;798011540100000000]];
  [pos0 [292868069344387546;283355995779242869;203020557879512656;407715782300000000]; pos0 [653701294496030294;367023922814316468;348327201672409216;279347666000000000]; pos0 [29147978424740672;962351304820629233;542221307125312119;892425302830000000]];
  [pos0 [490712771415291857;661372249139857639;841851915645536648;308702554100000000]; pos0 [311437265416919243;270618477011229598;95690824415598623;849715960700000000]; pos0 [100667566467669548;748313195710592339;226070479937324553;362989260800000000]];
  [pos0 [29321561613951272;327161722609011673;60502574548637682;436249881320000000]; pos0 [41402332917342573;301444537023716528;577976522785801308;209017845700000000]; pos0 [109514718958966341;112091758138343244;840002471940266712;955176426600000000]];
  [pos0 [327603353093800045;467327061938408636;211326332584097110;146293917900000000]; pos0 [74149488728507;824305765390212471;513052389876510316;548434729615900000]; pos0 [295487535102606277;948545837717086242;28759343071210179;363723383200000000]];
  [pos0 [360017861338647169;165415913254489841;245129963984737784;919469199700000000]; pos0 [501297898701069466;307213292674232838;897510989201521344;885983909800000000]; pos0 [43250822680646380;493297321539262946;422545138049081032;679208342450000000]];
  [pos0 [775531187938377343;27093798176852609;129901268731666591;884821166100000000]; pos0 [30148501866560255;664196305641526027;811058514868990875;863809157490000000]; pos0 [148187911146689746;551354748557320663;750723550321816377;202239188600000000]];
  [pos0 [212622519012012208;830391917250842085;263709893003657518;282796923200000000]; pos0 [482535036274829435;401985884576342977;576396790602825192;983233147700000000]; pos0 [130354752098416560;474131475652077925;905718099462777000;376648302900000000]];
  [pos0 [244349408253604301;126938547034864173;627859579259884997;5075880200000000]; pos0 [10318382922114762;406479347634650768;868204172654242689;462477944410000000]; pos0 [590349803755303313;197489984191324587;48488162008971364;630895374500000000]];
  [pos0 [301650541545993227;337726665369418520;56154729080300108;16109541000000000]; pos0 [143001126409897532;959367618429689857;122238454273060312;291279666800000000]; pos0 [480719623973593007;671797456848955718;565144540453117114;460544886400000000]];
  [pos0 [26205127676797405;509201516265545272;186372876565618556;417664539290000000]; pos0 [195686224271010268;740098231900279447;985790598538105734;559519074300000000]; pos0 [98161371735690487;787373446528897355;999683851095892882;627345343470000000]];
  [pos0 [45499798757061205;645557982329739589;672111545901749730;99288814830000000]; pos0 [198825125666394756;945997999483822440;392966754100655004;209984078900000000]; pos0 [476864662926583267;100786368600555952;884828205944722375;742889504900000000]];
  [pos0 [31438349393581904;345992956368677286;665825193548548273;648550232900000000]; pos0 [35932631783827859;126462298758511607;688339883751633450;210351879060000000]; pos0 [897709152837369758;415330687776053557;917205697949501943;363177877900000000]];
  [pos0 [29122288726517093;216961908645965669;226596067305729462;799673060270000000]; pos0 [575151627839405;278657018877524525;482066825340119852;977111382676200000]; pos0 [318843305523242203;853187261070149408;704535966080590990;636833787300000000]];
  [pos0 [227222236394676046;291630197071735183;484138041790953459;536942109400000000]; pos0 [90205672555340825;781047070378036884;493342900888275280;873622064150000000]; pos0 [25161224041421096;189050550690817634;324319460381318735;225509335150000000]];
  [pos0 [177369393271325314;518837728167704509;927013054816487677;461209867200000000]; pos0 [265942138332572336;903614377773811018;392594190570190653;731663420800000000]; pos0 [405367504954256102;139075608124355738;757193945263837772;735263798800000000]];
  [pos0 [643148477427071416;281840484447958160;647688659528377315;49325759600000000]; pos0 [42827126064195619;638830128695178791;888661387895241614;802701903700000000]; pos0 [311367138822065673;230597091175508797;236615034618727736;452617232900000000]];
  [pos0 [265138775209478;578948243831542924;910937347085828269;134402445554300000]; pos0 [894349756040724680;85372455606863203;204628992318041802;340518030800000000]; pos0 [34217235095180989;665577590931401565;537382408542834823;324741938110000000]];
  [pos0 [34361147868874548;879885465947487265;622374559539131182;179041434180000000]; pos0 [678005868883224272;595707535739112909;937712549608971306;291261596700000000]; pos0 [15142551369582735;722052947834216105;438624313756594490;55309611660000000]];
  [pos0 [499987988264108349;768931030223233515;577181718938212942;407576960700000000]; pos0 [174203639875196185;82783652508504849;32388321146104186;784705730300000000]; pos0 [288600852957414206;637052329942209126;754875097807449788;449864950600000000]];
  [pos0 [444450176577966701;972681294676599000;385894813465972589;40441816700000000]; pos0 [413505328487194281;126739449332092038;776098013446030559;505098398300000000]; pos0 [141928871152873136;567142958083013012;247219818245673898;457371930500000000]];
  [pos0 [94338570241813714;897181881649504143;348722249308171764;334460913450000000]; pos0 [487240069581508865;283780690260362721;501195123920184025;147437734100000000]; pos0 [70813794150528460;744354945916733372;395302962626206941;831311822750000000]];
  [pos0 [601187681268100956;426712210614548364;44630884167710902;307269614200000000]; pos0 [168351201689568;778105257961137327;410925625101236661;673973674062300000]; pos0 [145441348608407450;137582318902835465;328321536440882465;200900973400000000]];
  [pos0 [324968099558252989;84483654962081369;48509440745910937;257264041100000000]; pos0 [279627178020271888;309677095650246001;47983527150957567;818556189700000000]; pos0 [55728152910864672;724371597213533569;929754236703328260;403129922100000000]];
  [pos0 [108923858645604586;491077597012856795;525594861117352221;678445114600000000]; pos0 [23167346067972153;142063662172587015;338472765956168606;203503507170000000]; pos0 [474948908362767983;509500768124682236;941366615716144971;112115477900000000]];
  [pos0 [45372216771284115;966883074003995275;429998190897144766;509649969670000000]; pos0 [157701445237154310;408576689316486327;64597015303223245;442820337500000000]; pos0 [13406225503699345;493984064071395094;878091842966458699;202876924140000000]];
  [pos0 [20627840314891339;23747884430588367;400689733713657550;726915730290000000]; pos0 [307195260583592497;783665653419411095;66677136961010578;605296059000000000]; pos0 [281509741910901848;484387327685583109;976099653923928206;833664641900000000]];
  [pos0 [41661804502514335;514518473125248643;270951392071599425;72175917140000000]; pos0 [340292507411746880;489704908362661940;457788508489960968;193441262100000000]; pos0 [141944116896961888;264204629414934654;985302465301855060;690020444900000000]];
  [pos0 [523224605694665751;111984642205162003;21519539867306641;135154821600000000]; pos0 [17193983506809406;767826944838939135;486052938657120968;646946494010000000]; pos0 [374786716728893110;523443202076790706;602097386383359868;987950949300000000]];
  [pos0 [933382696541461643;758443259754082009;459075417297720915;601889330600000000]; pos0 [35566520008633332;843712345786561207;364926675197614851;182933043160000000]; pos0 [30717804976419337;293479649198141104;977709710636071003;212461578780000000]];
  [pos0 [36879453168259424;147557269385701297;531341196739247265;331907712150000000]; pos0 [106873346342827945;33512468160027081;237816315883243302;320639060300000000]; pos0 [287827433681412943;649615611564068271;47166171670693564;644371806900000000]];
  [pos0 [239069587380380989;153960140983672774;863816768609530081;521592637100000000]; pos0 [270775039711668146;432592852069426557;724740588602624182;608412948000000000]; pos0 [490031479403939609;770637223054154864;861727231016027205;850023511800000000]];
  [pos0 [9877454016776290;207637402871878873;766325164585613014;787361773202000000]; pos0 [51594281605137175;256295554622175228;307788033058917564;248401428330000000]; pos0 [557651851334661132;558674995919939208;241209645375995467;115746992900000000]];
  [pos0 [146872366907599138;829012765951739209;691893433397109682;740883418700000000]; pos0 [316319638644184553;952907025812348847;451303786824958353;302517220800000000]; pos0 [14096465583744309;68586215099044497;174286910003975463;407826229230000000]];
  [pos0 [826009360652385629;981540841943539485;408232023163947657;849709634200000000]; pos0 [30616749579124643;686310752317851629;675595839489665141;440483947150000000]; pos0 [31463703602632070;160862368349068681;107018339627551439;77914388030000000]];
  [pos0 [138011581734029365;442875953463663460;562438181525241737;804224950400000000]; pos0 [103133696653892385;181552073513319441;971538295094133334;248271840300000000]; pos0 [724684843262315566;971116081620642491;513685477459998452;834953267700000000]];
  [pos0 [285235140396084042;85980932382935218;871549364726409086;859236828200000000]; pos0 [392704378842466758;326211185777094052;305627439796205175;168843164300000000]; pos0 [267778380570343726;252716701499777777;882202970017220083;765866577200000000]];
  [pos0 [19480603322631985;820158004985116925;383862441665190522;138232460640000000]; pos0 [689164815745862530;768318715207552076;49858842455732735;511468059500000000]; pos0 [240662250891233125;488435584409938150;12944228179033946;735936857100000000]];
  [pos0 [183247355053512386;854157261540853431;692649160480288427;799232943400000000]; pos0 [641098146347511995;611087742948997602;684567980664790357;49405001300000000]; pos0 [144071081394267842;395691575363249013;702464768498354722;588215764100000000]];
  [pos0 [60549351184396778;858772352464188898;814679370358969485;808462507020000000]; pos0 [703599279613752695;29905354865235304;367421772489157534;370771789100000000]; pos0 [106403896783955549;53675250276014915;803791338609656679;808168089900000000]];
  [pos0 [591332247397936;180851760631260124;230211931219095127;66088587717800000]; pos0 [583419304082161433;523317312290022936;372291423161536460;793739603300000000]; pos0 [141904946321486920;956553714876237672;920938658385141119;594430044600000000]];
  [pos0 [19738220220580314;584125913155492452;523797650634269989;72650848140000000]; pos0 [198339194163258624;447704112570010383;442268214268581872;848950921200000000]; pos0 [781488733462818138;863918720874586817;747041284127525702;806363885600000000]];
  [pos0 [2021795121763506;710144483213453321;766940617084217928;864742514575000000]; pos0 [26560689677404987;9478278484173432;687962375199158050;843969283110000000]; pos0 [256917470722789;888842774899960152;247318143628875910;820389269137600000]];
  [pos0 [158367966418244876;239564054040628232;510345394431153594;639674363000000000]; pos0 [274068575612160929;210177193351722022;293735299019446780;237385516100000000]; pos0 [207880371717915191;994626002492950495;462710954235931399;669221750800000000]];
  [pos0 [116460517332001445;242427076166128300;836442873068315457;893893761100000000]; pos0 [25537416473295411;496231845967744179;537783995555252218;531862827390000000]; pos0 [33545631729354729;320499113592150422;820135821025171266;737638475630000000]];
  [pos0 [41433299417981430;646339722795421249;950072772366788;665322552310000000]; pos0 [20555940628428632;548366012123339245;753820973326659549;617140543600000000]; pos0 [757109413373239706;724101803812322633;82846302808655806;228992084800000000]];
  [pos0 [357232878847024485;575031505211811648;148854407644076764;801414863600000000]; pos0 [6146477733479475;827571060431927264;378532950842507729;271910078563000000]; pos0 [46577925570050455;621490534034062494;5354717125620027;861111862500000000]]],
 [pos0 [13094100119222591;184491035001799506;277364507582710081;156235561160000000];
  pos0 [23236426844254445;45941063180873878;876312700101274628;388778124880000000];
  pos0 [15887970114493407;877757650640138432;426390399232192753;381305532920000000];
  pos0 [19702913992529150;819196427184457774;102203477238998075;915130580630000000];
  pos0 [6087015511552062;998784367189235251;113473142219856021;594261258068000000];
  pos0 [1681051109304387;418325590675207784;814203530555268112;542237349115000000];
  pos0 [18575817579559143;899306040675281343;283997747151388530;932314206120000000];
  pos0 [25865948504725698;100817947452173388;36651503591021136;683708045510000000];
  pos0 [7429891826602586;819604538287904190;304620979356371856;411954744303000000];
  pos0 [27980810578139704;506886876994692484;460362165171177408;956688731000000000];
  pos0 [39774310607469414;498922956491575515;390041229282231544;274499734930000000];
  pos0 [7578214743998405;479671369392790279;600407467663126426;489386860297000000];
  pos0 [9342931028929043;498649049253837371;48361532436111814;255603123750000000];
  pos0 [3106664715382946;116743011214406689;973018689934790145;876449906430000000];
  pos0 [22296039258306698;552413964193483332;780741825027884143;410635866280000000];
  pos0 [9326327493327437;132019938547279493;326814014904537696;667131840470000000];
  pos0 [33982594505072880;273723317712304568;449533097802707397;336176963400000000];
  pos0 [7740525383061873;357124691244329740;813505559821407192;349387860625000000];
  pos0 [1022280798055693;618722235811596397;38427548639648229;260087200233000000];
  pos0 [3158471264025583;677188308497684918;793922297387460509;50509835234000000];
  pos0 [30517584462049974;286325151611646282;732664660135008237;40996622230000000];
  pos0 [20842158397255784;39352222738505786;754919491914205549;328497360440000000];
  pos0 [10791834235089559;458504678805395877;640724106270576622;527937631340000000];
  pos0 [5320875178278764;727049401180672702;993409334535337123;778879069639000000];
  pos0 [8695668525163580;26442600928709101;100236127163091855;3704264495000000];
  pos0 [3559817806856251;274445219238957098;552169510350439306;601919771027000000];
  pos0 [8659661354720185;184384606749088169;7621516601805009;947180267493000000];
  pos0 [33288404043039776;517844255130431059;93136041090879058;415144144540000000];
  pos0 [6562279626228476;20999019110886880;233702266548860702;460905804535000000];
  pos0 [24508352559487478;672858186673243686;501139367131279299;239139231670000000];
  pos0 [7421307978774415;798289711390929174;806373305452841777;906082587522000000];
  pos0 [8386126724249986;598355368552963147;701641773377405438;48233857644000000];
  pos0 [14080847076184049;387038484721413720;202659312422346819;579968517540000000];
  pos0 [8082108840172627;530822498556907776;130790666976396381;570133715051000000];
  pos0 [32319957846869433;6680181519357639;860240618802218857;381652903740000000];
  pos0 [9072479627205161;133785298956988894;175455413263730397;995518846720000000];
  pos0 [22920691168414049;414765803235799982;477797759407408881;414824023690000000];
  pos0 [10268151960896284;182475820588944057;432346141729979788;862741946660000000];
  pos0 [25718741458407215;342088554934620944;229450368980012949;154360304090000000];
  pos0 [3928181298541984;121303450842708093;173291277577465921;312367907050000000];
  pos0 [3385704666090109;158323220436376755;652651364703205259;885430968366000000];
  pos0 [9885959023549995;78768786544585491;403119643805192473;170317551936000000];
  pos0 [36127497239515210;340147641383666544;938302947020120482;761764233900000000];
  pos0 [3783824796959272;900701384668342004;870203287851377230;676013386351000000];
  pos0 [2228316340458555;860161791729878416;346266411998174679;363657190926000000];
  pos0 [6033323404683552;695493527099885912;395405080981673397;845552642822000000];
  pos0 [23214859847799258;939853663010362997;33165146197271434;361870840330000000];
  pos0 [7223921239921966;824918849911292030;947699184906385968;963808871556000000];
  pos0 [21676219811841947;553379891874731097;240071818503662828;436455681230000000];
  pos0 [6521656161728592;67097156914734256;415492740486814123;261916421785000000];
  pos0 [32319352738609775;536474668518202819;382496307196128477;610485806470000000];
  pos0 [14430147392380003;543632029673407735;396316936244171386;622029736830000000];
  pos0 [5421548340346177;339242589038691525;694993702482311068;759861155153000000];
  pos0 [13545789780856264;76142567568835648;485099833810593212;6133402250000000];
  pos0 [13138072606340245;652506236734586684;833475594148423281;147327170420000000];
  pos0 [10288083230778084;822459639606319606;666934741691737187;677530690180000000];
  pos0 [1331733048713957;456733301393575097;845891555708303937;886785738281000000];
  pos0 [20073349555537000;607962467701439687;634184604269140800;102592228210000000];
  pos0 [8491714999674873;150455137304415986;953973774126962806;130207726528000000];
  pos0 [7028574995616469;192538727994578739;240941328502385041;911360210766000000];
  pos0 [11829985372840477;783846357814611345;4066048565163077;1811887120000000];
  pos0 [6514504411571351;266102476961542801;219657853453787178;311863335937000000];
  pos0 [13198955103041835;550246156698050389;794733200493315518;721359116760000000];
  pos0 [28060264627870134;817593354601573616;149795530264403036;860682303740000000];
  pos0 [7962236640442574;249958724817039422;255821957575876606;578441714290000000];
  pos0 [14859181603691932;929140416984933081;804326891237656107;848580532390000000];
  pos0 [14989605769329800;412625708728298029;180619301466008829;405359456790000000];
  pos0 [6840660252544596;595928344136978530;2393471788914657;762058134955000000];
  pos0 [2166195430713587;378795740182235014;601642549157582760;724298748664000000];
  pos0 [496333473562575;364546122800276354;632390213844598820;494456637986800000];
  pos0 [36447921473994887;860245275179060045;778742226243618937;609394557630000000];
  pos0 [5589227059271511;908386571562929471;233971160299208318;667220492530000000];
  pos0 [6940849367264468;62944594401589747;819298216989403664;102910819918000000];
  pos0 [6138894046560761;422545980913750695;435732899154973724;827788504314000000]]).
(** JaskowiecSukumar2020.cpp:1075-1451, order 11. *)
Definition JS_Tet_11 : raw_rule := (
 [[pos0 [771184477823240208;913116796329397321;856200199158246907;345028431100000000]; pos0 [30149476635775709;133333550458901435;75024852989332373;84075394680000000]; pos0 [174079620317015995;628997755787616605;466599773047355137;575499207000000000]];
  [pos0 [539439579554752608;788884523755728977;277967001249399115;807656789600000000]; pos0 [404452877552081177;796039110690981968;637818714019757935;187137424400000000]; pos0 [18874512805062669;82753552897033163;957343578733933472;42464110670000000]];
  [pos0 [645757520465285451;743046551398987675;527351504894340041;575731677700000000]; pos0 [2468748755846532;657745223932759074;102111352801448305;271471219961000000]; pos0 [208388525680420460;928745381054095382;166310603995741286;113199066300000000]];
  [pos0 [35206867250910605;828819645175140722;765857586686305548;987743448660000000]; pos0 [814674695357489335;887685846272026732;243834171379466491;252814646100000000]; pos0 [24980334075925634;815137701965113511;538507697275267737;565405931710000000]];
  [pos0 [202143667520649522;199101773984772804;957517721024931056;989318000800000000]; pos0 [22980550715343346;849807896251892428;348066626047867145;280154181600000000]; pos0 [456996636702335749;369739330293296937;824500904476401565;644166550700000000]];
  [pos0 [28709462926826182;976904639518219795;471833911544777765;761563496070000000]; pos0 [165595710768352266;380592616877514841;565934976153969740;559923285500000000]; pos0 [803273315480531127;684193274594443775;847676540066312471;966491569000000000]];
  [pos0 [141931798748882889;690967963273438125;284283816075381994;344453025300000000]; pos0 [37474378133749342;571976518316117663;408789019096141713;488541206740000000]; pos0 [262394060027782822;986729661025361118;369855955743563004;441615986300000000]];
  [pos0 [270122388743190010;259448970531413983;28815290453737831;105051439600000000]; pos0 [273271419323451026;963368054817355688;859538237063201124;981737145800000000]; pos0 [268925750693521426;14954238994783573;948702957340568363;563563831700000000]];
  [pos0 [251018391068873245;160823835582718458;417165377898963598;781612937100000000]; pos0 [72094393510054992;891945198561458536;953037781397054235;31845951600000000]; pos0 [532678775541007763;542169060194359378;96670489684661380;695285326500000000]];
  [pos0 [8015049556647654;378154130639620985;605784657450743764;440591737110000000]; pos0 [451735313172501196;884811015559797534;781359799449457147;317534561100000000]; pos0 [234948389704595852;996514112134034052;192355878248179247;559189650600000000]];
  [pos0 [125611232214661904;922845486873337456;365243052987812239;410592440200000000]; pos0 [700825962749978613;289541723077404079;392330166786804068;811639260300000000]; pos0 [136562426608691700;713392173470889804;98585385975982607;20651410500000000]];
  [pos0 [308299152461192647;779988523143394260;135986636877496750;161012531200000000]; pos0 [9474230997113106;777818460899936754;715523476641577711;761737947325000000]; pos0 [253901971967136447;20312856591923724;278362276037648051;138662374300000000]];
  [pos0 [289450536294409354;713235706707910534;672874552527246991;268147127600000000]; pos0 [101287299579482284;528259902703521280;985855192993890468;325633129500000000]; pos0 [168094734924809082;594015894729223897;813428587919072714;349659548400000000]];
  [pos0 [483149250392916685;620271340941389822;408553258624281453;4799042400000000]; pos0 [279296127839811641;329955616507326873;113062104314072719;630213921900000000]; pos0 [157830469624292334;236046920376219758;280421880460139091;553924258800000000]];
  [pos0 [93926781513942231;466525086029357705;750818268348689206;423766212770000000]; pos0 [294975229465335345;480193369983177439;911860158040964285;458514211300000000]; pos0 [355331029405975530;532943767672654447;133369810563251377;381270822900000000]];
  [pos0 [280881662159444558;478380661593299610;183504326571589654;573315977200000000]; pos0 [23518360349339504;677068053658999333;919250021776302777;451868381650000000]; pos0 [94788777825783315;272721926335420633;47221379014296235;220351799890000000]];
  [pos0 [23439761203146644;28636978604177421;227812765717271834;471536604420000000]; pos0 [34535084403350958;880018722541467110;655346084488431321;403599981420000000]; pos0 [916134170617309608;733215494324638906;735920509806713814;444840512000000000]];
  [pos0 [555645005196962878;40672877413901497;266749743888603519;392619147700000000]; pos0 [163650772131173611;458967273477093213;496082498886668800;181932263100000000]; pos0 [269604138503832510;224079618511539550;727889334415136901;185458109600000000]];
  [pos0 [177322993507837634;116682478409508456;729098287912778717;352943333500000000]; pos0 [473784751619088624;230228398795259814;526781174659130540;8735010600000000]; pos0 [226422120325091236;302212879379478859;42360918838783846;918644559600000000]];
  [pos0 [144175911492444186;169645920688148628;444739507975896674;766648566100000000]; pos0 [522067582444028574;644627427555342021;464058331548942030;574343998800000000]; pos0 [22572295722751675;308226993211160676;942495537334968451;773318365350000000]];
  [pos0 [115211177549809887;329713429938086339;26422794737692422;241526607300000000]; pos0 [109012746648940875;985264520797646794;654142677429352352;165009806100000000]; pos0 [98725179093727562;277418808877022771;406160793011136289;319502716360000000]];
  [pos0 [473317868651973181;818347500087015636;156348799690664286;225750759600000000]; pos0 [151714015847759890;180628474611701040;546230864330215004;612248911300000000]; pos0 [193813647753748833;402910988364124819;699804575910694042;12019914400000000]];
  [pos0 [512222527188220078;508905458257247123;435936196731860981;392867201200000000]; pos0 [28719566427552803;285470751735085526;197709797025050810;370206797380000000]; pos0 [113591642215924660;595746049385506544;721675953842297158;713546850900000000]];
  [pos0 [96204677945224707;238980910250741645;709811297376499303;938531860440000000]; pos0 [569886714540261817;866920802539154008;995001752851969281;947302958600000000]; pos0 [327391509621996107;235950558415332896;885801022185167439;934595044400000000]];
  [pos0 [307657160391516008;353008466906129995;539101690038583691;250142889900000000]; pos0 [24816553006698880;719481502495384943;387582624020358310;445933963050000000]; pos0 [635581703244283174;405880285881634611;289968380437495285;592189577400000000]];
  [pos0 [82480948888603683;302794541227518935;619553003988275346;764842526820000000]; pos0 [110375760758596518;576348301811925939;359197880315336485;782635375300000000]; pos0 [377603996814200783;280948513364066820;647684825328426218;576588064100000000]];
  [pos0 [22312616178277880;989262570644829674;279394621850102744;971270892320000000]; pos0 [339637541774684139;962278142956681169;228922842025309761;542123861100000000]; pos0 [475148862347027000;279052792408829928;709419634254464126;557120149200000000]];
  [pos0 [127194338733586801;29394996315390853;768651103258312480;503612950200000000]; pos0 [17097617470621552;797185714770943362;550156952904103798;508089395370000000]; pos0 [834306938660672796;412992261275624876;442848947218040124;117295606200000000]];
  [pos0 [23580209723993884;441743218560453786;709948860908843240;91616835690000000]; pos0 [239954131595569925;30575931076592047;594521858254436062;692094730500000000]; pos0 [293686963185919185;707237148830191208;935734670777378065;422304161100000000]];
  [pos0 [126132877485423499;324097987765462589;805727336320527349;29716513200000000]; pos0 [827729796998234878;835537568393779439;327429421817924542;233050688900000000]; pos0 [30366275652447153;37715559920871753;367523132554178897;716662851090000000]];
  [pos0 [543386047040068635;242461388163932514;482785629018617110;867337274000000000]; pos0 [79018722164231409;188029520192001787;247968528778650011;981106092300000000]; pos0 [288965388291952754;908848186347355123;958353902986315657;159547878000000000]];
  [pos0 [333098304330796073;959701752270730474;836095080262709494;78277086000000000]; pos0 [127022744562832199;727860100451611807;330134758874731370;235905249800000000]; pos0 [451595720885338791;852624893873012172;404026621832655499;112439792500000000]];
  [pos0 [142868227350987772;914025945586962213;447894075319315744;252722487200000000]; pos0 [21174352303942007;242689043897656972;812624305705780719;707216164650000000]; pos0 [689763521380865357;549855075446561732;901410906159444586;737843008500000000]];
  [pos0 [14293678102444836;412643747142573945;171946448165752408;121997770920000000]; pos0 [163745879306136074;324218025714835856;867059059512404977;690024448600000000]; pos0 [39500251493601511;571365896168438533;709231506519708373;191022955860000000]];
  [pos0 [168257214981281685;693396693463559381;176763929768737005;405395921700000000]; pos0 [597540184230500027;956876294385849529;815964757856325379;261058045800000000]; pos0 [69705980169490571;829228009179111847;255063078566473103;263230838600000000]];
  [pos0 [137196683065723231;414039959711951528;596022161047590547;322247120900000000]; pos0 [108501148082759486;550150973965574445;17396429105734777;114880171100000000]; pos0 [716471912756905051;254390673182979632;538918835421082897;333707761100000000]];
  [pos0 [343489892636919368;230933598227822446;493077336353633743;665765680700000000]; pos0 [479058724871692859;832040386946091070;706246275079424845;879672242400000000]; pos0 [17255650079845479;53456129403236483;52580142336156620;626185897940000000]];
  [pos0 [306691309067315600;49427419384774554;414051418958853876;175717533200000000]; pos0 [382289085879555073;831426051229633480;235221507211485368;938517903500000000]; pos0 [291666031120305485;65925965722285957;232073502436898704;835903542100000000]];
  [pos0 [28807250464156035;93710552377259743;151879198379494711;743379329610000000]; pos0 [383312273233856527;556924295047207555;652130217636938812;226687770000000000]; pos0 [3557852602795268;959135671887772093;785732768526467536;587581799626000000]];
  [pos0 [273446145397616084;168133655918350819;58658967920382494;909502258300000000]; pos0 [551327032694155171;839801237360539112;803555920332834796;969169046400000000]; pos0 [154324337815933376;28650001563786060;232238827860553917;378005867600000000]];
  [pos0 [26001577959626183;180942491817233575;923161177976370189;975767751120000000]; pos0 [536365999276620396;217800539658766600;518295453920358863;800711684800000000]; pos0 [58101356509930102;636940655508471108;590158723794565706;645281662210000000]];
  [pos0 [31310451133808527;901822450656811680;189471420657851091;926308190340000000]; pos0 [28501979442441433;303253972725455385;686516967184082668;711042435950000000]; pos0 [823648808085688970;287552071424571165;668127695275468156;282630342900000000]];
  [pos0 [355061934545681610;719659547525550625;795826180169928485;162837938300000000]; pos0 [291707428657239658;366290053352721561;95833007583856381;780188061900000000]; pos0 [7813939611909787;62963018361415410;211670414191388900;507047642994000000]];
  [pos0 [691605469266916012;252492628604559198;875250491488979939;257092452900000000]; pos0 [68197701691966879;111869731460040227;700931981189411952;447214138810000000]; pos0 [89906413442127108;594600617673883478;28120880966574505;197363599370000000]];
  [pos0 [9405227228336286;660385772485439483;165679745951342958;266414242383000000]; pos0 [45746955017375170;350831226579251876;528272744908601745;920617090560000000]; pos0 [414099309081322681;989159214228496534;152581815153748036;342958922800000000]];
  [pos0 [23255132453904748;910310689305764248;734070840294361731;262549873200000000]; pos0 [915019828059501526;843747663787470343;618180332758379750;711264925300000000]; pos0 [32806945745177203;184414803771080317;863606253159983615;607517947750000000]];
  [pos0 [702440264961588700;760192569586237123;913499639677098657;992450395500000000]; pos0 [9157891497218531;872209559896681889;941808054265456230;358881044922000000]; pos0 [23111234039573174;664414176534264244;408578558645867027;88289245930000000]];
  [pos0 [787983124705038746;946622409867545949;302238981439060775;947140891900000000]; pos0 [89763202417867738;927453476983203463;402469037355376449;551027837610000000]; pos0 [2915510329983943;380822271489251762;290938007458499396;563581316342000000]];
  [pos0 [35053062960690433;171574363994604487;325672421792340362;921932791350000000]; pos0 [32893413844118061;886960539833081020;775076455224950732;317949102550000000]; pos0 [21959727940517558;22017485903666858;82595693501212537;495800472810000000]];
  [pos0 [434530539486262845;167826131562682796;892852265815719843;885137033900000000]; pos0 [25292615209571488;422962085727964359;19194710657338950;799805741120000000]; pos0 [21065053356866531;854270023643174243;179995761075193991;986228249860000000]];
  [pos0 [146876024522310893;111148594811670618;350775740411192085;349368679500000000]; pos0 [312993000146837229;392420059795865414;965963653206454338;381133561600000000]; pos0 [36325031737106768;134278859314117554;598261352062195554;343700806330000000]];
  [pos0 [907654818128354503;261480643889714029;660488481156715403;140503481800000000]; pos0 [43836618078476730;419793724252196178;630529851600179727;792881719830000000]; pos0 [31432504376643333;781656353796254983;286911109702029908;384383753120000000]];
  [pos0 [114922602677344669;603884355530710752;572725276786232010;505780876800000000]; pos0 [17372561595524409;508739418084857405;836021261435304800;225457868220000000]; pos0 [88193335056638151;603919257016479076;261479543448249422;238949750070000000]];
  [pos0 [161942637306232740;815422015830376872;254446966630518906;3033324600000000]; pos0 [720116576093354988;668214962880597104;332593104541361981;200779318000000000]; pos0 [15926580976723308;337701486813042557;867373327840187027;156075533760000000]];
  [pos0 [25233036380728764;138705300416092285;828489700007931041;885061299740000000]; pos0 [155149708646596402;105126509437798183;578429621552045203;910557827900000000]; pos0 [724273974425022178;224055443068389250;107282086252024054;723590353700000000]];
  [pos0 [520052988544047412;808386719379764946;554979603854781590;217316509700000000]; pos0 [363665988935348739;649685082734320563;636663826385102789;297262143300000000]; pos0 [107961167137698022;958390241774288346;662957286024289958;132272045600000000]];
  [pos0 [348598284107937657;793972397781104085;161045566868569193;300317334400000000]; pos0 [121467251205617964;195544817719464185;676090714698473267;354030001900000000]; pos0 [523443566060930415;640194214698512568;519325167691350024;665591147900000000]];
  [pos0 [867729476024243266;847146670328386231;617436699319444933;339658051200000000]; pos0 [6252178054674931;616065479330196456;868826736202489062;395138780534000000]; pos0 [42409483427574491;915690808791542903;687926248964315814;295958964820000000]];
  [pos0 [553760381384398693;753205750274442555;542321606162881086;661184883200000000]; pos0 [102776478420296773;160734465143775149;902031719375115077;199982725900000000]; pos0 [19537291657762027;579414866554487018;257526148820633351;424425503650000000]];
  [pos0 [133582851361884819;83055049162797312;630000507672129433;454909784000000000]; pos0 [424904025908364372;377548034266508712;88275395314377652;59597884600000000]; pos0 [383608557846322173;441452803552496607;27846397648117717;630722418800000000]];
  [pos0 [105431511160295359;158101258112751432;964396048342066945;110379394800000000]; pos0 [643534822154244835;979408841537643615;247069743115993492;218243181400000000]; pos0 [98706774763143021;602905351348408852;881056789918138391;786023932580000000]];
  [pos0 [28117284133717343;562262376880917135;223784064299000380;806903516780000000]; pos0 [110890421021322858;139886440562530887;102343909134086639;626296390700000000]; pos0 [202061004868490930;27738675881233312;192160733366027935;176265143000000000]];
  [pos0 [386947924866330985;303753016305710762;816751087538012696;512707112000000000]; pos0 [10909165218869565;726339819591120878;80007686878304465;123424862520000000]; pos0 [461826511210971549;301941620964278438;809477778194937563;673208185100000000]];
  [pos0 [145259476356746304;352052539210816254;657274853201028755;466891350000000000]; pos0 [234911361430609445;838093619128203736;295333603219393810;939460137300000000]; pos0 [517425956285856767;49540204321239426;802455576212825578;971632688900000000]];
  [pos0 [239521668999070826;901684710589482467;416918881689497411;852553841900000000]; pos0 [128354964775924320;106674647566179075;839365002434942973;529307096500000000]; pos0 [346340642065539261;753980594494694668;949785948673790325;987584917500000000]];
  [pos0 [287790765267758187;580330575240980536;194515543315692767;600715974600000000]; pos0 [136771752113077852;819416199086347284;84712703143116828;266143546400000000]; pos0 [32575076367135517;87586104245545411;399570780816607971;741115949800000000]];
  [pos0 [422238381839457519;477516024206614609;688099798240553128;182920962300000000]; pos0 [42917237666677621;842204397589448154;874890753669802447;178964859100000000]; pos0 [284973941983708864;293206735914154078;269299008534796596;127672820700000000]];
  [pos0 [750772293893801715;539313854978505183;490331201978118633;354758765300000000]; pos0 [199552900709034594;422217305119570466;336737721027166451;400307404300000000]; pos0 [23912643073765792;443601906786721958;327270987006884463;187206123000000000]];
  [pos0 [24298767767161547;527716287802968165;845425209041511596;918623969450000000]; pos0 [781292298193432658;55995393537714915;79767738892075186;320293924100000000]; pos0 [164364521007659802;749497752415814734;676873313244966505;791001258000000000]];
  [pos0 [318909750901157812;459755271478736702;945736005267061703;396830986000000000]; pos0 [623796677577883756;668448488051725727;3127961227092152;372960044500000000]; pos0 [30969433913046913;277183006481279579;736119644819797337;511709020530000000]];
  [pos0 [338391413024377089;623105455144566215;643827735477768548;215923311300000000]; pos0 [454050031755012838;585827062944892570;541134423697542171;909716721300000000]; pos0 [103285379536159045;779789377735952101;338397326950552618;415240376700000000]];
  [pos0 [419393023646009756;244057332694602935;650566800837651133;473173352000000000]; pos0 [167853456304575201;972436923164712758;286378951893152611;481775222700000000]; pos0 [95826584901792632;971742543172869667;363059324014462752;355963120390000000]];
  [pos0 [343125601943447928;368295243610373733;84910904318265297;782885727300000000]; pos0 [255238185521329699;987732864602135273;647518312422712537;965855519500000000]; pos0 [350746087406255896;484118983681076984;510661740382631289;547004219000000000]];
  [pos0 [9312024647538243;369826863870214518;126032991794926764;981045908948000000]; pos0 [575720005798770144;217832755213268536;156909945400299983;67131597700000000]; pos0 [386868622874034281;73466715700540409;214367223562455822;483075718500000000]];
  [pos0 [710551229203001273;157773016571538899;797062440985733475;293993042400000000]; pos0 [144349549150834578;180377530858831230;850290330559357330;329960232300000000]; pos0 [107742325195422503;360655974065120291;919227739496429276;396770356000000000]];
  [pos0 [39007920817473344;329238131552769088;682648428349273607;896152596350000000]; pos0 [556871691287134417;253150591106248120;8386221393672143;281027867000000000]; pos0 [284649710486833009;573440585321608711;723542396833007260;90237170600000000]];
  [pos0 [34413366386708231;76594755654027907;71855982777729382;15134093890000000]; pos0 [349065313744471406;34077706414068291;117851269136284091;378858648400000000]; pos0 [583784831929274290;328197962572155298;390717802218421390;493117247300000000]];
  [pos0 [30482936103575377;910242530985725680;40810109567165751;262090639740000000]; pos0 [689354579857344228;241957374614038645;928199908336978467;849119232300000000]; pos0 [5360741363266648;993419229756955980;290521192373643190;372626730332000000]];
  [pos0 [149359078771279288;472119509293564176;598772915829021206;921596606300000000]; pos0 [220344917465877018;179061163786391557;583472282824154897;565293105500000000]; pos0 [178549359594873500;960744184520870467;54857624948973827;402979743800000000]];
  [pos0 [30716426468808937;9979344712218774;568720295596390034;194743165170000000]; pos0 [303979842649248436;552566709991620851;933414842075950288;719144820700000000]; pos0 [104100814728800395;758580336816640573;468234900509901971;177414088600000000]];
  [pos0 [8511440408983542;995050164946299476;539665130723166483;237214840063000000]; pos0 [158711067239331793;27561757605247672;901193017452233057;89921599500000000]; pos0 [530954542707787487;825889170560823585;402687867303188142;905680868500000000]];
  [pos0 [65399620983518019;397808317746675145;255496398560580518;645682037310000000]; pos0 [14497888533002320;271829759965227282;755679184395586981;881108559410000000]; pos0 [522226958738786577;135854958503389120;752807628689318920;637673572000000000]];
  [pos0 [19822233385480147;135348834008082983;470978158230897785;200043411800000000]; pos0 [31932603045940630;392440321174838479;921127813738988012;498005962690000000]; pos0 [680658414281380335;793674220058249893;563487793733905541;926908644200000000]];
  [pos0 [279865292460383972;693728366159015478;923743085106362741;240753545700000000]; pos0 [337317609456204603;5622995336166612;142863646408931889;642345257600000000]; pos0 [97495340016112871;168451704235135106;463488466109374065;893386984860000000]];
  [pos0 [549764340110827705;806295880147327962;669178274489374510;758412747700000000]; pos0 [25929410713816946;826202273467383313;483945005913182423;317378561260000000]; pos0 [398878370569677286;313972230572795335;775402777858740170;739302114500000000]];
  [pos0 [562025615609201907;841725942043807370;920848217525932281;791294891200000000]; pos0 [249436818062170008;567796825168436762;252573823817788537;21196499900000000]; pos0 [36028379709469166;367451186523391332;999770453858036149;517291905620000000]];
  [pos0 [89216979965616418;576336956535659145;865469198573840816;838836285080000000]; pos0 [114638401437019911;295758309373415019;616704802169941184;55067243100000000]; pos0 [572182554059299974;115317105905407751;559972913507973303;788003174900000000]];
  [pos0 [195549430066187139;396846556346812005;130835088086430705;676072847000000000]; pos0 [32545788012622124;285492387706501755;971111918473316792;318680845800000000]; pos0 [7923794324134563;559034099305925430;941370354987767595;71983744437000000]];
  [pos0 [14164519920845215;292980821476190494;310663656095508908;377575245920000000]; pos0 [31370417332663679;126406800487343820;644387338087600463;688177712050000000]; pos0 [123305288904082602;813665329414477204;739778721406857918;243532772000000000]];
  [pos0 [20019464138805672;992795870526575811;507444479699281319;862746972620000000]; pos0 [700121816352029338;659873273001414887;905155878068452793;175909125100000000]; pos0 [111653313014469755;980409427348737804;100102004484365122;169821556900000000]];
  [pos0 [43832033736204037;333203761486560428;607223202703095711;954156798080000000]; pos0 [4485252771218634;152239824982200871;351844268819722285;905253149980000000]; pos0 [268197719995975189;405041797355258543;58562827428556894;458829866900000000]];
  [pos0 [171529730438565469;126351785508213349;980805814134550710;360977893600000000]; pos0 [271807817871638560;969289567204827799;155072960320844910;732009714900000000]; pos0 [550761375264204434;651448332912773415;966335922009861344;903344934200000000]];
  [pos0 [97898045170082096;772723265303256;314993257882373759;66960034510000000]; pos0 [157052189386831146;655577433453794615;178633355586165659;688671897400000000]; pos0 [15266431471566375;979968889673107708;879833080993383966;118447504700000000]];
  [pos0 [95203749770050551;603538318922135405;741569267753985035;981595164710000000]; pos0 [441026578450119737;926396457599948346;536443346567398599;162911908100000000]; pos0 [160565555733030674;10083154229539297;96189902210631598;879749127900000000]]],
 [pos0 [5550636989257514;341880936648225760;351924480064326615;189811110071000000];
  pos0 [6147753214446438;768490126833886794;513633878746004918;50157576898000000];
  pos0 [5159095574993549;908080693069037324;523947743551078872;484607057593000000];
  pos0 [3962322477394990;317114735984526397;216574307206988701;248703560900000000];
  pos0 [12241608910712074;195034580999708403;19440433561676869;163881329630000000];
  pos0 [2084868434742420;49665294716451498;973045122541270355;865774048397000000];
  pos0 [15011787199239510;135051617682886800;272230182442480126;787796301670000000];
  pos0 [31155966392942235;549225638499658333;911594494119947183;208420805290000000];
  pos0 [12185456096949846;725484175946128007;499134403471902363;952702808300000000];
  pos0 [8082313515216951;192503246472527171;158747523975951046;212177541688000000];
  pos0 [10524636089613851;580568413523822083;839120557920417710;476867509640000000];
  pos0 [6993275844091770;716292971849416544;237623220472351423;24440101093000000];
  pos0 [21418842920139957;866010611103708771;438074267925887515;544991799720000000];
  pos0 [19848508875260234;282721255419447228;304536812214983486;577358395250000000];
  pos0 [26492223657304242;187839004356372145;710660973137351132;709150202960000000];
  pos0 [9222775411517665;207348570961244621;795909211149390626;169704045803000000];
  pos0 [1993361086264612;301895626134850680;398287403465683272;126382127374000000];
  pos0 [8170583812742500;421884804157306852;37473272649665118;787021004139000000];
  pos0 [21900354386581747;176414840044069230;961778574143300730;347431771780000000];
  pos0 [11971858652022306;269487379865461526;570295836414630566;181633400630000000];
  pos0 [14631354823788703;419745502479102649;817786546161699250;657593358310000000];
  pos0 [21713251714513927;773532536490902732;801235665483153974;516037509900000000];
  pos0 [12993781318086174;44283054122316592;800605044520646298;966160176990000000];
  pos0 [5524217950502176;461001816456728117;701231960859251868;115893767798000000];
  pos0 [6452899539006407;324094976149873183;656474385407715379;757393520567000000];
  pos0 [18775568688447353;639321111049371776;48766487509637555;138264708630000000];
  pos0 [12598684998195320;265305176808171460;178514327134408904;618341517750000000];
  pos0 [2535822373515776;986068792917734755;56099940046861082;796527825475000000];
  pos0 [13148881574012067;642657424315134760;140642582446189922;19302324390000000];
  pos0 [3092139090153155;795668524997636442;992776079094700384;104550490463000000];
  pos0 [15782561920038220;989859280413801918;209819711755518612;328503719450000000];
  pos0 [17767636734068450;633234594284746397;297394713346266356;168268594420000000];
  pos0 [9093208915888955;324990455690514400;560701946417560684;483828181550000000];
  pos0 [4315066142665269;268461083430474670;291628181340237839;733266572526000000];
  pos0 [8994064821018319;167992924764084560;125899864569842824;870542911123000000];
  pos0 [11794743610394439;904880176327111925;299304604914201791;10170150140000000];
  pos0 [10174512734967622;469293310109413758;373266554536100957;178763371980000000];
  pos0 [10305989230404185;297135745739572553;823116752600713652;542857896090000000];
  pos0 [3171680957597384;748669201149338692;813155005056812942;60397173909000000];
  pos0 [9053841925534956;955451669838408132;963227506367672371;939608817011000000];
  pos0 [9445082278709696;944496636395118599;202186621750115334;853121760956000000];
  pos0 [4031861453377401;629365345385940567;203819001785447929;715475993202000000];
  pos0 [8585227019103841;11437568906471007;289392358265057333;200443615486000000];
  pos0 [15345906002800935;627456840039310405;90835819112751308;77399739180000000];
  pos0 [4873442114530441;237029600348361562;699598477909656334;775168688132000000];
  pos0 [2139005846149799;267807439138070031;678591880034168810;542488619209000000];
  pos0 [2967915751666871;867803683185060960;109662114203056752;202628553995000000];
  pos0 [3518360883127706;738984595844178926;827200655386517259;554247005333000000];
  pos0 [2555050102184611;162124307200258504;768773154715662260;576218282770000000];
  pos0 [5251457700557674;837070232347078242;483597957719259041;726025709665000000];
  pos0 [16760177389538911;196593342631030292;336159041212255922;36731101460000000];
  pos0 [2324129461087942;195889480647743631;849696598275876390;172201562160000000];
  pos0 [5132517445510792;445665226224773296;687967555565328758;161264939899000000];
  pos0 [5904602908289963;657946955156602326;218283045384152825;302454368577000000];
  pos0 [9639573859123944;356621784355991230;793242217016972149;721927245495000000];
  pos0 [6352807885546679;903434158750107641;168955283679129224;764004489953000000];
  pos0 [5831270753073525;413629303314627665;478411243334216519;809449907163000000];
  pos0 [2143787009537775;983407418453754742;822446291005300626;770288315401000000];
  pos0 [9716562570060612;544944728458932817;134545231450087394;421961498085000000];
  pos0 [15232987305488543;808778544081175981;335404536599589284;192267241960000000];
  pos0 [9002001244582276;130882322199841199;336425461100250463;745893304350000000];
  pos0 [10869646878279235;671487550625121234;599925706441918449;834814746240000000];
  pos0 [7634593126404574;534036082234176584;920521526268277525;305472481575000000];
  pos0 [22508892404315398;832065705756841157;251324422012989206;228799710340000000];
  pos0 [28174541925897749;397416131597685490;118384382097741143;57754322500000000];
  pos0 [15536706494141024;473118192211116803;841865224469144641;764938772650000000];
  pos0 [16992347528480819;849010478808942877;600000316558508936;451003475310000000];
  pos0 [4510819570887507;693497898526809844;465699106480852185;706404565805000000];
  pos0 [5114557411551538;706382020698821520;926632106864203379;956543286166000000];
  pos0 [6855228583780265;907860302758622733;84594245803848294;40646107476000000];
  pos0 [18824333572090008;294743224236192444;253196381504150866;686031770260000000];
  pos0 [20161229932997031;124958083235887962;961749867098350416;552342035920000000];
  pos0 [15605862225913244;970222032363257137;185160951939797016;173763565000000000];
  pos0 [3366968831028588;145257242398960535;750922736034711755;513911563767000000];
  pos0 [10189296294128502;638291250021233789;874663969053665346;432016806530000000];
  pos0 [15307602102255283;244367391613700349;849825483174299293;728797887570000000];
  pos0 [8954105230737795;355543356272685205;152428013541800383;578401918789000000];
  pos0 [2416023117016776;169514435900648726;151017451802983858;783264897432000000];
  pos0 [29309622636866343;343681455805659815;177976747338377843;673764427590000000];
  pos0 [13954209796251610;75006846476800622;812772324793517603;907854894080000000];
  pos0 [7247126660799781;883442509481142161;30934089061042275;337303657853000000];
  pos0 [6234291478851291;726204330945206109;849802977217395803;469356304566000000];
  pos0 [4793693342196706;519060028623595206;208007521878019676;662574539949000000];
  pos0 [29005390870142043;854137122076110119;201829184950120938;879406735470000000];
  pos0 [6338978068872099;580738465256369675;32343203731419849;823533706246000000];
  pos0 [17653852825963710;546774066554217379;436560429324995153;670384234540000000];
  pos0 [19106954978143812;150093741074541385;836969422308559112;931884352820000000];
  pos0 [3301514457098113;84032465715950887;555460351866999143;184501786714000000];
  pos0 [2812761170989695;415232791928191399;517765210793811637;728869871727000000];
  pos0 [7858633577998087;864197418418841544;348292577634475781;430050048701000000];
  pos0 [3185024632215935;141960043106983364;810527244169707947;991012096677000000];
  pos0 [6548830813398040;562411752692806540;144230673394340585;508354153924000000];
  pos0 [5784493645876048;434802736422402313;881096744266675653;129560949184000000];
  pos0 [25050000226148099;544441451292871786;966644301873965081;439733296690000000]]).
(** JaskowiecSukumar2020.cpp:1452-1920, order 12. *)
Definition JS_Tet_12 : raw_rule := (
 [[pos0 [7573319150277204;412016551184167787;486225723474386887;773285023363000000]; pos0 [8102704337199682;31348184302642883;691234784168503894;220404713561000000]; pos0 [817847563349231734;154374233035377515;723761390324638819;345605736800000000]];
  [pos0 [335639033905089418;628452620224060784;250977843156708827;731940386800000000]; pos0 [401866030805244767;522808885562986475;12118189235444218;709454721100000000]; pos0 [100805251809097971;744203949283796519;105281191018078647;405312521700000000]];
  [pos0 [504687960523029788;430397704650133789;743871230684393644;787293171700000000]; pos0 [271791648582185284;454487150444511144;694672446365486435;723385561800000000]; pos0 [26615956617110240;162490032622402593;832178711194372764;754610992270000000]];
  [pos0 [234348600377926096;537508207220238237;729244717517775409;626936680000000000]; pos0 [119172067273948856;648374040531078337;159829605293574692;773454939700000000]; pos0 [87484386570917726;852337359686192958;60795973124072293;327137521990000000]];
  [pos0 [486780203021983850;480413880870843152;955568364917442041;430115440000000000]; pos0 [141002320608257690;55971744557606553;78765303104005549;97647169300000000]; pos0 [418766475255139;219754465482751353;827551469348423789;487620464463000000]];
  [pos0 [439288094894702550;67619596928592190;928711232619338606;986790578200000000]; pos0 [151894168909281691;426884876835838203;931927275112671701;95344385200000000]; pos0 [408567436062806424;151490227203210245;686879165206518839;64273339400000000]];
  [pos0 [913146504567299230;293531318834055676;86207528394680723;93980137000000000]; pos0 [41353910033118560;489140635495435233;116515637164472643;333091595250000000]; pos0 [632597009363113;380595427007599218;900143053270201212;186962765564100000]];
  [pos0 [446310062042201321;933010183987822757;668081206962586255;479424617500000000]; pos0 [70818937855309348;689381185777015260;876458401288232050;174824841440000000]; pos0 [35706382390508774;834225141821723531;736487226371753869;308644272450000000]];
  [pos0 [19473084124204713;549060691261712580;335987747908227246;445469785170000000]; pos0 [839177622280094508;341471786414959962;353367817550050863;293463211000000000]; pos0 [228859006372356;4240349893215479;510702754903962480;568701914443900000]];
  [pos0 [604617696699536115;922920740008126681;790613837431447722;64424496600000000]; pos0 [11942860906145131;21931437392051548;154515167723207443;21165451260000000]; pos0 [21615346047834469;612445031762067779;821809391034528958;759332940210000000]];
  [pos0 [103751232146433087;266733487083879873;253382742575737994;766518542500000000]; pos0 [251812433620163382;444452344870030756;54270787470854732;766834087900000000]; pos0 [97355067510902810;127458921207667362;565810216412112517;182674819190000000]];
  [pos0 [397163690579457339;557062222209301617;173009146969723578;961262200500000000]; pos0 [9721853696853559;522463470862365491;193800646050338051;491572979077000000]; pos0 [282569308879231102;298783821618021339;546475835553644718;610910163100000000]];
  [pos0 [21529722487956813;666048194726151883;485534909487562673;170514414670000000]; pos0 [447816527463372264;236918102644358662;420644570553576345;423924401800000000]; pos0 [89893759113875664;183833432124790472;286339351864077420;226386515670000000]];
  [pos0 [62690746676197662;567006436534949251;157751971286923729;220137732260000000]; pos0 [77552226371750557;558238512552768572;505918621319981272;913362180040000000]; pos0 [71311856466716265;455907988791367153;340009989939319742;719357068750000000]];
  [pos0 [17317948635535781;65593915942676067;722488768250487444;479914918710000000]; pos0 [154195180853494569;903845591785564324;301788373524057247;517936532900000000]; pos0 [450466536767989240;120625993105837386;411527408795415665;544294986300000000]];
  [pos0 [21863738731679730;336878089683070634;343712477815474063;726275924350000000]; pos0 [576844529923029415;744728230262196019;120804990285804394;512485201500000000]; pos0 [691397701713393;137729962635240737;263747725127749865;492136487212000000]];
  [pos0 [320235860865633659;510857190934445900;31653963272308905;817037824500000000]; pos0 [664556748863341406;533632725496809554;228586864087147519;904128931000000000]; pos0 [12883071166229717;545732406013802445;49001381146291774;791986349940000000]];
  [pos0 [68680048860323333;680334727286164563;598113802693499863;989715196630000000]; pos0 [639089845949383071;621157631267629965;752480140260099849;953539009200000000]; pos0 [262857341422232948;782947703551733802;61808925071615363;708567861500000000]];
  [pos0 [318884401570296605;131403992207695313;361616779202846683;708302080300000000]; pos0 [256327914882753353;960693944975980242;622474087015176591;935722176700000000]; pos0 [22054131594258476;587677077301645508;323578223941225719;419026625680000000]];
  [pos0 [22589578976510324;52368665383807164;663788650876696685;890364978420000000]; pos0 [937720406047415612;171636903485005520;374120157955898724;998243301100000000]; pos0 [19743464689749439;50744073435383545;833324555811101079;829892303800000000]];
  [pos0 [78311055152884541;935770204246678755;692686382895744241;574756852970000000]; pos0 [307470785843125467;34973822180177964;257951140304830424;937154568700000000]; pos0 [355095669290221356;779336330497174570;8411543227509286;359324560700000000]];
  [pos0 [271645168850756597;532831665874580754;417805261185504589;764794600400000000]; pos0 [622189179053759944;781626936952585231;458776220631916278;147574316500000000]; pos0 [31408891841820921;901999783661443437;20751628326907574;168010025350000000]];
  [pos0 [739707454238827899;319603005648919458;280941419114243274;235215626300000000]; pos0 [12272593459678340;435531366098027164;918061216919386485;424513975780000000]; pos0 [215741319147802413;761986406160527078;853047643951243858;449117664700000000]];
  [pos0 [533996038737061268;129709494753204224;234709790170134245;672596152400000000]; pos0 [28145735078334812;683151788779404845;619512458907898348;94407814740000000]; pos0 [413294010593600842;598557366015646232;153922140683188237;713018161900000000]];
  [pos0 [682424254970806;923356796667559129;167739755527268073;875262426769500000]; pos0 [113764029274711770;924079756905685891;65927636919735697;725170467800000000]; pos0 [716671532362942034;592155760528767457;570324487169365567;155346287900000000]];
  [pos0 [570191562660287613;700250590508783314;632017285630371140;860022005200000000]; pos0 [30660588306956372;176528322122362625;277845890178445015;232624761390000000]; pos0 [124688535176493010;868541765416088361;796402724893641806;922671146600000000]];
  [pos0 [29959666144410446;496620044058666856;214302761380208136;889171618630000000]; pos0 [246449993220771771;639581635154219203;663495543821109112;85470591000000000]; pos0 [235683795737423030;958442583096027609;157483499764054687;924437288700000000]];
  [pos0 [272722335362774767;318819504611381484;972215701611635389;259239971400000000]; pos0 [104423576137331206;911038109879080670;643829478882070903;76110139400000000]; pos0 [611192997818055432;843364777293823910;95458124249926661;124616483200000000]];
  [pos0 [252804749851328283;763801441384240899;698578060072404865;945128755700000000]; pos0 [249825956198123443;865939330638907167;87912398176125873;611308718700000000]; pos0 [248834616285346028;85537521978269061;832566697252518264;489574708000000000]];
  [pos0 [649779843839125881;401674159173282211;28245967634577541;820319739000000000]; pos0 [96228187859255542;276006603021316990;735148325299386109;324980028920000000]; pos0 [26984371825727670;231204388232335952;434412627256764165;75289567310000000]];
  [pos0 [56994734232269696;888851803742066494;638691568064179468;528843145390000000]; pos0 [436057367698598275;107353980402299816;244902832086420720;969052645200000000]; pos0 [487080703163378818;591170119115484956;409192091490688799;561382115400000000]];
  [pos0 [147008073183899589;921620160464406692;140322954102038598;619955911900000000]; pos0 [109105306642488351;42153927052049308;73679764781571014;902836936800000000]; pos0 [681588965314910176;208706349846585341;964172249396537846;923056515900000000]];
  [pos0 [140754013402578585;870942894146967607;552373641823858119;811366366200000000]; pos0 [7503496946606807;423187494353435141;605936833752252032;15432256612000000]; pos0 [789315652838747194;701947025246382867;519131479273313968;28662955500000000]];
  [pos0 [246742414843959916;620388776708156874;676073910489110617;906046468900000000]; pos0 [125150502094054022;229958130294442241;634326882899558323;880473853200000000]; pos0 [16170640241171650;505690878566674667;787844984239364993;374226011190000000]];
  [pos0 [770269827307140079;737958322994869807;658815696184689517;273930505000000000]; pos0 [587377937740670;46268860938660633;875208691094052696;784203582548600000]; pos0 [93622757280270978;354425503077555913;717582264028711440;178676067000000000]];
  [pos0 [222033328885992751;238879823333755541;795377462899762677;181499269100000000]; pos0 [64522241397773091;223848851542897614;469340660532294072;711206983480000000]; pos0 [406709813020482124;536487766240831805;286335297412304700;635906433600000000]];
  [pos0 [23164763903695016;657063782953969005;55001451227327833;642536254040000000]; pos0 [678197045349286112;390262096113229292;392665275280213939;933484254800000000]; pos0 [55252495037972575;292081517137541044;632737233730096137;179053970060000000]];
  [pos0 [115381162167599145;429699175074312591;970148066055646320;38193353400000000]; pos0 [698584529376278651;469714871455659089;105235202822122998;714794343800000000]; pos0 [18225621329625292;877230869277377642;815462520346682882;721941968870000000]];
  [pos0 [346036261952086300;616931610607526616;955603644923589473;14110271400000000]; pos0 [20042645135158001;917093609522585723;278742285065140215;40358244800000000]; pos0 [13112646874512993;922781539885692420;98874377039367835;541202101930000000]];
  [pos0 [88257612665764397;838604803352355658;680378610232772427;298814956980000000]; pos0 [221890743194826060;718770494925286984;442330307643060625;889851803000000000]; pos0 [683472856377851737;760562842955021506;297962984974250030;3860230000000000]];
  [pos0 [23284151841602800;467370824080056847;812287836947889106;703710384150000000]; pos0 [113187653254642652;638936671552026871;372848509686014592;278376876900000000]; pos0 [835251185930520350;669145253304029491;172708193398047888;518052643500000000]];
  [pos0 [634690392213963504;408210415999477801;647548401482555185;622650305900000000]; pos0 [217644584420059457;954420806730471577;282685072275761494;662732079500000000]; pos0 [131249760598345170;403430967778179696;882540547064337572;331987461400000000]];
  [pos0 [745454973014218010;128978991451133600;913681205427103770;84476281800000000]; pos0 [64598031133060777;511216400198951279;56106556743683841;454552322850000000]; pos0 [189497970015329175;725291849555941966;170969741810770546;896873582500000000]];
  [pos0 [418266580660706465;477088107645770949;656954691336154511;353771013100000000]; pos0 [160702961951829284;928928215342913884;218926209329688706;821377452300000000]; pos0 [96503370901911198;940619092643131182;276540056459259264;452107830880000000]];
  [pos0 [417908686866454497;686222407841395039;957240727078324132;161986292400000000]; pos0 [406757465470303153;709187491799386360;844088265297828928;561075827300000000]; pos0 [132321097887058639;136786824925198860;772173403018328828;564647510700000000]];
  [pos0 [197444446625025359;442970028356064285;626263580961242970;868186251600000000]; pos0 [472071220352845518;901206014199106592;18008433815834424;307868297400000000]; pos0 [314343068928740679;497495114830861192;331814073849366442;572294184600000000]];
  [pos0 [94166584616699269;387921086452475265;755320874501751829;167220407840000000]; pos0 [157667410765404058;501982208007129299;940030381914936456;847481894400000000]; pos0 [21577257901887025;756122747294571587;547172943975203066;657490336490000000]];
  [pos0 [284876489754350499;484531702678023202;727554439695076132;882739246400000000]; pos0 [467196438356977584;368673062165814416;39069095122155675;573185386600000000]; pos0 [13722740935102271;556895066808722757;530069164074624084;624037053180000000]];
  [pos0 [794178780590717955;911952975467253976;568268741673354898;341484367500000000]; pos0 [26170877920180374;674247628499000208;144725537171613011;398862233620000000]; pos0 [21701086045975721;424053013960533894;640398695316239806;994304079160000000]];
  [pos0 [195590291625625201;383648553258853987;905627157741430014;434525061100000000]; pos0 [26002474109005220;758121216219977928;659579847696661587;187000337500000000]; pos0 [235501302560273368;477533516751926342;35460488579749212;88382927900000000]];
  [pos0 [13155058602447971;544483785379243019;484501377005803921;465234419970000000]; pos0 [199518651418892426;256593358659440475;990729780623576078;359411824800000000]; pos0 [109327556584519913;445111122106899486;18636447666348584;200101198900000000]];
  [pos0 [11632083588120143;491645098911879245;333152990138219005;627581261590000000]; pos0 [144660921622416180;218621085245675583;353621419945808029;171275807000000000]; pos0 [16634291609880988;148122466507890818;493071894751190554;576495259680000000]];
  [pos0 [771066784710497;537791355258165143;217041501015007593;837054850256300000]; pos0 [410565942866637932;75334122700015705;824070804631059516;151073134000000000]; pos0 [274975395518310338;907363313342122138;552756130668808914;426874353700000000]];
  [pos0 [192590984714032432;306215312940963828;83549308839505874;555064527500000000]; pos0 [187945418012733421;163460145483494101;249840259155217073;734325990800000000]; pos0 [456322016615619711;427175786049984304;28423053779158547;722972409700000000]];
  [pos0 [45909577413876234;602488560290143510;306717189817903277;36955209500000000]; pos0 [221113817593067456;990393214502968257;472223138475332845;149301900200000000]; pos0 [638528455018590329;962310125616520576;754415351289173469;779715661000000000]];
  [pos0 [220971693343654317;146828026227875377;849102175191613985;859381106800000000]; pos0 [265633128660484985;518735499693320701;690810347181456931;651277607800000000]; pos0 [486529127435705494;195966287408359486;604021918164018423;325550255700000000]];
  [pos0 [357470777869401210;371500535395361200;611324992740372896;194446791100000000]; pos0 [277141801979810569;203552744543909739;574094773211691254;854778645200000000]; pos0 [294759700258399266;873599132190852340;205303252747692341;585173002200000000]];
  [pos0 [183466194257216202;753746645714563707;619534726177256270;166745986200000000]; pos0 [435430944306639295;802333533318527244;425635908119843390;157748427200000000]; pos0 [259614795528458698;811889320701984228;982198389968784444;752066104800000000]];
  [pos0 [778678089436258600;867697336406196987;167081976160600430;292070601400000000]; pos0 [68245562439167864;451300416674534736;769675148230957457;825612347740000000]; pos0 [90290643840915190;56230923342898500;345715207912900964;33161471460000000]];
  [pos0 [83503684954383061;651785291605425967;610064926448193894;449170007020000000]; pos0 [13028074713012028;33646808285588451;489532941785917347;187791996460000000]; pos0 [648107440400148949;239680325880611245;771909047828600799;140580156100000000]];
  [pos0 [411181164699107537;314687131503832832;941115264295675678;315057110500000000]; pos0 [15358906074005189;703659880777899979;125884973515444455;3769217510000000]; pos0 [438262647584127045;422680734433031963;222357471378459342;12831375700000000]];
  [pos0 [662659511952267236;651529914131103908;935932975321536506;910825396800000000]; pos0 [307848134174069460;689060278410663110;270242710933378898;470089831000000000]; pos0 [18360366146401999;183832258839879367;819487347388793631;703099573160000000]];
  [pos0 [136357487041202633;582385262833894715;174257925191239814;356099982800000000]; pos0 [31193581339513479;686407492367427153;735284697648250047;842989582200000000]; pos0 [196913645331014;663209273573396002;551125953609786927;811071778363600000]];
  [pos0 [31890170593405439;886387816304968281;95987290062547318;305377930580000000]; pos0 [841530991646365015;876289412059583212;880944214825878975;594278658300000000]; pos0 [126369124232186355;634324542104740241;704722077645850342;212719284400000000]];
  [pos0 [99651058826745358;786428477246716372;720072967354765307;427518116530000000]; pos0 [702090188467081304;19339753747595554;417561346328262630;819420292500000000]; pos0 [122127435345434447;431529025656404402;115363720359588855;811429232600000000]];
  [pos0 [401276754723172710;343906119981848619;937493049127735666;420833563500000000]; pos0 [100136091003559254;929568554700171628;175133224457570588;518626240300000000]; pos0 [299151304841005946;880688510933349018;78626351589279136;541002527300000000]];
  [pos0 [111034842723138529;534052704259404008;526890548694123242;688001706100000000]; pos0 [144266851566993967;665009005131355964;339872452873310342;28931138000000000]; pos0 [343031822242500720;436750204441766760;52610898089757374;827048199500000000]];
  [pos0 [113280336559172134;911007640752493103;136866597988964371;968065739200000000]; pos0 [498852395172576347;553444207608354834;166446816872818999;220804964000000000]; pos0 [33103213917688019;911001390518295940;521708642297092720;135225235160000000]];
  [pos0 [185125128533730573;615388245939532680;433208220398985547;634710627100000000]; pos0 [25257925676531014;57736303483336665;74107236581921348;436953742100000000]; pos0 [71959988989683937;236732079083159512;921188284788328676;919988610970000000]];
  [pos0 [168118084191225036;405373504077643080;64039755447634998;551760687200000000]; pos0 [733419717861681348;391370420289418180;21679208005391292;338217111800000000]; pos0 [97073594275626304;528602586448799189;676004072510701779;261403649260000000]];
  [pos0 [32848323900184274;206792923482980412;198037329176027943;110151611760000000]; pos0 [587282168449124307;111409995218783465;71905355113047521;620976971900000000]; pos0 [175258410473463196;945511314460680541;656873073399239545;222125904300000000]];
  [pos0 [19024889324311123;159507123008599703;288901186890364580;71891690510000000]; pos0 [279840161794067478;559117444541442537;275160020008945332;224337769100000000]; pos0 [494125547771558400;269466049309687416;448736546548855696;694431456000000000]];
  [pos0 [221903197223332774;706029347475392818;980714918313395451;617453669400000000]; pos0 [33367086971297833;201906293664257222;896715791344984513;195189571270000000]; pos0 [588974819318790321;528801048001979928;854377237307003554;257380386000000000]];
  [pos0 [122554881882387404;811552822848242036;974337926617385288;755550307600000000]; pos0 [42215898336318085;812134154000524478;731654439513558271;223968121640000000]; pos0 [833274383322793019;985676392656071452;147660029608540258;517572091900000000]];
  [pos0 [337345868730355053;546184813573606793;452376563757954974;278160589100000000]; pos0 [79566853310368323;893575326437563732;631152085012412301;268249101160000000]; pos0 [197500819724511054;13000506087913366;83370064716003995;904459543200000000]];
  [pos0 [428115271007478;65225407157219650;546959841745239094;295223817130700000]; pos0 [733945599399890392;32307340615261065;394134810199997007;267120209200000000]; pos0 [194863559194742178;717173635827892749;348313602487702370;664834064500000000]];
  [pos0 [4161074458799275;604505161575489843;880800507725705838;789974002599000000]; pos0 [303222184937155532;107722953696970002;848567929828683869;602113345300000000]; pos0 [666802824462311695;431845955727046877;821355279072732602;542597412900000000]];
  [pos0 [56070459013322461;771450502353949732;904090734593806890;590984723440000000]; pos0 [5594038297952845;803297651871882239;337896018392271112;247197206433000000]; pos0 [222340652984313376;770899576141874366;347985028953491467;959172938200000000]];
  [pos0 [23133144513095003;411316143263200374;491108751436146402;148271621840000000]; pos0 [17752321317989753;856737591678654847;598326025943147663;622199225160000000]; pos0 [930721535322083907;272264716335391464;199061046945698776;480538650900000000]];
  [pos0 [916092917700588663;159882431212328802;906933767903121635;675994328800000000]; pos0 [9566613286067694;471618801189162737;106839189510230935;302260698949000000]; pos0 [55095284958799263;40021818863919825;9614405876341544;636578735540000000]];
  [pos0 [376554224393516091;433296499016645760;939549087851961653;591303148600000000]; pos0 [15641600921766532;651608522941195070;785215451669786978;569658694370000000]; pos0 [106988587253400618;961947810826888546;771626501078528946;912380618100000000]];
  [pos0 [108846319536463861;818063921736604120;535337444889291283;883103121900000000]; pos0 [337519368118120109;813782670852453234;815038696385459934;716344822300000000]; pos0 [466990736443575035;586613084427186338;793786334856285964;824964488400000000]];
  [pos0 [12737478002952097;218697523962404166;729384403857812903;888913567940000000]; pos0 [33809784867966477;648676981198679344;241191481754318856;800793530480000000]; pos0 [596041903282640726;771059617190243029;267447145695536502;734425718400000000]];
  [pos0 [16628241186543641;885078139658397849;600292213656419226;623831116480000000]; pos0 [80165300158286856;669599599137656672;438382366279187089;804636755260000000]; pos0 [308670402308715901;594922868239187833;77316530806566372;685667769100000000]];
  [pos0 [28092160358597578;689731708873373766;558444284268565806;836839665350000000]; pos0 [333976931830175418;84523882453595794;770256860532918383;596157789800000000]; pos0 [21862188638790174;141408992966060393;833246631705688738;224280573850000000]];
  [pos0 [419130889959823830;449984135184914164;696001002383754734;989828124700000000]; pos0 [326709036151804164;439518900662348422;232788908584421877;101969553400000000]; pos0 [253411625169333294;429940865658519214;548905867421122433;977948628600000000]];
  [pos0 [4983324642759546;390749471394635986;686299283771176681;569556258568000000]; pos0 [446842916140259186;965374615110399771;245517934539754665;817517965200000000]; pos0 [454715932790208060;602521075401013909;270016301316802837;406299612300000000]];
  [pos0 [59590516552103423;871810735458584943;765572881963920511;326512728970000000]; pos0 [1465584001853574;704749210466064585;610810568112919341;423539618026000000]; pos0 [78142972866940428;989804505295571062;251776065391221436;242793874550000000]];
  [pos0 [76229019036361516;802674744687161656;760732902972900048;385049056570000000]; pos0 [107911620286574939;368428313114002833;860520560023425020;573968359200000000]; pos0 [578833789104501775;181241289561141498;658030973251892889;140900195700000000]];
  [pos0 [567591351216452310;942576902182187836;499085544545473513;900532823700000000]; pos0 [127124794601758273;635384422290515282;711112933362515461;325373794300000000]; pos0 [258032475061934613;816267082998485273;622245854585646621;196282464800000000]];
  [pos0 [205251536375455909;806943999959475363;413914055055699876;601215059800000000]; pos0 [632138723830099;523880887986546581;309810381807793785;369110951211800000]; pos0 [444574604850063003;3315971087819652;193747067327294609;535581651400000000]];
  [pos0 [23348156129191414;130799358678700580;769310285449841551;307492921190000000]; pos0 [28327999446992159;28280522400649301;249947738333734179;9666590140000000]; pos0 [22620449825243579;56180818148560482;273870198524100483;555340480910000000]];
  [pos0 [239670663790656278;120657162779659734;358264016704042942;569571559500000000]; pos0 [316488151078752905;734449783666340421;680954242638461024;466651752000000000]; pos0 [95843348019856314;128561663492948104;720568972257197238;614208042730000000]];
  [pos0 [840668066350032022;527111941740825559;900092676830836979;97085276100000000]; pos0 [119040873507988227;958966039949917936;90917724764937660;628031288700000000]; pos0 [37160060238494001;801259267792983848;621376598564482081;162383498000000000]];
  [pos0 [26226046466612823;250768198424487744;191074446832089614;894579896930000000]; pos0 [830181622842096733;560576367572979020;845713371194964681;589396613000000000]; pos0 [64433041051417722;789688530900220124;441931189208326541;422120200530000000]];
  [pos0 [729712082501644023;949074226375567780;737863915938275129;375401730300000000]; pos0 [174623213665996243;842299242947953077;295073930454436204;385458165300000000]; pos0 [17613802103044813;531624017865669019;597593134770487215;450171372740000000]];
  [pos0 [455272251501793014;645603591724082377;282415236816861633;270192395000000000]; pos0 [487856163325192272;243637088672693870;962108942850085542;511422926900000000]; pos0 [56462617770123451;571880592208324488;28894144113315359;890156502220000000]];
  [pos0 [122877885888670430;512900750660797814;179215674708444796;962018412800000000]; pos0 [823304084967301288;803087804289550479;856448306685885955;127570064400000000]; pos0 [21134275184768248;722234424816211388;550857887673615882;857448167880000000]];
  [pos0 [355676065200314857;279874757893761701;184248695885025019;833104549900000000]; pos0 [110152329140885843;85651293987051759;819896074009430610;274934353400000000]; pos0 [458505151620200847;372329057453269827;468156009841087847;922973812600000000]];
  [pos0 [148508639530215077;235404514709563105;602945953268689639;559781604900000000]; pos0 [320360496974352051;239487244443669273;920275740263662809;623905439900000000]; pos0 [15152988695219824;353581797119133782;698270906358061325;918863800960000000]];
  [pos0 [255183769645292993;839798744230578472;868474896414633372;237108581400000000]; pos0 [565918718121523920;841971318345541634;978874879195626342;806323732200000000]; pos0 [143416258879199085;444259011262935855;212398796024984299;338463679800000000]];
  [pos0 [301733246281871;106570855170191144;916451326767945105;750902740163700000]; pos0 [616901402631183677;949516801573876111;868391008213350936;550687578900000000]; pos0 [370585975390405622;773521268183027692;479336877695803132;153972594200000000]];
  [pos0 [604811935980153497;358810538607008317;858156612155106687;148442503400000000]; pos0 [118167075844067646;83259970896744207;693494756484404481;598435861200000000]; pos0 [121231848536972998;98596958697483129;96214389626127928;45612757900000000]];
  [pos0 [181235764899320168;763463543745102513;774927062331985247;194917933700000000]; pos0 [167288068367082484;486543246807899210;426975538828450464;78224486200000000]; pos0 [207540385263766456;615205909724457866;730382519141895476;750164474500000000]];
  [pos0 [455659877284173754;914665552370502991;220739345858370142;408026674000000000]; pos0 [223448777664227983;39513301729155509;444472592388657502;599645399100000000]; pos0 [164400198109932657;628336826620675740;187324441535507612;110366353400000000]];
  [pos0 [316808274763732926;543796126407302294;221146931802201065;45723988500000000]; pos0 [20391700648517711;641244913609481756;576484988821357525;605943513180000000]; pos0 [634412113273361319;705248818299740562;595309710225925389;228890531600000000]];
  [pos0 [588572587815202787;288912612955701209;384583578961199855;966072587600000000]; pos0 [262519550720361131;469479345684600299;281532401255068098;825404199800000000]; pos0 [84212335374154119;828838521090553000;666714199967810308;491403696380000000]];
  [pos0 [79757088127363543;352193785674754546;757851390792719025;521326295950000000]; pos0 [86923654159650584;268812779667528890;9682449767051701;546712854240000000]; pos0 [185712282784471180;375895907421809847;611787033673825822;852369737600000000]];
  [pos0 [45821694743356120;5806129134040660;742192629615940400;143900327450000000]; pos0 [508728056330881613;480673741952076341;4499209632611957;176771035100000000]; pos0 [318863637071560957;7107073108986864;794218827476899122;164228235400000000]];
  [pos0 [96491345345384113;282541465620327595;898345058761983282;283990333680000000]; pos0 [396892709045254671;730541607131544427;311726546070269889;460758014300000000]; pos0 [177482917714969264;826156422007630664;122391753799838505;892087071700000000]];
  [pos0 [51817353834661560;284006339748472034;175354059598111561;285289313470000000]; pos0 [45668299129327605;67663559551105545;139594760751856404;936405253540000000]; pos0 [788572097154935747;551613899196020700;546201649379703;794249913100000000]];
  [pos0 [157483283913500632;775999331807800935;829466304787362635;922119311300000000]; pos0 [547958051535508966;660093885971160531;792635204680201671;897950548200000000]; pos0 [106128579676776613;213008822792293149;796569602363058443;633522312600000000]];
  [pos0 [599792349445298793;869976173153768027;508501715762179367;266247959800000000]; pos0 [29575905483807844;295048619411293740;738334936355143552;358715618500000000]; pos0 [245154027848701984;510839861287101852;635229355175540464;835587089900000000]];
  [pos0 [75887324796519839;456569805021639398;92055045519427553;143303697340000000]; pos0 [31465327566215261;134520014247581612;371809137614854685;350038713790000000]; pos0 [422506306539806616;309113447756408041;456085567059288209;104877793000000000]];
  [pos0 [481394060019316360;690405761453772781;664807611694295067;84962351400000000]; pos0 [433055832551902531;244451795341420726;305400387454073290;147999686500000000]; pos0 [18100651663879534;625832538781429751;789640176805741952;112594611640000000]];
  [pos0 [357423742141919;455118370852095233;529946803802832452;520926249992000000]; pos0 [43267314223620196;771808330655416190;980205861138105495;20484757840000000]; pos0 [141139029348213005;107306900601011842;157177946661337898;826968668700000000]];
  [pos0 [5493262085055545;740482102100951413;864451162892374126;327823694696000000]; pos0 [2956537533261605;499255453709858085;330995054721109098;486308576760000000]; pos0 [399678978713579598;774557080213713713;990887999868660508;616710415500000000]]],
 [pos0 [965361488447039;151347412502772341;479260135156222235;240965581651900000];
  pos0 [21012887373295222;107820751340424200;400384441308612367;87363935920000000];
  pos0 [13064350622505527;523571767407845138;666321223732065145;799216250720000000];
  pos0 [15039347774142997;661024104462881494;879853523936627490;951048739620000000];
  pos0 [2640935693473757;361722477822812388;158451647708485146;549105899476000000];
  pos0 [3789736951139808;724089699532307567;58930129980554437;293625165835000000];
  pos0 [1053695411479178;230411242212974346;925900945666258336;957315467729000000];
  pos0 [8509267419625564;515252345962340691;787021938412914875;405279284696000000];
  pos0 [1010928663208124;344767430186944723;53709311264824318;602784031725000000];
  pos0 [2996905444674039;18764565593123837;893314134553825901;939531963236000000];
  pos0 [16590345097408387;912068237855369481;90039812380164316;341152084820000000];
  pos0 [7506075728462502;483047853369924699;537133016064400250;343026826117000000];
  pos0 [9532636118114756;386745085199304040;844597209365968031;224592749994000000];
  pos0 [6168636754972898;243928940156980729;113531220928080140;131601183112000000];
  pos0 [8697472735997106;803862858088543255;770716074775586734;112370460322000000];
  pos0 [1830372084735771;481186483138072669;463491431114278805;247972382385000000];
  pos0 [1237044505268342;881152404001199760;556423318884281743;889262828200000000];
  pos0 [8820843790047528;790484095338056120;534052816218902443;457724433759000000];
  pos0 [10431595934797364;404487383735881595;217264783461775139;288089052390000000];
  pos0 [983253728508647;610223746127326162;937084925301534256;582881783516500000];
  pos0 [20940399267086788;708686118105954140;78647197620380458;373747670370000000];
  pos0 [9965004019572324;194259362357527806;573738171937628733;55628175687000000];
  pos0 [2799277577074749;668022529660420028;181102933382584699;834827146068000000];
  pos0 [5939738127679060;464713563851667855;600484015829311809;140790042611000000];
  pos0 [3061424545739267;900276484144941960;692869778354387113;231075696348000000];
  pos0 [11603113152205821;502990413881776182;979745272512734813;474196354450000000];
  pos0 [13541218111128753;873786613135349625;493456461718564613;511246821030000000];
  pos0 [4274517994504303;766284508671439334;787714506275717441;931028947263000000];
  pos0 [29236657258232027;10429260374129578;759484559817279386;275719127330000000];
  pos0 [8162172019839207;430701935642053213;563987076250494615;647664621850000000];
  pos0 [6944182041937637;215892907656647866;313300104089883296;355623304465000000];
  pos0 [12762394949769233;221721573197944986;25971623354381822;365920969220000000];
  pos0 [2940624011088653;898638176336014635;994487431097923441;783145396692000000];
  pos0 [6247382051632931;457497444009315160;614065433188500176;972841347062000000];
  pos0 [2104416649748736;602437253985935231;917860751045122070;856470632072000000];
  pos0 [19154819531237331;661875247285078222;38387237684086103;657560399180000000];
  pos0 [6715400634863321;87705222636901329;308846607236600156;733085700794000000];
  pos0 [6870744407837441;22740319151551446;95053987861560251;156376343992000000];
  pos0 [2804019587918524;603564425395196053;224523310616635723;761384200640000000];
  pos0 [4038654069631706;484277447806377417;928579229442735665;455815930581000000];
  pos0 [3534590512539963;449992806961090063;130154485793821070;112295400813000000];
  pos0 [6149854937007207;912558892297317278;684947665353749235;387273377791000000];
  pos0 [2071937798747306;14899220043876939;252487642650450358;184264170011000000];
  pos0 [19670599095926541;954432890575180880;633363820772277429;838747450240000000];
  pos0 [11413253621379260;309852339020243192;253355439696204768;221541140740000000];
  pos0 [9217525161029499;298084541587990864;410298872795921850;962848425098000000];
  pos0 [5869045228598484;589512337850972373;683282606750660590;298699615410000000];
  pos0 [9450194021304984;233830753661920642;671104999771603320;194279724522000000];
  pos0 [3159973409905152;182281785794298350;340040588840741149;458785854274000000];
  pos0 [12599274023236248;458864388280122116;937583298838818720;469142458300000000];
  pos0 [5831001253564495;517299474775592776;769924719181557396;827173171678000000];
  pos0 [1641941245776402;553705027426131986;272937605435613709;101229384925000000];
  pos0 [5189411757444605;879765158563289069;700795494157997627;234874518027000000];
  pos0 [25218173334359037;27906230387483273;766360397472188413;123305169100000000];
  pos0 [11038696620667802;449277641793321504;985267748999009851;914954714510000000];
  pos0 [12700996918914895;309771200496013159;322240179036686454;75986977370000000];
  pos0 [22446163221013782;844400666013674567;563765075061904798;367823098820000000];
  pos0 [24924708972958278;790197382078498049;226770386347859038;742375698540000000];
  pos0 [8631912682878424;582119515004244265;30627820097208479;216539437804000000];
  pos0 [5280799823034181;199657322099962057;552480584299243859;739751213795000000];
  pos0 [7824712877444318;668994159061934333;670784125960893805;8362924412000000];
  pos0 [2232095189359336;532092446103290188;131953877927296396;250209750648000000];
  pos0 [1568128252565593;634428514774326837;892544221285143611;217773332691000000];
  pos0 [1557665371032691;639523815486946992;943553801141914147;837889816472000000];
  pos0 [11264264570113028;705930411123780472;665977824761904065;447347814750000000];
  pos0 [22421719198328052;113444281763265943;373405685387529444;478105051490000000];
  pos0 [18501408965196791;809288204450841025;491604780680554731;24341493580000000];
  pos0 [12224835299615579;146707788263920295;641309824056051012;588206092700000000];
  pos0 [7470830135410525;876123098859026726;392799607311174045;234890416794000000];
  pos0 [2541739357824796;321317423832991630;919922169984630223;730174332266000000];
  pos0 [11140557455144714;902023880214187143;684766952807052143;341808188630000000];
  pos0 [8287094219034135;14681694532144349;652954741100257257;630034415957000000];
  pos0 [12358190938257468;164991679870944788;579065175038925683;355467796760000000];
  pos0 [1912427425028697;324650155743490933;854595787522684728;470082402282000000];
  pos0 [17196779008809494;562631630686388084;727399528146264410;210929907000000000];
  pos0 [2661407412511803;17294293027022429;900462384806186361;767935486688000000];
  pos0 [2111852715192493;265958153515154591;607776985736525045;954894446515000000];
  pos0 [3231081404682448;12557836119262047;852991389426951085;428986509477000000];
  pos0 [1287254652510155;7652761518810393;25864053977439925;852114286475000000];
  pos0 [1199207188133607;576409774129225901;449132903068869035;548676460305000000];
  pos0 [7319802817972011;180457003412359295;164273171669001026;507135215989000000];
  pos0 [14046809181465902;344564545496212694;397914555171661607;298480754450000000];
  pos0 [3956345742267454;768146912137233712;607787193894258006;902302402374000000];
  pos0 [6403414034855742;442145210243587104;607849459950214486;825132380876000000];
  pos0 [5009655911036778;668030313905729019;400019270415452708;677214445150000000];
  pos0 [4407205156835656;929372759362827308;321018123885723768;387151857653000000];
  pos0 [3735927350249386;809966618042225796;280749497674503987;17373325155000000];
  pos0 [1275574430446332;40909618258420706;888194501739783817;916634217036000000];
  pos0 [16563038746343062;831254302143022816;361207454234578203;431378111970000000];
  pos0 [14437949075353428;515986984632362542;2814550660177737;928735161540000000];
  pos0 [3618036750859960;197689434657454335;227483098465012283;733671902720000000];
  pos0 [1445039105866357;803087449721994627;345550634398056513;839098429656000000];
  pos0 [20876636869831394;471548278234340663;649442849925733717;326641220990000000];
  pos0 [1801447140619997;360330482108261027;263445444412660243;454805953653000000];
  pos0 [4354907370554153;583134101380568575;602681992070336681;452956336504000000];
  pos0 [5962593633836066;261358894557151119;77181582611362076;198201882803000000];
  pos0 [2497003461277015;557536880869207654;5666511927155444;793870829332000000];
  pos0 [3769391508996290;801861106730301558;315523985650373418;466282062463000000];
  pos0 [16982532853551178;348116070432761274;799467530428162836;30905557840000000];
  pos0 [7119787411961408;306109226086437341;691354283125407682;846958555280000000];
  pos0 [11488473080930331;181732860920018473;541413124379865423;410815125140000000];
  pos0 [1138457389257084;168393408374158239;457865652920497060;920084823085000000];
  pos0 [12957339141545130;765642493899075152;478867416529879556;931465513870000000];
  pos0 [17958789648938019;607290243085417897;756728348764683439;242917317950000000];
  pos0 [17740433837923999;164978730695687868;357617853364415272;197635439240000000];
  pos0 [4792532519691075;623459024867288620;596876207510624311;928370102324000000];
  pos0 [9714966767818229;485403352481393826;932093587212828017;234042394863000000];
  pos0 [12864959767937751;293859151033962879;996295623019195670;536753419510000000];
  pos0 [12519392074337979;152075123412326985;430859149964600514;846994188100000000];
  pos0 [21493958201173348;786514589911301146;365464743889743519;700070339310000000];
  pos0 [6110626819677322;188709495278229682;730861422313238508;104843417148000000];
  pos0 [17410833017685651;65483821895055802;731729691857355051;396825583690000000];
  pos0 [10336485819352537;425765399721323659;664656240729292372;691283279930000000];
  pos0 [10704975272443854;736803192915202211;194913348892096717;494321776140000000];
  pos0 [7304423784180342;312821136362795951;630280753774193367;829571508722000000];
  pos0 [1924893217670319;266927039240825134;378923405495776648;315655462676000000];
  pos0 [934202479742771;284963474383991448;558484756058458506;314238844020600000]]).
(** JaskowiecSukumar2020.cpp:1921-2497, order 13. *)
Definition JS_Tet_13 : raw_rule := (
 [[pos0 [402984982233501364;516792450487295278;334937278239806287;690252417700000000]; pos0 [55921339432015265;87140715826327033;665977133380124291;288503115260000000]; pos0 [271219477793538688;973518775825251112;26282268095131663;855077410400000000]];
  [pos0 [4853146143288019;4547002040098236;997569256497576028;840227385367000000]; pos0 [387033650890423571;964857406129948066;305149249569035350;89146263500000000]; pos0 [26728360846843798;834322583475472411;997737624482772401;987283799980000000]];
  [pos0 [753957633331647895;78211452367884364;889937568030301156;35941617700000000]; pos0 [122065601359220950;170035479591066603;535182662993729423;599330214100000000]; pos0 [5667902372503289;788000650621236164;400676131897534615;366211466977000000]];
  [pos0 [314715187476880793;82471817936591490;938044239392512381;886139521200000000]; pos0 [23663950466977122;375135601880803176;285178091675125055;208195165120000000]; pos0 [445700133372992643;459593778981110759;902856695876255597;103706961600000000]];
  [pos0 [654130572185355956;852907808754798892;409596479599870424;435898783000000000]; pos0 [36524824827036006;804320209125175295;343345739998550876;105763959150000000]; pos0 [238894607773945171;991213408769171607;589822413678121347;740939159400000000]];
  [pos0 [925310762159826580;335592482572925856;745169470223762878;344707621000000000]; pos0 [24408337832415457;632375231979818693;508737301864340662;784053427080000000]; pos0 [23543214558058812;368950799202617909;970479524615232413;267501071380000000]];
  [pos0 [3814050373789552;953965108939599970;648915984982901944;559421963190000000]; pos0 [419992480052590582;431382017708514548;929784016341885105;234107026100000000]; pos0 [491165374858810625;746647298977224730;260728156641461346;226621882900000000]];
  [pos0 [127541682781534031;645317489842970650;954491039559461101;547204573600000000]; pos0 [838898505728828530;456901608994628739;35670456242518754;64611559700000000]; pos0 [26073037335438894;585308672706764106;924729125387308935;351589990550000000]];
  [pos0 [243365700459289892;931883430788555754;935669338203612798;166307099500000000]; pos0 [83315832796637217;506478175625081122;734684223750837192;296463507710000000]; pos0 [604554802435564681;586292102418662953;95622277620270616;933521414500000000]];
  [pos0 [236583611940113317;444614324429845677;620495507244041649;960142014300000000]; pos0 [43971703620042066;284599009815002658;845217590468264901;789876485280000000]; pos0 [235806752472383750;996149036568205276;371920564620312761;520970015700000000]];
  [pos0 [99085758499841081;275255071298590296;72147619471496299;859442947440000000]; pos0 [87803878579364372;211215439451442959;697580202567493854;123661862190000000]; pos0 [217788330978253766;432439054275619543;867842947915514750;91298720900000000]];
  [pos0 [22209171145425297;547736866514768781;540828860028021390;646366113260000000]; pos0 [83514758866084460;339582817806828531;497897646026430151;259633655250000000]; pos0 [78059360456318597;143125991402478347;31929024542781858;792157754160000000]];
  [pos0 [27735802513771241;944824213561470682;902576265144658882;232286536760000000]; pos0 [240623708560142147;367877819099414302;240186296804525919;72995768600000000]; pos0 [260299544171853057;134347786550004119;757411377104067593;248126343000000000]];
  [pos0 [26064040858455498;624922582366783913;670324602968533834;238534279430000000]; pos0 [617069248495987800;613943412367354142;745569543066620305;699565108600000000]; pos0 [122312993867153189;621368740745707758;418897178367777626;37701668900000000]];
  [pos0 [548377613350833787;847237232993232949;634722568077974325;591348067500000000]; pos0 [9975161650579685;65780849846353652;439608106825158641;52371904886000000]; pos0 [225906472332466421;499061539038597773;137121623738853246;970421797100000000]];
  [pos0 [255185712901532492;954596118961673447;581951993991524630;234219056600000000]; pos0 [632327949540898999;304470916061918995;960588135784364472;351011396900000000]; pos0 [94499158004900266;352096288058314985;135408730193561666;146169228620000000]];
  [pos0 [60770737098752822;291114517860349224;587176647514651928;306694946190000000]; pos0 [104187186041621738;542700276526677319;724975680882524073;155183984800000000]; pos0 [583190384961391733;42924988462315567;539949228585191238;515792517800000000]];
  [pos0 [6887091028037954;629877469323934472;675397340894294870;525969989188000000]; pos0 [649454777541901479;837038532442109152;159881877105380876;513446983600000000]; pos0 [28372753366617474;569028593852051425;622399775660849880;128596873940000000]];
  [pos0 [92377515357307454;232429432127247408;635880234752440315;876119916270000000]; pos0 [566688252212853680;393386473472158647;236444828266684981;15804899100000000]; pos0 [328477269355757370;600354696661018079;450709120839083597;22701817500000000]];
  [pos0 [103822057768969504;662986604009265336;62491897662498614;241099279700000000]; pos0 [758692729983167073;179573751263437721;394267766160285971;863099817900000000]; pos0 [117267932583013573;671641397017363283;813289959540819931;177744708600000000]];
  [pos0 [819381801515008975;393709171300688404;588131286373908990;469763492500000000]; pos0 [22292662579453507;955609662267701902;735334618043665141;983731886240000000]; pos0 [21693443903744023;906363760081723235;305378617720488125;901357406370000000]];
  [pos0 [529009305528457029;276969173127325135;136125400119073392;603765449800000000]; pos0 [174358315803303489;521597281216625384;326877979116351977;639151236800000000]; pos0 [199666251728784034;376602624771800266;530468745638147952;631905211100000000]];
  [pos0 [293458629693931953;564516739162992364;331655743996689224;491572965900000000]; pos0 [350070116142154106;393720004385969101;101324674003445932;796322489000000000]; pos0 [1795274011579795;641912552958487923;572375463420822407;319267346126000000]];
  [pos0 [564988214514982947;219210068752426972;683194640269877751;562571151600000000]; pos0 [268592829213224079;358293243341832815;714863680398649283;961507614800000000]; pos0 [143785582764165247;142821634231801652;886438584002992231;633991674200000000]];
  [pos0 [258184009376851105;115388851051954700;243205135402069428;221943639400000000]; pos0 [13914813987781348;934561628036170155;518956905100004034;461341762740000000]; pos0 [16018430803131482;616366535814853330;235688547041628706;972408455850000000]];
  [pos0 [733339108976289046;232166539469710742;71747403398221335;899786196100000000]; pos0 [118940960177329500;383203448970544085;297105406514118442;464979550300000000]; pos0 [128691081422400734;404122036944348585;315630199999004360;764170196600000000]];
  [pos0 [14881549172686446;225758934805383917;906859990864007859;962575007380000000]; pos0 [208087595329487181;564365008078247261;566406964810522573;426669864800000000]; pos0 [561560628877974740;716959834453236618;830543298078119819;210649922500000000]];
  [pos0 [656344836524241954;832365473657908046;850466576283968701;240151699200000000]; pos0 [18962970895684189;379462964592798720;118338344246127339;336103238300000000]; pos0 [109046009383029542;989906560892720029;548060287245941057;922382433000000000]];
  [pos0 [20370770140704450;271928930256503455;57334806222286078;141734767860000000]; pos0 [821646083133138127;271334137941079572;705923217738721260;840221503800000000]; pos0 [25123040496851188;465242724975730223;589982676111554084;716171122020000000]];
  [pos0 [251926573322684032;184371586422518621;345608029499653130;111943257300000000]; pos0 [117802106175616010;167602621131909882;50365143314104029;191245572700000000]; pos0 [98248541159628664;105055801407243794;66530122472452847;95603567280000000]];
  [pos0 [180162775566469209;788109142155651577;992245400628950475;908118507800000000]; pos0 [254898675164947931;223999674885002044;723254995673832476;311403757600000000]; pos0 [34323550806945220;852220958277719410;896677766520548657;476463943080000000]];
  [pos0 [117893134955565719;853556418012596731;549100457824073706;974735552200000000]; pos0 [5805106374632742;532113101479243611;582248399908520952;790021664549000000]; pos0 [271159688521072745;283987638442687642;881783414071343657;738559208500000000]];
  [pos0 [289341746012952299;32750460753273169;182605637573074227;514765790600000000]; pos0 [673349414317319746;332647197248401584;755730081044300202;158591332700000000]; pos0 [13232156981078750;226185007521325430;179407470730520266;751689143540000000]];
  [pos0 [99365533978727170;23184628368194813;26180736284756739;394028954180000000]; pos0 [22176555764886803;971795841099731203;303084950533777276;43282028660000000]; pos0 [868322670887145857;631670802640123682;54413394261515947;641001904500000000]];
  [pos0 [93336230918615892;145618496691425159;411188282989107098;680984694300000000]; pos0 [718307463015777390;587778340906170549;467992053024728531;973208476300000000]; pos0 [94078031429025482;804693884876013050;585309858560968179;275280987660000000]];
  [pos0 [426758116514513269;859842630905189783;175553927613942693;281367276300000000]; pos0 [74086566225422657;696170847937505668;42409702400147097;881453776560000000]; pos0 [21516672509995639;451884015312457196;655520459614376641;649223065040000000]];
  [pos0 [384139598789182279;610084765854393165;205831878976660270;51849410300000000]; pos0 [201876853314553156;959003606424435542;678443610239417939;153622972200000000]; pos0 [375361616838647587;925652574364176274;755410103028799731;185443243800000000]];
  [pos0 [476570602766622508;399413519219123588;551187539809323595;415009777300000000]; pos0 [14787746748208942;714024155241268117;846633765476513921;102269588570000000]; pos0 [105787439748236554;305886710874649864;200984115369906928;717661794400000000]];
  [pos0 [321365098957279913;983667004341049581;627089675908121085;478366155700000000]; pos0 [176343635108770512;796849053889243378;623766136449338833;581510639800000000]; pos0 [323033602262217536;919161005362224378;101592868845499684;291702817900000000]];
  [pos0 [102435062173092363;110125244670492393;43335693336210067;315284846100000000]; pos0 [113434584355445556;372871432128428676;945143379061024419;9708967700000000]; pos0 [20123872549235117;821315444531792226;705807722502108042;403367576120000000]];
  [pos0 [135037756242416323;140408555499396889;792381324699970483;385600994000000000]; pos0 [22016316254346787;635265373553473201;581869692805745612;777846291980000000]; pos0 [632636797647245032;784988950328349084;694973378255207391;584546960900000000]];
  [pos0 [427155942740121640;15855561793776124;250975435114392943;594608769100000000]; pos0 [75575862070078761;611538075959893851;56675157133342259;484504000310000000]; pos0 [400637335226278795;486094565319203310;829719054003822228;843591426900000000]];
  [pos0 [7423352058992606;395287977357899840;222943964022897019;61323783359000000]; pos0 [505580018305893625;916378893829245962;605362850441036991;363996707200000000]; pos0 [281421382627391863;682877938126435895;487651874071561644;413659308500000000]];
  [pos0 [841573507009603731;386509984573811464;225901243396089802;722574313200000000]; pos0 [26808955765909372;818869331565188;366080904316602293;273197647890000000]; pos0 [122772413631337963;346742492334396182;379762765576072900;543276405900000000]];
  [pos0 [133314107311733479;290067108596895979;945167213117923716;738758807800000000]; pos0 [618498202346326114;458440034240222454;42658263776707574;550176386300000000]; pos0 [219403799104052771;892347284938530818;558793751257611475;31266954300000000]];
  [pos0 [646377375910297796;578330794797282739;880330715868906678;685270658500000000]; pos0 [21588288299128453;193084140757240836;44880346901375688;924672742720000000]; pos0 [21836959259042318;178631546235645956;9802024122788268;59058171560000000]];
  [pos0 [668258479817918975;993838511719034430;317657283896711456;202047498800000000]; pos0 [18169858602626334;106996525053065737;546935420955933936;281341841780000000]; pos0 [300141838725955202;790634255798477832;640102982232182991;141216017400000000]];
  [pos0 [358934851555677009;579925993114454139;406318176060685425;35520680400000000]; pos0 [328788775603153552;160324204525619643;102703163027164779;851592245800000000]; pos0 [234612826768038255;637884238820801605;814480235089065933;152183035800000000]];
  [pos0 [26032852075347600;747290087384395969;724432095113983487;864176134700000000]; pos0 [15385379193766444;146240280860421202;700160080379889383;532987092470000000]; pos0 [834470603891131600;386479491020674019;736700597305703617;757033042900000000]];
  [pos0 [392235288840848633;221718061764953450;69518119456339973;6125904400000000]; pos0 [197542827301242210;27273476834672661;881247823595900893;407634756000000000]; pos0 [32372169951113028;942605043951363662;35712088962130127;998327678560000000]];
  [pos0 [41110269018704013;914585281484005745;311106987484187981;478125014190000000]; pos0 [463559879573053404;581192937229171671;343150297874833894;464985785700000000]; pos0 [74429729567821355;278391195018629141;847340156660849184;829515264300000000]];
  [pos0 [642959234195544140;214001776981665034;608998207458705870;182789478900000000]; pos0 [306996351051980014;993953925715494534;331863673737875096;589969090100000000]; pos0 [3031555307071350;544420185786152490;205826273700452397;794322562567000000]];
  [pos0 [23711289540394213;793821768030403601;265618176786093530;490998627200000000]; pos0 [19933723900515017;488706842504412876;511228043206977575;166715175050000000]; pos0 [168691966307334958;887596276331437018;231600587955903215;730053566400000000]];
  [pos0 [21353035315088654;732385282987633306;95659460970797618;405554055580000000]; pos0 [24070750964263175;685902952768396181;913605434651962475;740737749230000000]; pos0 [328664926728553080;217922865339965147;122432679922681737;888159760000000000]];
  [pos0 [24335203528370929;24262545926321176;994409137365855397;781707032500000000]; pos0 [132605718115887142;129672203879619546;55119423302144459;863925866200000000]; pos0 [821734574996847754;807558738054041769;955008799676578114;846446940300000000]];
  [pos0 [250084820890875814;785169561121225962;714339591806559117;315124008600000000]; pos0 [280993040860044879;715026576562255697;996768061567377327;696997352700000000]; pos0 [96281055906287962;105200264713648385;720151474594257993;825870806220000000]];
  [pos0 [116133650848346780;331717674037262070;792508682773691623;182457052500000000]; pos0 [790645117642715923;145448567682626322;939450201111111404;634537004800000000]; pos0 [16733855340768187;418086130308897416;380493371959185821;226031291830000000]];
  [pos0 [277358194171600939;295491679884284972;444604681078190826;15535973900000000]; pos0 [16340876406998575;545140287977771385;526373413817333396;967234467230000000]; pos0 [105688039922541745;375490571343739808;711798303917877971;724625994300000000]];
  [pos0 [144722979054398163;676911846712382375;840831389142851512;717981407500000000]; pos0 [197633525126866042;997343441080243075;956759057402960620;12577566800000000]; pos0 [238233833340414637;988492971511528250;211329389558354887;692722634000000000]];
  [pos0 [21479636783768247;431289267710068793;263341267079980155;117103250750000000]; pos0 [865880812317971689;703424048255164819;316038909220024823;691557039400000000]; pos0 [91522453183015660;499677258694306534;207823804127523788;614708845210000000]];
  [pos0 [41352307796126416;883465494246062083;281103807748965976;111163103860000000]; pos0 [507312794765697479;585827787710359876;981461988207279238;518200738200000000]; pos0 [4708987583563917;63523813670192191;279461582962276506;671380634480000000]];
  [pos0 [125184681712264324;359029486646950470;461220513660419817;105892818800000000]; pos0 [102142976871279299;888758355860578435;428922759334729459;715899806700000000]; pos0 [753658261075793100;611840503493053419;438034935375468661;617237575300000000]];
  [pos0 [198887264727459630;573047451034478488;957039573103141438;862808472400000000]; pos0 [109571766120728380;338241367962165934;467349072979048942;825705713600000000]; pos0 [518054512015828644;903180671165942356;361360215862972911;136502667600000000]];
  [pos0 [87145851931892808;587691311705221642;336241571237894357;345451245030000000]; pos0 [79248918765838934;770686964850327366;614880676338191263;204894136260000000]; pos0 [735543693350126650;58416321695723475;193913492694082066;85300815900000000]];
  [pos0 [67673227190050811;576731161901680522;159269303396392102;953662762200000000]; pos0 [407168622017727006;671995240265925992;765874522984378339;664831938300000000]; pos0 [231466262379970431;412632095213488985;431315338500477523;947402432800000000]];
  [pos0 [557240655968317913;53980421968651986;856605498206069285;810542529100000000]; pos0 [79314622683004829;574073693816684615;471938387923437921;576797012190000000]; pos0 [193907963885415261;539804767395409714;550581446294980797;186698681800000000]];
  [pos0 [620402904892843208;919365869233491744;461999176615448630;270889988600000000]; pos0 [226205978429814246;796519287481818811;603115135863559991;165153367500000000]; pos0 [58553036363721456;509350826424033552;760257190772153925;232085737490000000]];
  [pos0 [2398627388752580;72179290524222552;28566551402375738;515584882796000000]; pos0 [103575480307320558;483186097338583469;947897413082483248;453793162800000000]; pos0 [438645411804342848;45055595315419532;201324278685519151;234621002800000000]];
  [pos0 [30133970220982284;945182694123245911;797577484246332785;257200480160000000]; pos0 [15999745174342064;429002544998322220;413494183397384499;283099171150000000]; pos0 [688374237970464162;946288939368635942;16926158761973224;420629929000000000]];
  [pos0 [192774902327159691;571670754222423291;950833843228148129;438750015800000000]; pos0 [85630862627857275;175947238682106341;279883486075324791;880524574370000000]; pos0 [391167823978110883;282046134823397968;750375592304507457;561178539000000000]];
  [pos0 [54074457199930708;816105612177071868;201257562117553208;222552428870000000]; pos0 [143373501032070525;805148143401561831;71111556679200860;838638469800000000]; pos0 [406265298123187443;120479533966910686;670313587415557509;498516485400000000]];
  [pos0 [117358128684145899;802205796413742520;716700240520949697;297724174300000000]; pos0 [27160581698950446;656321151958214080;227123142231649800;30881229200000000]; pos0 [110594246078647169;351011771879113696;760697003419461141;31228182300000000]];
  [pos0 [392286516401394412;753314717702976757;386957220465229766;850166701300000000]; pos0 [316345570093889067;220547111513802636;714590720865317769;228790601300000000]; pos0 [121385747834984490;391475645159665745;299176454932579301;784667362600000000]];
  [pos0 [128557014198620670;298482391975722642;774117305850489698;591078785200000000]; pos0 [12363374710923069;875473072537916737;818376366564542170;548546417630000000]; pos0 [789186126910463496;859014793678672805;806852031325433057;469646530300000000]];
  [pos0 [15869290737260767;232916138735831531;195408927659953103;218766668960000000]; pos0 [181658622840390635;938073402354161528;901729737127578118;619549274200000000]; pos0 [16249544899984792;111025623058687448;221566883093315898;750045433220000000]];
  [pos0 [18644578551882941;226609515628574721;466009443301926988;729442845570000000]; pos0 [242616772316755198;199269812996019481;624103660204583362;479080808100000000]; pos0 [658101091100629987;647687623471399924;163750770259679850;238657240400000000]];
  [pos0 [20003068069117591;392904589268554353;420178356864284608;181615719760000000]; pos0 [26491982786442053;943296367864671219;431031441248970818;34201807410000000]; pos0 [927211894993869758;344124660262033606;55007520931029839;247722991200000000]];
  [pos0 [315221184417950454;812801274429921904;997697510168728922;426983200000000000]; pos0 [416441473581937280;769210666901501861;152452084901266903;939087703000000000]; pos0 [42443497933202443;667269955650139210;792968152880718160;917127725460000000]];
  [pos0 [11447245328689248;177918440037453317;389236520859286597;759563589620000000]; pos0 [535613871061888003;770995435785249231;85240905586479543;26234295000000000]; pos0 [438327924764136205;939747885924231455;579200165943914514;670344352900000000]];
  [pos0 [21625967230933438;181609165176176658;879148116722115192;460317309040000000]; pos0 [44254183440393098;793265572849583560;264457245437451616;723555675940000000]; pos0 [9256170098485279;631185817336291645;40650318374087257;818852039518000000]];
  [pos0 [17676077824465876;686922487460442162;677159196848509126;473909056180000000]; pos0 [12574062625544197;161055130929535473;767756756319911671;610977379920000000]; pos0 [513242988713718529;325740452601041291;179157228987377353;558515095800000000]];
  [pos0 [221949586639396489;737904049066036032;216207264512925633;669193031900000000]; pos0 [236014440187164431;999984616392432092;137426880269107217;288042585400000000]; pos0 [462149285715051204;322570391227700376;680664825344949747;331225849000000000]];
  [pos0 [23276666837269615;484102647855240990;114179572711701470;310434157870000000]; pos0 [313195724922053597;568949522728789992;741759220252143758;181714684300000000]; pos0 [650495142146380992;674828147514901958;230360315513916384;677498691000000000]];
  [pos0 [419210602486394487;228918725802789050;332240272885027964;305350800500000000]; pos0 [473014369981887487;624185809146261852;406554331656462468;336069738400000000]; pos0 [8271076205242583;707122376096199969;836532030512964936;993609251520000000]];
  [pos0 [17134656780601341;438306130171142647;539253753163522680;868253180290000000]; pos0 [115052716338237265;687730625879743536;279493771201634312;212771824900000000]; pos0 [220772575137674385;137469162728230605;273884102693608914;764928195000000000]];
  [pos0 [217226361056167203;903954279691435726;756543843092280515;912462517200000000]; pos0 [341408635799275705;841668697529430039;969710006919631627;617689758200000000]; pos0 [431652044801481373;522701440969996306;968638375300821261;564107901700000000]];
  [pos0 [93269287523023410;1793850242574359;966339532851591972;381602848810000000]; pos0 [301988531624472158;805176568634846311;942285582875246029;457906077500000000]; pos0 [126025801385567315;609027475413643105;590340362764170553;471273194900000000]];
  [pos0 [22668456071576786;680478125112866036;759553531341874955;63142494660000000]; pos0 [734566939691310050;871884655010591100;673296196265948293;202004545300000000]; pos0 [230023019380377593;74700629473470060;375728545921084043;578789251800000000]];
  [pos0 [444379801443798379;874305908296062936;847239367939298594;503378267500000000]; pos0 [416247277852935554;607875768351318769;875295181680778296;999111351800000000]; pos0 [70532517126745026;523036270949170865;189890077287339443;733129191590000000]];
  [pos0 [13162199306739355;755366845372546273;82678717433562125;810585646290000000]; pos0 [94448785984450962;173029295955001171;916521799572846145;178983926000000000]; pos0 [770788823962612202;226184375540519467;811187013305432059;264179446700000000]];
  [pos0 [461121410824342413;886175565218384248;91053559294224978;378520753300000000]; pos0 [15428921605442240;964991044013460390;884871684806705817;274359730370000000]; pos0 [494650042211685128;839706180869361044;805499846222026337;599558459900000000]];
  [pos0 [447030820647721662;551481922560588122;255049020359793740;975445162400000000]; pos0 [73859881488471783;884082877621134350;247887986030608275;766980244780000000]; pos0 [467874066123184101;322828382538115959;705359224458859901;298477836700000000]];
  [pos0 [69719412228011755;497015042254398600;404830138904333919;323355106290000000]; pos0 [291649193825648616;638054333189816276;36569348839612740;287824748800000000]; pos0 [18923953609598760;706600142545704859;212009349203808477;175645445570000000]];
  [pos0 [24838065539034195;513444393557163234;815680008516886093;287408248370000000]; pos0 [930820347861527172;142109982103093162;618716214111094385;726999254500000000]; pos0 [17705756642195161;589175510845522410;559825358090822115;260430767360000000]];
  [pos0 [582253305811213768;142256217381290888;654391126614658828;334263013900000000]; pos0 [116468766015040594;981311663241209720;674237238181658660;677610915200000000]; pos0 [281915998269299368;176114692511229727;167012110767338274;434508218500000000]];
  [pos0 [96431813358047804;316051513721118329;876919869147994373;693498680790000000]; pos0 [544511554928687437;746855481625773911;407583102466736203;330893532400000000]; pos0 [228428126919142420;82900197016065508;800267691099326487;842217305700000000]];
  [pos0 [516229095681903012;949878500782765494;71613560975628415;630213031200000000]; pos0 [5268202700851967;815906268360577010;342298918510792723;822931348096000000]; pos0 [357853632242750171;835342197831716591;190371050852202481;534100640600000000]];
  [pos0 [78607474439449994;666781428505403206;993346032368112916;443123108910000000]; pos0 [64673230527195192;351922995303090938;677708227397938610;956628464870000000]; pos0 [354504953752755034;88667284127579297;257272723100238880;909528434900000000]];
  [pos0 [169474336773575234;95365632497015160;149310992008053142;558681672900000000]; pos0 [388904311457788639;537329024018832734;664195586586437683;322547939800000000]; pos0 [343767538744775625;299601695294171580;189322401734368798;114159192600000000]];
  [pos0 [398244963074953139;818234703196534059;188380364007087672;164893296300000000]; pos0 [447582813298245309;853954362074636152;385349788815366196;162891267500000000]; pos0 [140051550890120228;725297047277687972;821800607689744077;873228639500000000]];
  [pos0 [161359142629069864;431239581962749562;647906421276141528;3133157000000000]; pos0 [444746802500024988;415752327925429319;965905607980971460;756400504400000000]; pos0 [111425041693392120;332741008814262245;551777664566883021;251337643300000000]];
  [pos0 [121565968423608569;211663523235131142;870218677125009863;861587966600000000]; pos0 [241882635470512247;306711659394281894;426440304311221539;981391030700000000]; pos0 [393527069207926512;479546028741933695;212708955726872733;650885413900000000]];
  [pos0 [248920233145770919;245331550729800798;44503959866717818;834598050100000000]; pos0 [472309003805996113;951339363025729427;392790676802898103;632536544400000000]; pos0 [254599103746278789;514292596631010317;841325703461653668;908786673300000000]];
  [pos0 [185762221331800507;786298720845682658;894826136255267636;213465938500000000]; pos0 [7818863945579304;368930326682994241;998426806744792108;339507520109000000]; pos0 [428793648278197791;930565408773762561;307382779487666451;380832023300000000]];
  [pos0 [590030904858065220;657283890150962286;443536163020301320;373371472600000000]; pos0 [112530612275971389;144734183544473626;385376886601763060;315817628600000000]; pos0 [2770978521653996;552951752591987739;636652814844899740;32222576718000000]];
  [pos0 [210099490511332964;204020641934726886;427003074172500506;822412345700000000]; pos0 [591128903555224448;478563790855527832;340522338551874853;703162708200000000]; pos0 [11896478778350804;726294238646850158;871016161916055758;364724559280000000]];
  [pos0 [510872133826947918;112617586672227251;697708113839344620;680189351100000000]; pos0 [273947598644604694;596502848925168458;872075600508844824;891781447000000000]; pos0 [17781295177692646;900822026700897676;636104809470908450;42462998680000000]];
  [pos0 [77119723738413508;561056396182141297;142737819031819737;493811879070000000]; pos0 [425002437923882617;137108110000108546;794121013235896312;895153475100000000]; pos0 [465753568992802827;329641420583196670;846814113801542761;726678011900000000]];
  [pos0 [423809162068021346;729919948294185849;771089002586237069;158361323400000000]; pos0 [282363921682569333;685459495408573590;557070406221055689;631408908800000000]; pos0 [290044951449305707;430391042586544263;906771654990621263;912369386800000000]];
  [pos0 [76085914100950936;188968531852492049;267595103867949096;387443446270000000]; pos0 [28632175468987410;942317887576841850;264290983333044516;807277206130000000]; pos0 [490277411613131289;958826055518597779;567852423286433890;619722599800000000]];
  [pos0 [671673968685108780;338583995528616442;357878802397633582;383254891900000000]; pos0 [275719975402988254;438758063557521948;404086668915010245;74048222900000000]; pos0 [42262322063745097;968618552832714130;171076221009381546;896646277560000000]];
  [pos0 [441863010418282516;89864193545501651;454029185435314816;664547707500000000]; pos0 [190929774807917228;533842525207329628;169511064184872730;194107599700000000]; pos0 [123984346835658792;526971557404053063;408249725123678989;472517851500000000]];
  [pos0 [220723920933619562;325814268256412667;401536410799132395;645664315300000000]; pos0 [330818252129761670;536122251737269155;392086155800831496;731634954300000000]; pos0 [226249672118236863;855717335107398592;975927150973175224;976400078600000000]];
  [pos0 [71614772278386641;373561710806754903;192962100366000561;652330714790000000]; pos0 [670760123898611885;408991289497573573;455161657413238286;257115667300000000]; pos0 [15786898512857793;289022799176486181;995295582939201885;959329073400000000]];
  [pos0 [746618529093581791;75348497040871294;999497672446681277;185057398000000000]; pos0 [79922396051959886;930462219968838843;631032992298540931;417617248920000000]; pos0 [84016104679697541;237734480508298994;865999074902807945;291124786530000000]];
  [pos0 [248711547764230765;993865875514152584;640088142459437368;868629294900000000]; pos0 [623530194691585561;452937159651268575;203288772887180502;772979536500000000]; pos0 [40663399131803008;758079706626832910;189775621014428487;518866730030000000]];
  [pos0 [1471160462491308;82917651279431131;562239644153039982;426422538944000000]; pos0 [407387415634412373;366386837504553502;688476250256337255;239205529700000000]; pos0 [168978672956560352;856077886137701104;776999853664533490;557375728500000000]];
  [pos0 [448309961464529554;721904989577590819;14243992927358326;939412540800000000]; pos0 [11249939859750542;154877371823045976;260590946071574308;255080145000000000]; pos0 [21345120905877425;445513084126199178;884282405107462585;119983686940000000]];
  [pos0 [90754084754863278;557874029949494138;827486921481635312;178763972770000000]; pos0 [212686556478483023;562910613138338618;47695044549138675;624349305200000000]; pos0 [587596080355013830;856568482624558986;667011411099698391;119423814600000000]];
  [pos0 [249807756482585458;958708319269937175;245594770597393262;94758751000000000]; pos0 [168717392641114103;811629866044704910;549679772785352919;785360828100000000]; pos0 [3044334322247282;633324739056808872;886024273767777896;301251707277000000]];
  [pos0 [265089000310802026;846603702649275753;689143703608219095;234659640100000000]; pos0 [24460909200245579;445595733368374131;993719062055612868;643843689320000000]; pos0 [696952823961462798;114965093796953994;958613336221809924;175125084800000000]];
  [pos0 [829638105523504155;579890944300381611;665895521486438206;889363013900000000]; pos0 [126030700634485860;621359772420798147;978247987678279164;998497313000000000]; pos0 [23207801609325012;511565414993155839;171501113871940344;593770559570000000]];
  [pos0 [116986283554964202;672890964476189273;294778246806797118;290698254300000000]; pos0 [237476617912222390;810449365948718665;610443908120706225;849676828200000000]; pos0 [624538191516259283;898414062404301884;297555636971680355;45329460300000000]];
  [pos0 [296847100633510166;443589394942240632;735940055753974699;439919683100000000]; pos0 [153039421627904288;699833837458337764;412292173483811267;430620826000000000]; pos0 [207431584504410566;571521355214138093;475768812611428063;350496347400000000]];
  [pos0 [3182881770709352;617703341053455027;892844314353118491;746868389311000000]; pos0 [64033899632597511;199899082463478727;775997429335774361;290627125940000000]; pos0 [640825089075152894;69831167070167041;863852839204815377;964653502300000000]];
  [pos0 [280440884540757436;49370603157170499;102421282376897396;722585092400000000]; pos0 [144187386881356641;794311699157984316;916039811016133896;750729876700000000]; pos0 [561941164655063318;901290379505020415;16419414786366314;863126999000000000]];
  [pos0 [798179325749207821;826192007492321878;322698159394435544;75969376900000000]; pos0 [6781013385787405;838879329301407335;723202364976444817;521588772809000000]; pos0 [120007547789255354;475127451982043385;702243023137031679;589285321600000000]];
  [pos0 [17173572059380934;141953139627232183;30753694671350453;411623035690000000]; pos0 [295705952299060232;317301483042452435;170541420068919797;172053898900000000]; pos0 [391811361425112138;212874087171170830;558340595429426988;952048314000000000]];
  [pos0 [107129796593810098;927193666271934528;295581917860175542;719893160100000000]; pos0 [143406692064228142;620352840614964147;795871581789944945;105250155600000000]; pos0 [99281643449499917;349550606380932340;565118879824645418;877292979240000000]];
  [pos0 [477865790351342578;415287125762722607;491550769446644618;642196088600000000]; pos0 [483936626223712475;970093871201452097;513189916048957095;941884071300000000]; pos0 [26975745802658161;839400384991648606;599880876472348534;783784288580000000]];
  [pos0 [14601395984236139;920091705858254488;155144530354046306;285683287480000000]; pos0 [758278010901685215;810193869469694839;628150333334373954;290022076900000000]; pos0 [128750800246131804;377183412268727685;380367300530067682;843986976700000000]];
  [pos0 [360266602050313639;640421957578460080;776458528167440865;154091893400000000]; pos0 [3320148291486242;379682609245409902;364931782364768903;35704756149000000]; pos0 [255367907216559278;426789762943931711;777161344560076388;674221347600000000]];
  [pos0 [20839276773486417;553239608793455273;115919218648863921;944566043180000000]; pos0 [5364673957560781;35372873720020094;682911914004266104;953361179973000000]; pos0 [50727247638595285;588408363137204656;408157946946003444;513710606840000000]];
  [pos0 [244031020980726204;698835520820115475;95470865785905177;701552274000000000]; pos0 [67523459458363127;793719654667513174;863101630897789818;151299191090000000]; pos0 [27630108161736950;587376713526556885;175785239945166811;749729581200000000]];
  [pos0 [237903985814082447;316546271917468829;20917167677180555;51189309600000000]; pos0 [516949165930893039;700586628512560424;465960926976254496;811730394400000000]; pos0 [133472755072929717;969460216113445215;131053604839553415;108952989700000000]];
  [pos0 [286903740327955155;651168755351535871;611150692244724316;221982982000000000]; pos0 [13977185724847387;632130790896230962;824050736275660062;812724911150000000]; pos0 [601794808958686617;32960192132294338;762406785897881343;43712052800000000]];
  [pos0 [143106793911813867;378137461206886801;160748128717100823;121624848400000000]; pos0 [446205554078804303;943181426349146392;64275229529275298;890046454000000000]; pos0 [22948701329797554;856195270602881598;684291333689629728;102590919070000000]];
  [pos0 [605413922421708082;66116624950232974;184560856298501549;89239827900000000]; pos0 [106196466093533932;869614655681961359;857886489742701692;40935344300000000]; pos0 [56907856627077952;641180737196873868;478342135942251128;339672051590000000]];
  [pos0 [109083823415085586;961373685797437419;557625466387847583;279280603700000000]; pos0 [19113780778195800;80271845669877876;431554020881955562;945669203040000000]; pos0 [22500369138579267;202489652900138035;519066275674983481;661120619550000000]];
  [pos0 [21778345009341842;954564665583375326;955678900816805548;538661383060000000]; pos0 [238362273040131571;202745199248274625;973459286558080275;625538709700000000]; pos0 [101146951654026797;342668891853428707;795682316166055473;89623004300000000]];
  [pos0 [435104709856069646;620220489734657452;609177663299946194;20323883000000000]; pos0 [70976890181265985;868756133545323236;565516959225340981;876253722030000000]; pos0 [113513157977447983;283100568327316881;41962487593621154;287284224700000000]];
  [pos0 [49243350221796227;660776535110334325;255804983205217610;351340987100000000]; pos0 [384102092848594264;558047122347777696;758566058050460206;873639998400000000]; pos0 [427059405703110289;641627222204362608;213470223279236777;684031935200000000]];
  [pos0 [25721183835621143;966996445641735200;903695923761321065;51356073360000000]; pos0 [616684601606356465;932005926894369892;394826626380701294;956891622100000000]; pos0 [283487993375818630;7573810934567280;751602895312691621;598203548900000000]];
  [pos0 [115216449883332198;768137838037888444;386398775854293064;106123712400000000]; pos0 [592752720304875462;812558018696152587;869848396884766332;141778107500000000]; pos0 [73620904664454733;590406545270661625;460098434703524235;180383164540000000]]],
 [pos0 [13735493561619324;108843280195219514;460241936639006960;200074060780000000];
  pos0 [1822709955127244;729723963916388917;51770030518527176;804223299956000000];
  pos0 [2856639635783518;939203514858267133;541751829245587028;611305768248000000];
  pos0 [9519221172194512;471471133461371628;953408051521564558;32836097103000000];
  pos0 [6748556866137918;33517214841681034;409411953511141294;499641796128000000];
  pos0 [1528447159324985;328878295999418796;926349859515117997;1741872532000000];
  pos0 [2582334754040340;675805305446463690;65787485872510087;495221753298000000];
  pos0 [1487676151255576;121038761490211709;265726933503764389;847026634745000000];
  pos0 [9259068709325052;131453097475924534;109090670584319348;41278620351000000];
  pos0 [13125062153070004;367897181796109972;113323979418519412;318066150780000000];
  pos0 [10424486587343714;494032108269530062;873744488466204362;535198466250000000];
  pos0 [4138336906866739;249806910824611533;455110757300508367;318466174325000000];
  pos0 [10189932221515967;743414988224143128;268689163258434718;637040008920000000];
  pos0 [8106068425702630;840654714691913937;198072398728303341;680885192002000000];
  pos0 [3404118058020086;820050041103022911;509398171839859022;57961930377000000];
  pos0 [5573619957697218;588513721657365122;284949848078373991;779314534462000000];
  pos0 [11101965168711310;372964459557117311;818478057762045639;752579765360000000];
  pos0 [2102625729556566;219242525808001600;979426177280327280;45470751566000000];
  pos0 [3261971658508998;56082547307147541;813771713858116234;155019501121000000];
  pos0 [3860635536487606;714288514713946072;228456718547329417;241178488676000000];
  pos0 [2786089096449534;902587645576355042;177543043602931045;100125685318000000];
  pos0 [14884641498886434;668972364882303890;496584440293347407;658332988920000000];
  pos0 [3451728109540217;848498696235970241;697751369985944276;142078423992000000];
  pos0 [7407036317944308;103412068114904984;167219348378867372;513981414186000000];
  pos0 [1612886202742083;657951238755625241;376277157799885058;168898737749000000];
  pos0 [4788317041353792;752404202454843431;741788806974932784;906036828271000000];
  pos0 [5688046714374978;927646114108967932;210535878641557363;66714317864000000];
  pos0 [5463293623259437;280489660735408883;462385039573768648;982589614085000000];
  pos0 [2863140074840652;766071683997436543;9354414125675025;338785605614000000];
  pos0 [14670207684012262;199446505927031442;203158552206376942;377552301200000000];
  pos0 [8990844587764108;982902312472149782;4825926642752454;936373980897000000];
  pos0 [3845065939684061;720560343571696553;250992440210972217;165689641658000000];
  pos0 [2477622172607569;453666507723478983;339014310736421960;642351527646000000];
  pos0 [1168106803721889;742644250966920345;196089710417890785;128431340686000000];
  pos0 [7870811069218207;431894082272538807;589779243384891115;990087713716000000];
  pos0 [5931367385463203;86106055391637817;559517955169836981;678416545268000000];
  pos0 [10390616754577469;696483428449955988;255451502922783206;189551024290000000];
  pos0 [4780112457402286;306446073431436143;386505462413999766;709767011175000000];
  pos0 [22630130545812100;294217534889148135;428486521738702709;933707928220000000];
  pos0 [4892338621117144;120901629749149754;280775758769296322;860988519927000000];
  pos0 [7754247912945020;955623976290825527;936295785707440324;307575227870000000];
  pos0 [14366055671525011;227148258023368158;378855185716980606;148672478040000000];
  pos0 [4759160510579541;471809366940474767;523022481845347462;266412232620000000];
  pos0 [1608758844511233;560187606337845720;689890724520352340;779835980570000000];
  pos0 [5947564670264931;520843820507779806;836704405734192839;35222378456000000];
  pos0 [3543544797731246;82201607917360940;336577146507037267;500065569003000000];
  pos0 [2142472814463233;142257500574536291;73767266580368321;824441522798000000];
  pos0 [16392306169998785;835539148458480090;323472091088816869;732598728740000000];
  pos0 [2080555027575614;713821697520470737;845722568336347160;729115140117000000];
  pos0 [11605457500400583;211203815079186564;616629313879299505;932535217110000000];
  pos0 [9145485587290452;61358378251858059;888198163511174469;195302196088000000];
  pos0 [2113641782569760;640422134083897875;163275665990895479;375675374735000000];
  pos0 [2675342029048547;106753394335334086;735728643683052446;350444979672000000];
  pos0 [3401097743243374;285801320398364953;652289642132579629;635114282057000000];
  pos0 [2916446523536408;886713892716399412;344310190315731517;294388231108000000];
  pos0 [16884830508192875;872864193581420115;753003423300399893;833741536320000000];
  pos0 [3783586070127428;336775575595350895;170183129596900726;160219189557000000];
  pos0 [6076250369622658;277960270689349660;69591488706938738;618492061246000000];
  pos0 [19670299058780501;503917632780676512;356428625031247195;688693483600000000];
  pos0 [1822356067979386;75084235245220295;611264083458116795;970554539230000000];
  pos0 [1939136966076217;362149948875559123;51671603698368834;580841030684000000];
  pos0 [4277029234246222;722175080360280546;349496067804340970;439611045870000000];
  pos0 [14409771109390269;143911634534409987;362657323241957565;624021363330000000];
  pos0 [7515754617918016;358892506325979723;43266251233090899;116721033271000000];
  pos0 [17656621464322535;335598583403698238;743607567747478470;359384823610000000];
  pos0 [11024079986838872;467387031553711604;857361557327091773;189021662440000000];
  pos0 [10751638401100045;104355544642185311;346758693279855917;717597473280000000];
  pos0 [3170707783992993;688828356517363525;576079701516399760;394668672773000000];
  pos0 [2749464619022443;712243296953471975;527341017927984434;548852466699000000];
  pos0 [17136758602867627;308308963010978838;228608747217725484;995988504700000000];
  pos0 [10317679919462880;950486015021881160;387699907221149655;218845204970000000];
  pos0 [6461896764693838;470825456873223755;962436366679273653;36804486896000000];
  pos0 [14413846146909002;259588970479851479;408376399871431750;376336317180000000];
  pos0 [2949373906783929;357166976531632962;624047604076219025;274276186605000000];
  pos0 [1911073982071574;352370436986449099;232700056699377534;340926488356000000];
  pos0 [4555719340697846;767957889824668576;273417400831877979;671193246840000000];
  pos0 [1352031099753691;97512542842377301;799135320511722351;957163655421000000];
  pos0 [12811907329089228;573085971938719129;232140190379643246;389123222130000000];
  pos0 [1750368919867405;36817587458398898;442292370115656433;589046312800000000];
  pos0 [879971235750026;131484849980467982;437941267825774829;842730682094800000];
  pos0 [1797774228137801;914166175782217705;579619753280209900;734889009476000000];
  pos0 [14180864162185903;217153689403299244;334899693230271485;431349267190000000];
  pos0 [2531885029722354;188387827316759770;254766348907269104;332205242253000000];
  pos0 [4076203326322686;726142115605814233;148569746463007000;620995265310000000];
  pos0 [5779995490368557;24755724273899904;914176999541954673;61738172070000000];
  pos0 [5696477769682042;115002041546052660;435946484047396311;473640483713000000];
  pos0 [13895669365447393;564948854467255304;916776169316031811;517685634900000000];
  pos0 [2100306535348137;671737940310236551;761949356208165222;593231404771000000];
  pos0 [10573240818235891;904747328632756328;871452791049764577;249515272500000000];
  pos0 [3403073657215114;571485721216662456;688579073997648111;235428126993000000];
  pos0 [3316626923281069;361764862022694125;495559349818676685;111178064531000000];
  pos0 [3364700168447847;999450505152758744;502024549401155976;190955836337000000];
  pos0 [5526423850961475;721653235951235868;443745743538730805;330786048502000000];
  pos0 [1159515459476759;281046801529057506;805221241799418587;957230078429000000];
  pos0 [6507401550663297;685904434024980003;988079798847128258;646357633491000000];
  pos0 [14280890906553888;685985388171924655;55856105706120942;542382159190000000];
  pos0 [3488988343455649;48619737623536956;885034754739788202;110001026200000000];
  pos0 [6413223093308067;978747875787721455;408605745571009746;856523361865000000];
  pos0 [16133582304469037;530608326633462750;382745880992220149;154664675560000000];
  pos0 [5123871066386284;522204371439341592;887398646270185070;81338225309000000];
  pos0 [13362656884586737;13371691059652294;502783108975290375;90151244270000000];
  pos0 [21316511024510905;526044710880442285;959268268875042835;156759709510000000];
  pos0 [8587422647815154;305282565492391988;693579919515494958;512961354363000000];
  pos0 [4644130839039988;363665347963173008;800612113091597521;98338999225000000];
  pos0 [2475885308757057;544341559242543194;435082171481325149;889027873241000000];
  pos0 [4990023482701343;108066316557768950;83112712204261552;106639945643000000];
  pos0 [8021641770984255;490684824713091828;124180322492371030;239759601225000000];
  pos0 [8082030034637161;809698099707571167;259598402486471556;596976744008000000];
  pos0 [3531008535726620;781639203835609603;576955180569386736;502576193870000000];
  pos0 [6107586168126079;500016148001556701;458653552522783190;875165980740000000];
  pos0 [2686886768605504;434242120492841296;239612393029309986;881039349463000000];
  pos0 [15586715219940955;135438546727869057;216818742082412777;107209719120000000];
  pos0 [22478568183124444;562952749921850663;731842109795513158;158353804370000000];
  pos0 [4327245017464648;845673905108874115;582370407909708446;953620117444000000];
  pos0 [7676675628908108;321357879658734737;651503682742036089;74711147962000000];
  pos0 [6424563042708325;748292454215033478;850749819435616546;600107536520000000];
  pos0 [3601562317459967;167262200943797129;124405017219430366;873638121066000000];
  pos0 [2107720562666873;887434025650878907;930695498593110155;466254358109000000];
  pos0 [12040191669135535;680300771576560650;597241470943818344;489336977770000000];
  pos0 [2928098778407453;548512207005925826;963694659386106132;943863780165000000];
  pos0 [2714314012829964;830984131944894059;134269346816339649;610749815689000000];
  pos0 [2684756137753261;82880583066471019;354097133836813797;568573175400000000];
  pos0 [6363048646196030;544273752528787305;834871050730574324;142225700676000000];
  pos0 [17394088376667835;204078315855854877;965592241195190839;829511868630000000];
  pos0 [1862832057203554;496230399663271747;176411100148137291;504540614679000000];
  pos0 [5334770581409029;604220854070980391;473053744320844890;282825174362000000];
  pos0 [2274732760379829;991995299415960807;398989678779959054;204683668182000000];
  pos0 [7532000482691122;916718104158262310;700018862358330838;540687250126000000];
  pos0 [10363323632726029;2869218344839347;490230581341311105;387766053290000000];
  pos0 [2803830779815179;632336553240512901;519435764597586782;489752336640000000];
  pos0 [3691537027761582;566704959126109268;969022390298550380;439742975536000000];
  pos0 [3837353991048999;290504672678144928;790554275034023834;615227323234000000];
  pos0 [707630619545775;366221693702717751;790534596579194134;438888958927000000];
  pos0 [5023476678531097;690439261393232350;787110725081335292;693326969662000000];
  pos0 [16426969048852852;428672506261385416;994348249602754842;574925445850000000];
  pos0 [4715810468336173;195384363856489177;852077668141185912;637487363428000000];
  pos0 [8536707351800089;781924037134068754;710555529525865881;606282935921000000];
  pos0 [10648058778699296;194166418551545849;626485523984535645;150312673850000000];
  pos0 [2072192020254103;152644400596868991;231155684215780823;826562320083000000];
  pos0 [6866650322989464;2529186205640433;238845774107824155;847751157896000000];
  pos0 [12015544175768788;588067752091079211;329510535542317151;194687743260000000];
  pos0 [12163207446701140;419100928233510255;721496271990987406;53079526030000000];
  pos0 [6482951298765949;798304278685931518;428361775795937650;231950038420000000];
  pos0 [9010711207994147;810337892757280826;585961159607344547;692625116767000000]]).
(** JaskowiecSukumar2020.cpp:2498-3198, order 14. *)
Definition JS_Tet_14 : raw_rule := (
 [[pos0 [231484702702611286;539170847531001560;9802869002243370;3965681200000000]; pos0 [637691533276743510;872556001439990905;345243103839663327;320051576900000000]; pos0 [122844634859076313;160364521006526256;522269577725050161;475378307900000000]];
  [pos0 [53747400008908860;91353667718768701;599401652496175210;31637374300000000]; pos0 [65287963929817649;225781302305611446;80746320412590600;470202931050000000]; pos0 [477520972641847948;666557331047395519;779395035480655321;373621724200000000]];
  [pos0 [311598975817084177;416079432515724501;702727487734136716;948892992000000000]; pos0 [21226679101686065;288484896131020380;811212911789481197;43923360880000000]; pos0 [420149947624478609;886337128454770648;479172979607584302;380988201400000000]];
  [pos0 [20603539659473465;270942988094612372;12460755322469718;697074105390000000]; pos0 [579952178143921913;955435860653717319;655967069379114943;157000569600000000]; pos0 [380465989013259817;93767639148483126;211285686975813632;828969693500000000]];
  [pos0 [125157741770105435;969348341743835169;821662305714779497;851834855900000000]; pos0 [846653624068186713;359629204627637658;602149610541522199;270794207200000000]; pos0 [16518036685976465;197344627301723258;61205372669831893;70149193850000000]];
  [pos0 [405137614472331315;617368564713144529;657822189140389070;499511569100000000]; pos0 [21784744470880195;109357012282707706;672602667174640440;897105060370000000]; pos0 [40923587478437759;652094990182036721;444659915258998008;278881574510000000]];
  [pos0 [128858602337552513;26222665174601404;238280697157557918;982157043500000000]; pos0 [290499541659534397;543726031470619405;11953016098814538;630569357700000000]; pos0 [372336080252606472;629412219841569625;975677378935676704;561271089300000000]];
  [pos0 [10173800181865209;599378620487418349;808172292610281862;706657861730000000]; pos0 [398318557006058478;995757485195800618;348936510308992207;313650026900000000]; pos0 [57057913226182091;277161328604811300;684071544756583694;726596359660000000]];
  [pos0 [353185746651076822;975193019642162241;793673297671980350;758197936200000000]; pos0 [408818625681864658;995144310895134177;339800830442763834;161786905600000000]; pos0 [8964010430432684;158662725768964678;323855447307308535;644588064799000000]];
  [pos0 [76878796619689880;963234565876327919;227138081211813778;365095964750000000]; pos0 [124303268731052998;824724857203751359;872560843797656721;467349909400000000]; pos0 [739213317076337477;43778094390578277;352124063065551055;847280840200000000]];
  [pos0 [150494039083219120;118559808034246184;477950851707966390;881244413400000000]; pos0 [3508986593756359;480291084474056465;739132818638057723;997972038265000000]; pos0 [544731018029013050;951094574347974422;457900227302676378;917411037900000000]];
  [pos0 [561043259224458036;343651621294912643;652823602976705636;109896089700000000]; pos0 [124610375215585765;812057093017042082;290928948571019561;41497285700000000]; pos0 [19475895329708859;998760122154447432;509576395534170841;849135311850000000]];
  [pos0 [75831402485147591;320696112579420490;263616387353021485;559009529540000000]; pos0 [352549165147106224;745393666183335140;62613538988230218;933096643000000000]; pos0 [21644305547948710;256792852829334161;186479223664170961;794852683160000000]];
  [pos0 [412957949499203606;528475729779176347;626526827146566026;149619475100000000]; pos0 [223825830289500687;953863014156281143;953754368796890638;671437363400000000]; pos0 [288014289124781782;550225221480897906;127719364499166140;109185456700000000]];
  [pos0 [303187650349361232;672752821322316424;170857632893931034;718908509800000000]; pos0 [354065211619543023;354901273278165114;325711256462237209;451412312600000000]; pos0 [65665528401781380;707888477441408193;119589932452904000;589501062290000000]];
  [pos0 [529681072880470557;824417100090157209;874907574781822962;85956452900000000]; pos0 [5159256449414001;885119462095036550;28242830886996228;103533299552000000]; pos0 [111660836760490242;285545063412480456;748166820778906574;811923402200000000]];
  [pos0 [73429568988757880;594305491129656387;475494978303199064;596704880840000000]; pos0 [554367038253576079;342497594930803714;968227257180658992;583304609200000000]; pos0 [18028319762642155;204885186211445384;769642825325915424;851536845700000000]];
  [pos0 [15778072091805177;470566966563860178;511679496410261976;861027997880000000]; pos0 [21924284936793655;581473992090748686;780973872648122201;877335449770000000]; pos0 [572867176523439371;901571556796967844;878120025332749173;570420778400000000]];
  [pos0 [238212281260312660;967030451096910295;351741728699651540;619619625200000000]; pos0 [2246995971137464;551217836242401913;163308834822019225;187811087860000000]; pos0 [619777730399855664;957725363957007236;383932648030666911;483994700800000000]];
  [pos0 [644690257654270061;244217709724774617;13549400508728965;141000768300000000]; pos0 [111501443834727939;641196868284284271;552411977957491587;293252234900000000]; pos0 [78502362759355596;498727585395937369;6177731682577029;108313300680000000]];
  [pos0 [84139846372514378;193484664717304072;160537745766988833;45629678970000000]; pos0 [24274918188365373;720082739959167631;656167923469367462;771310403670000000]; pos0 [870096027106833450;501729496065367181;490809933536745240;464052420800000000]];
  [pos0 [246650748500568404;638599056400722155;55374714845279954;47734059000000000]; pos0 [179629327921959184;444974000965156173;722741619943215258;733990964500000000]; pos0 [390455229332472773;687528105627857655;805676730502594590;460122275100000000]];
  [pos0 [26108418844666168;674109720206856334;45219543416647372;678379765080000000]; pos0 [265249289554890285;568473368284637620;829887486755250299;245078184500000000]; pos0 [325299777730993859;122127566766286646;795114160700004132;565794758000000000]];
  [pos0 [553121966192721993;893345373977736932;174370545825854899;565022617900000000]; pos0 [53861391780940881;972421047821554158;870546556299432187;915751745810000000]; pos0 [366512492476978938;775081118391331090;924178496649117774;479688216500000000]];
  [pos0 [759987015684687233;596824290411488131;475350563306014979;402121480600000000]; pos0 [155538820983772413;719050191725618581;755125744618952536;238364767300000000]; pos0 [68536317858699007;101194696038591593;514709494494957347;13837877450000000]];
  [pos0 [251964543560521780;701117482684131861;118053703541122463;602833145400000000]; pos0 [517634733074423730;580239691363492235;231375018832405039;909473483200000000]; pos0 [71135381842230794;43622155426744678;40986443202772015;725535025660000000]];
  [pos0 [15754003945868958;565095777117572698;584713907409772073;800516100590000000]; pos0 [881756650839283845;608894219027648570;63436079957232050;408713823800000000]; pos0 [77388462712814950;439920563265334525;464887572957730689;368047534260000000]];
  [pos0 [67685485056355657;483825805489505051;631818734930400856;512541005770000000]; pos0 [356663868893427525;94643997051485709;513772491647551477;313212083100000000]; pos0 [110449771160133033;966484968272628444;522662549933888218;596748147700000000]];
  [pos0 [10108743890724711;291796481607101327;233104402770754490;444041029710000000]; pos0 [135901476078620765;648096935840365023;869694098987198383;949247016400000000]; pos0 [369171851474473248;618992476350538321;238474821619219522;116367410300000000]];
  [pos0 [324347601986420148;906581218482665381;983078832357214545;773915163100000000]; pos0 [22032877117224281;156035587340648970;316411145032040473;478612347110000000]; pos0 [129974163892730069;914048979237151570;285823245255199563;7709239900000000]];
  [pos0 [66232278043676820;537122493281272752;216785836765148614;806482597730000000]; pos0 [422711206347416409;375057574128756200;394086524554853942;191351614400000000]; pos0 [226137223286499584;654296994638929271;568907026216108222;567633945200000000]];
  [pos0 [87435710684878305;238041248929244767;994666562755653907;91413683870000000]; pos0 [164015652945823060;550093034517077838;330049032861038985;164517362000000000]; pos0 [410354457920712714;472351709509550036;101101999685583693;718995637800000000]];
  [pos0 [735276188063161263;86303148560154306;84630345549406380;978273678400000000]; pos0 [94995607274662441;272651627955110612;402653739059202753;996022020610000000]; pos0 [8620077036408373;181605631663416021;206160572041150722;195940944452000000]];
  [pos0 [47963581799933106;661774629499494096;605537982725679356;336670183240000000]; pos0 [743868404219770136;994038015038631005;875155711857469471;32690377800000000]; pos0 [5985414304433554;428376582947900341;731412607204023739;52224261769000000]];
  [pos0 [208583083478161376;612771432265521249;888145512481354122;723073782700000000]; pos0 [69252295256665890;520401608017224814;500632022978607587;938161457370000000]; pos0 [544996853049221263;339627859869216984;890113344272681356;457035234700000000]];
  [pos0 [234477950351219499;930282572151037295;637475581626930450;359165960600000000]; pos0 [487253863610970287;496057228195414202;374541836915804452;994977332300000000]; pos0 [253111117151804204;565440547136116441;212984905591716093;638017629200000000]];
  [pos0 [63000330763044911;586463191068344049;809642336651644776;72307963690000000]; pos0 [4292946744625914;829980564803113359;306467412208519498;819817471588000000]; pos0 [418456278270966864;694126561705706816;844460861890422596;638967401100000000]];
  [pos0 [293481253955534726;459656777773889354;920745736692708584;66517841600000000]; pos0 [18327484867673968;426464615618679700;536105393385219438;215291474360000000]; pos0 [14717595195538256;617865424857492959;749578574598048530;796164689220000000]];
  [pos0 [759932921465148276;434602702078178210;775639182596835061;703469757100000000]; pos0 [19840688305467421;155476723710784988;444637571563961188;185540661410000000]; pos0 [203968984197593514;594306139087511001;626664135838694503;966395755100000000]];
  [pos0 [422915251303533488;274564503980245998;108401934026603200;361721666800000000]; pos0 [357296807180525191;142613965891618598;450618200594378600;661135130300000000]; pos0 [153437318845001398;327816173511733754;520239536483819612;846733326000000000]];
  [pos0 [195299661372212673;255930628407878882;338852038529850945;280531382800000000]; pos0 [379695616694732499;544264219459118626;537490269390834259;205126940900000000]; pos0 [15640238610211588;692351366873109010;103011013219421843;964905676320000000]];
  [pos0 [255402329704864613;778289513548519334;838854836910168789;296053451400000000]; pos0 [699702934299851002;473665068101493101;396882799828412040;412120377700000000]; pos0 [22863784141899655;25579694453452643;141946221222185675;984517082320000000]];
  [pos0 [573415235514832188;782660166812927563;903486804029314153;748127460700000000]; pos0 [122171591782254446;73896279748673641;377552762077717396;868080088500000000]; pos0 [238107443179629676;576244506597480858;34600282168231957;291538092000000000]];
  [pos0 [20640103386933192;616379388208367722;782543891578986047;793999931750000000]; pos0 [253903777269873189;367040576534417427;366737791976429110;532940125300000000]; pos0 [492680469426622424;318782359451772637;893505271192923707;643553574900000000]];
  [pos0 [55060854795619004;415159800366413253;805735365331688792;567595944550000000]; pos0 [276050304638449363;22846192405381834;903623698201048662;424596820400000000]; pos0 [572063657553221462;637465168665564436;353707729952050152;187533090200000000]];
  [pos0 [285763847489012261;566250853716573215;399565210607451009;766243836600000000]; pos0 [102360973168344462;66864614141266776;518294298990843711;804329524100000000]; pos0 [5651552470431050;777020426724638035;824411368676811490;730351671690000000]];
  [pos0 [246832278867912989;234587474819980580;934507593429024622;397098255700000000]; pos0 [218873740173088113;907157332572281672;51263869652024501;524792019300000000]; pos0 [233999008455560437;538336144690441857;201011599556976953;432829328900000000]];
  [pos0 [885253505342546;724885004411596322;443501357012356014;755212026904700000]; pos0 [22130966107518630;484598188778948199;23047161844403636;943688634360000000]; pos0 [113905485470246085;321965778845064716;976135829408351403;292961749800000000]];
  [pos0 [21690348980054472;411930071114141534;458567123360054657;116556708760000000]; pos0 [772020885882352818;992786783188254632;216606351678621563;282922312600000000]; pos0 [204291469347705801;716270124381615250;817685623367872910;975094838500000000]];
  [pos0 [358996381555775547;8584729981715156;276003731791243972;974057971200000000]; pos0 [314396085970053249;939346499403337978;384165670754087100;109949668000000000]; pos0 [142016984860568804;795291402121335148;532824781958932869;15547584100000000]];
  [pos0 [586890233618235439;635898409547648723;569789879661469603;486601236600000000]; pos0 [342382239756358595;496886636046419143;592468134009275970;43172010200000000]; pos0 [52475114133157593;824483703573331488;679355384117810594;177475099260000000]];
  [pos0 [547221803272556890;45144467902991769;602671678625777779;52960527600000000]; pos0 [61035331379698670;858895344751931061;973033304445778477;41516757880000000]; pos0 [189080624095596790;895275149478715819;981633130221818121;622013153800000000]];
  [pos0 [456541394893550576;128060470419421057;311965503966149938;256652930400000000]; pos0 [206304186369092458;653883151639235969;464379627764664243;805117561000000000]; pos0 [78904779615367625;713506049383347350;166726612643450981;694926978290000000]];
  [pos0 [374323771156472519;720592200114955441;55627613571761497;78948409000000000]; pos0 [307933198742751918;899431994053950738;873252576978997306;119905050000000000]; pos0 [275082473278857170;432049796908110689;672024914748864515;728245710400000000]];
  [pos0 [15103521365042667;429498427115655712;343020362012871623;11101312890000000]; pos0 [514132384029603961;429667580637953093;461619251462208385;978022265200000000]; pos0 [8799327336764804;567639231331735974;230516185164554068;131900487183000000]];
  [pos0 [20141540227744438;528701892890363749;415967282630992641;964589018420000000]; pos0 [18141252933957933;539236745036719773;808598903802151000;545312815810000000]; pos0 [20590540235774824;139948178883466161;942524089023745118;689030046080000000]];
  [pos0 [162698391080225747;230458027292343818;810999281772907674;392359832300000000]; pos0 [70292032711148655;377675277803297662;455353623111097121;655093949020000000]; pos0 [25199898310061282;34608965867049826;963917607657812337;140589647080000000]];
  [pos0 [322817173158115513;322221542768956278;866761394322402712;978162868400000000]; pos0 [38851389461609349;544584922625510012;414617753732342271;464029168530000000]; pos0 [563785972029914387;143477965453858358;949305124809632651;972784653100000000]];
  [pos0 [18751609709641257;904443184078427355;808601743577950760;199373203380000000]; pos0 [221191406855256492;861910879843682479;953601199056835942;790744414100000000]; pos0 [62955323548051627;810915189925204967;744331902637318378;657521446520000000]];
  [pos0 [844023219290845487;452043973495806320;617762505343701499;143935258600000000]; pos0 [4159597347132450;619464532294565804;976491485758414830;17529251255000000]; pos0 [9394838884035023;208467171019166071;896778555837760476;321799085934000000]];
  [pos0 [31270929131025685;914525434284658737;21541276358906564;92800109230000000]; pos0 [16394331482883073;166564103460652163;294554541046021790;43868657430000000]; pos0 [234491366031287946;493400771975141701;169571023909754293;288702841600000000]];
  [pos0 [80474100196585170;467904591408809304;122474193419417520;844589966200000000]; pos0 [78689256675741184;390258308983444833;16727780474907908;680772012920000000]; pos0 [119289430141352131;589553534991777960;694262903201284011;104501643600000000]];
  [pos0 [285424702413416543;983512114747543449;224539293538512169;228942397700000000]; pos0 [492673568030144124;846294162936876013;389553890770990933;89708987600000000]; pos0 [139647957211251391;913258441639568019;541269523183880895;922385107900000000]];
  [pos0 [124604060845257171;619307889302354041;32962598300215416;231611610500000000]; pos0 [456129197238473056;915856135159731055;968116065334178094;894677152700000000]; pos0 [418173340604019736;795275185184053447;214074845533848119;398078593400000000]];
  [pos0 [465953865825763604;803634437700308093;145938485985410890;951017160600000000]; pos0 [2842321594193621;843652397666063962;832829910491262103;174252015642000000]; pos0 [432640609447142152;650018673648993430;173644641661547852;857873399700000000]];
  [pos0 [558140647397136524;807994497166118583;585613828567156968;576598058600000000]; pos0 [376719575848186238;205661509477767132;299917257361433076;2529988200000000]; pos0 [6878085449593958;778799458717253624;435255930671081696;923327882192000000]];
  [pos0 [678911170201353444;550498202623950448;40782440685216448;410756507200000000]; pos0 [103161373219287996;597732348148282926;491757248174405428;41815010000000000]; pos0 [217163031172809771;814706692565745682;237468390894937677;644480944700000000]];
  [pos0 [191405192541794540;985678901247582820;87818579737779347;554167145000000000]; pos0 [324425265505670071;194206306399995690;394989594672292700;433071083500000000]; pos0 [411899607485708101;637862861316260004;309102644357225876;431982149700000000]];
  [pos0 [359792563019276274;402708169363533501;648897053128620641;787778723600000000]; pos0 [145480693466992017;253017772578233406;812646754624888049;411968867900000000]; pos0 [143138894948078577;35502548438676070;101634699409564599;217816212200000000]];
  [pos0 [219058714509167006;494535808086692220;64858170727265636;713799569600000000]; pos0 [246563145705491680;410465060174617702;658129566475536493;470454201500000000]; pos0 [97958297768720932;790222567094526984;610860905093237879;970075683010000000]];
  [pos0 [4897292183583327;776615324840781002;913862099330090881;46255143901000000]; pos0 [386793732880734050;75858099693317402;877335151483921444;148764155100000000]; pos0 [519397294237843387;987280186578282956;239120632927021143;816700670900000000]];
  [pos0 [290863758742278701;470777592718927013;6273348073200728;27855986000000000]; pos0 [303373721034364224;882924036220343779;218132856534522912;618834304900000000]; pos0 [275635209763938973;945389690446913891;830262342972275046;120107604300000000]];
  [pos0 [95473990599507085;503967926549502594;983341295442297482;382410810640000000]; pos0 [804500756850580605;230670290770046587;674677580866789954;908803356200000000]; pos0 [91822314660353145;588482385194978081;322838266204264152;705886537910000000]];
  [pos0 [233666891176091875;353980061522696380;512747074414537814;317738581800000000]; pos0 [54322656157342551;169504722673118904;393165087890791250;27261116670000000]; pos0 [709972916902942001;458902222501306685;796686403041390621;850251310500000000]];
  [pos0 [454564571901230686;925847104684739530;622922018751968398;672753259500000000]; pos0 [532603123826576689;793400037607415541;664534778395676853;822512966600000000]; pos0 [5804572119455750;662159744569926630;149455819200635612;76029431522000000]];
  [pos0 [62686400817055579;450994981996483180;937933526923148680;926774630970000000]; pos0 [755101600310954388;295450557233190322;212165778209223424;463206602700000000]; pos0 [114336700106220852;765907239935839289;887356065161058592;301365791500000000]];
  [pos0 [747034614220305572;451051541124260781;770247766526547601;944934617200000000]; pos0 [74932930816229763;40644413162032248;798865978612162814;197725302910000000]; pos0 [122696462258880696;577969500350625788;645383499069694199;869141019900000000]];
  [pos0 [889859240642881329;521351969811103497;915025770390890945;408938729800000000]; pos0 [35780801888395072;631828572612133651;570758154420578057;489025285100000000]; pos0 [69376375803947257;273781635041722468;497889889714246349;658490734020000000]];
  [pos0 [141620253046646332;249055577435428564;514347721442915353;723709510300000000]; pos0 [20936908444004112;576597044322981439;164573651817681496;272635430580000000]; pos0 [217419916496885497;615890833816953410;893982786307355809;273602764800000000]];
  [pos0 [137571701036189037;514507169621581636;328305289727922114;925971617800000000]; pos0 [436018927748314802;479247863662239617;257035168172728011;744177487800000000]; pos0 [82784053242792525;275357456925415311;966982477422612163;209366825480000000]];
  [pos0 [66220640897508600;371697620913355985;644463499177741080;772240963030000000]; pos0 [60608628642001540;542427104648863771;447010699135256474;450404822470000000]; pos0 [18525399310554865;789463652838425881;600570919308271698;986036358900000000]];
  [pos0 [53055003121462686;753886545030012292;26198060203507149;466841289310000000]; pos0 [403607262270516584;434600377884939774;157292927260003620;787328113500000000]; pos0 [375207341199701589;349295785927153712;327736087581446707;97336202200000000]];
  [pos0 [111046820295478547;918753055143015620;825293036527633067;213701747400000000]; pos0 [269043553680795240;986093997694995171;60659587854653311;595155377900000000]; pos0 [601555225923311018;506759719149842186;836376838025496565;440721679000000000]];
  [pos0 [207823119352511671;830243841541123071;729648098498906095;329814239000000000]; pos0 [91318884595719714;879079809828107957;500635051910237426;619305008320000000]; pos0 [90745482670217592;413632941780421191;29490420467972399;426242744990000000]];
  [pos0 [77594685309494647;953571439953901351;585468008478960913;495530022910000000]; pos0 [169810925413896338;597359276660516894;373617116397673851;833408113900000000]; pos0 [16825043122121005;216329390149696116;174214023221259171;666201394900000000]];
  [pos0 [181994011137695016;396463679990233534;67376314951814840;374291886300000000]; pos0 [562580680170849359;934034447061624039;552855914766150509;487350966800000000]; pos0 [17259757310223114;450398528206951464;688794467961982510;833054917890000000]];
  [pos0 [80999349941632467;879456862466213809;970944612034492367;681336937660000000]; pos0 [835435477458253296;735383944127566869;354822965612784465;543956215600000000]; pos0 [22137397869554608;601938925451616613;634258593851821205;29541006910000000]];
  [pos0 [709883130589382861;236908283827016044;684077434768229;685882491100000000]; pos0 [195346446782640410;462896719036810102;592318895289232242;142063008600000000]; pos0 [22305076136851392;124543875027548848;948783489518072446;586272258160000000]];
  [pos0 [394498631106860175;646290467436279488;416680691809036909;554192202700000000]; pos0 [90268130266362378;261099085648657400;37244248698920284;339846419670000000]; pos0 [500774660931595628;475340332800763923;784391988480088298;153227936400000000]];
  [pos0 [99755363225943606;777564584432432984;849389199411262589;919366858780000000]; pos0 [40921787329357675;134487126448465744;44359093501452878;225832805720000000]; pos0 [582555923439060599;673174510432172784;585065840925047690;281765466400000000]];
  [pos0 [14865194191080160;517328397647757708;483987788095457089;734398007680000000]; pos0 [287151516262768471;675452759767955569;498156969161430372;329006190500000000]; pos0 [3465228059210388;237840215163355067;499991437500061439;359846663478000000]];
  [pos0 [350512556895987245;812460927173539458;872922284042423129;770237910900000000]; pos0 [543375221395888116;93221368156182684;454346392823327331;207407430700000000]; pos0 [17289676133290779;491752858355309949;343941743861227431;989240741950000000]];
  [pos0 [197288434829648386;805719977578912658;83970390711500028;71477336000000000]; pos0 [383333235271971601;236279031461781213;133005503586397240;754215193300000000]; pos0 [181231780319783233;142805566271455894;417936746291481989;412775210300000000]];
  [pos0 [599605018630623973;532135195833765746;62081265878112442;579806688100000000]; pos0 [5683775942445210;52090547312842000;703178788647283240;628263350424000000]; pos0 [377702793256777612;491175653142061717;928346891789209124;534342726200000000]];
  [pos0 [457082541035962883;539214413587019906;675700835533463418;326675943100000000]; pos0 [190700729191277513;782801548563680335;252047530157742371;520067064200000000]; pos0 [339682655089446654;78940502954086684;344503528499764933;840919218800000000]];
  [pos0 [18637598052704154;955245397185839200;228511496337845794;872418660710000000]; pos0 [547492214780119144;231071102267976584;640567171227972627;750852264200000000]; pos0 [331694619487288484;785842786061824050;350746813953158502;657747326300000000]];
  [pos0 [23321278861744837;803811193246888974;407427166107069883;891385428110000000]; pos0 [387329315788839412;463937265437486662;561713593822243107;675826460800000000]; pos0 [573440611658930934;633447717988414342;983443039285908716;268782955600000000]];
  [pos0 [18051201972806601;168826685139568458;885911818995852261;564380986770000000]; pos0 [97092214088485831;845211608830880327;715893894505969149;947229480870000000]; pos0 [60577899379365770;618417293512737115;520359379456010886;926608416100000000]];
  [pos0 [195133313765535399;671375435873082992;846610769857487392;221016767600000000]; pos0 [14010163626489661;942550369841023204;966292796805477571;321281027210000000]; pos0 [81719907946185007;680989536198068902;629264797043837018;947716430670000000]];
  [pos0 [495690814127718664;825325317612897491;966873695754952622;446897271500000000]; pos0 [5599633190162136;240837682340546878;642554699463928381;536431984654000000]; pos0 [258085169936634652;956171197899238090;642673017086425783;902847908200000000]];
  [pos0 [711268321183910232;116318609430632579;942260032295913345;85104316000000000]; pos0 [17218685302609476;464058883133739098;789181232650690868;656507800290000000]; pos0 [99340717535678859;579127598372399034;716939646347339438;531806741890000000]];
  [pos0 [345834606556024771;35609446414238374;301175741079179506;717802915800000000]; pos0 [144120102743445616;404927941935882754;300982870962798346;697746765100000000]; pos0 [428450072453247805;750159613258989845;886472040585360348;223989285200000000]];
  [pos0 [367312024576006209;578557519895401509;676722906577794484;722571536900000000]; pos0 [46272297835610527;908777188867098981;609935664028240333;775025076090000000]; pos0 [229792499682884791;754807811837736758;480492805985991123;767375120700000000]];
  [pos0 [19037555886061383;100904539976710876;926581181233523006;353388173330000000]; pos0 [213143020358936390;677589042449339338;35175492229336110;891501611300000000]; pos0 [744878083866874226;91650657068969854;848134752386189503;561652442600000000]];
  [pos0 [473571368403610987;678180317551892843;489048486780279633;240935792000000000]; pos0 [73723771175295133;676927978904496584;407270003588977000;438330538970000000]; pos0 [8751987884998887;418399237385299718;398511104338186946;229086084072000000]];
  [pos0 [583469363811976234;991938742210384244;540652750939963029;804075425300000000]; pos0 [237507585977164468;843690346156221638;226976610536751193;866013906400000000]; pos0 [158748499251629912;696174155492077680;341136122511525425;574227174700000000]];
  [pos0 [800427887501923;971202664212876073;778376677873478302;687858684055500000]; pos0 [28042520531432970;591629946002090120;357767735768202066;904506636340000000]; pos0 [385125875780708661;351639809445277029;11830583394907143;348525666600000000]];
  [pos0 [93124745703731082;309388853371534681;942210526934206442;296137334110000000]; pos0 [152935845325234371;117852767652407624;937986353310995420;551047534000000000]; pos0 [560213210063104554;31502508296997727;390168003095859124;453967587300000000]];
  [pos0 [539772934381676323;955672518192889914;205661376223154736;368739372400000000]; pos0 [8922659105523583;784895856943902784;788247857819139712;992608327269000000]; pos0 [14300942777172934;328850574271766602;800073053901530350;130838526260000000]];
  [pos0 [394380180067537851;259697154855457685;817280140281118909;713809669300000000]; pos0 [510768575787362960;845888695847595711;619351111782873985;401099284900000000]; pos0 [71211773019575083;309863443300459570;885094424980340767;329242351440000000]];
  [pos0 [87721620547750441;215991569337991515;668997006654337072;152212332950000000]; pos0 [140597423442154610;903907928133183484;833294308509605584;955572249400000000]; pos0 [235648333509905311;56910257775119526;875511202357077735;850933628900000000]];
  [pos0 [185889561872555772;67709800431490883;579477857376459950;974716389200000000]; pos0 [76003162266825975;688035630666961924;621211464956349444;200803413480000000]; pos0 [684067068628356128;263126492414299463;478119198894375748;154783103200000000]];
  [pos0 [211161510703525306;883273072726078115;411624579890373160;486205344200000000]; pos0 [7315388256264748;994855385831383289;826226766185026770;203652408980000000]; pos0 [751999603969679902;422094172234272760;435642082467819009;939468270100000000]];
  [pos0 [17718175116580203;768865231496808544;188217051753011767;576623931290000000]; pos0 [83977677356180855;384119250751731070;522289767354026568;36180982610000000]; pos0 [893173422121467157;239744537890586609;998774800308601079;937129573100000000]];
  [pos0 [836082176637025800;329574684605833686;742467097837129670;403611076400000000]; pos0 [44757315882556087;785656268155968099;59463456969206147;3908553760000000]; pos0 [32388000876758590;66865812261282816;609851813231932528;193343001760000000]];
  [pos0 [78896398926518389;379533722598982336;331843002021714344;719514086970000000]; pos0 [588250872018594380;695114419865448581;891403638468151464;491966028900000000]; pos0 [217385710569599383;115716350379879837;237387285510817137;558171753800000000]];
  [pos0 [72377540621277168;591949596757230111;260544287449193564;216195058100000000]; pos0 [702681724752873850;988828246076739001;540182086256245813;517911616400000000]; pos0 [49061263056870260;186037108483925558;664609893485950931;893020475630000000]];
  [pos0 [270782130750551347;589582461901268321;365039738669349609;626994267700000000]; pos0 [309894683671833004;421338547041416328;176157561981941558;965046083700000000]; pos0 [405034887236851071;672246895158964017;373931486137602149;48769059100000000]];
  [pos0 [342052541002817739;568510970967513202;18816300280263372;893827887300000000]; pos0 [103748393509305031;33994046695046273;591076865166205763;15612100300000000]; pos0 [316782689560470234;151224395723227814;504614779659199447;123563614500000000]];
  [pos0 [2397173284589438;402189406689981610;367789696392896505;268747412070000000]; pos0 [702152185019297785;249290358701885885;727507206003240340;879792857000000000]; pos0 [23278620302257984;591131071050752712;279575076049444139;953987835120000000]];
  [pos0 [952904717467260692;368011185358364086;535451079331963057;44446665800000000]; pos0 [11688400087069583;901322093480022525;619139217760218369;604946139460000000]; pos0 [11815171156275947;165344080971201945;351713559283661541;657176248190000000]];
  [pos0 [59416227651623126;714963460251056003;347852863914624073;631989599630000000]; pos0 [65068466627599185;534055113131333709;854315772768661317;453774912510000000]; pos0 [326863729261388471;683178874791326182;323515510537874860;425239583800000000]];
  [pos0 [11512058766935612;718649573916941942;774198677540050142;925226877650000000]; pos0 [8017383319033641;877655276446442533;275097561230499880;509348246604000000]; pos0 [968110284493758938;684903247732634548;509777232838668209;61494556000000000]];
  [pos0 [187565141097956925;774618217220311411;383532419904189773;36197402200000000]; pos0 [104831710410025219;505380873043782174;30236403502326942;515518718100000000]; pos0 [375151201776790484;743359617778081716;59118008337682666;619397137200000000]];
  [pos0 [13187664831695677;620248606708103345;212208879315745287;110583154730000000]; pos0 [881898443649221261;98530644956918093;5713488606232878;572416961600000000]; pos0 [15075113298214367;934850365757034259;362381104144803823;759534800950000000]];
  [pos0 [7034207706134406;585501714091380373;442500596542305017;899500470754000000]; pos0 [177993136211238402;329432456485516243;373833771359591218;344608148700000000]; pos0 [696267921219551636;782487167759639250;696072575102261584;297398566500000000]];
  [pos0 [16711167413308928;983201664634870861;526511565597255064;12221533280000000]; pos0 [64021535503517445;62688140580789190;324383016525174997;48854541440000000]; pos0 [858841308566897651;996804131728283354;520160397022296395;563849240200000000]];
  [pos0 [14861529777126508;836458498706299951;674630886902538427;195511891120000000]; pos0 [99078185477013974;284124160669228489;67845015958743581;768725018960000000]; pos0 [194301431848494637;891936030346953945;227527162294093002;378088944600000000]];
  [pos0 [189856259626439783;333444357647516492;236870786698522650;988477099100000000]; pos0 [213286409105382922;71986008548525385;701313968574726190;82380903200000000]; pos0 [19463979370780072;430453704340567381;730704665328738389;963277381230000000]];
  [pos0 [246691651881681530;11522635817089640;849276167319069640;734490910300000000]; pos0 [170352804523160672;26855914537423486;45343580754398945;759159642600000000]; pos0 [563367183513533464;618357149128584899;971251917330750589;978099819200000000]];
  [pos0 [86793285814002230;492287199148897334;747184443395541280;199842972650000000]; pos0 [445266585215274420;627086251893950690;378388225844457870;32314448600000000]; pos0 [413993981383374780;932828594656447812;316283990758894089;725324048000000000]];
  [pos0 [506936395646600456;67103318560999093;651246660080980488;559954878600000000]; pos0 [62241338602146260;848516144796571366;411014502507731000;140890168780000000]; pos0 [87254431371757231;168303371052215452;733514641380100705;425326663850000000]];
  [pos0 [462336542690143274;415227567562142223;203396926939507676;83850364900000000]; pos0 [367192680996588025;749043797487152707;318680330132443463;38026203000000000]; pos0 [52303738148439059;145102006518739330;706772078081659971;625468283350000000]];
  [pos0 [738544469764806231;760714330780062772;500489825638881196;148976500200000000]; pos0 [253289052396428215;182841264787758338;505116236261448117;20687787600000000]; pos0 [4634179715061313;761470610467242852;697098320513461574;684278972975000000]];
  [pos0 [873876479685334459;27411584086897016;443721740585150407;22215943500000000]; pos0 [91999302460674761;355354559577073294;263021807137356789;561529324460000000]; pos0 [11145331755508603;398440883644242555;574542382286238584;10715160660000000]];
  [pos0 [126092913604994654;311334172485821026;46318812832689025;366582194600000000]; pos0 [8998584651132683;537951901559848713;717288951573893969;642563425772000000]; pos0 [13003272257521658;802830674164260834;466599722465487234;942149021250000000]];
  [pos0 [412651320773596059;362037439592046774;375365880484645435;435946402500000000]; pos0 [392540453559625873;276933259097787676;964038462598831450;261330553500000000]; pos0 [190348783119166066;517964191551855494;558337400790211195;922302772100000000]];
  [pos0 [167973490406372905;812874387513585120;130619484095816219;624371300000000]; pos0 [186479536199855199;624404743011499747;112841542773445354;915644753900000000]; pos0 [548494839257697419;29566764538364799;855448108101929597;423885819100000000]];
  [pos0 [9695819510049381;969805899332806354;851936726241690047;803561049925000000]; pos0 [36031249766939243;779303684635598325;835364155329168047;593048785270000000]; pos0 [756701787371975599;748442099335561978;71297639479127774;533719481600000000]];
  [pos0 [13278321891406965;250821997552339026;72020614438453093;673835026550000000]; pos0 [723710162598311979;695533162689175793;736435784515855615;544266154100000000]; pos0 [204893646193062771;529752141566184642;794746872289344213;396301389300000000]];
  [pos0 [281227630440215263;369061931028350474;455905380206672036;517954685900000000]; pos0 [3258627391638261;690980655061953085;832265955483284685;197079222801000000]; pos0 [274056318456295028;427588506293916990;632265052434606636;585622143700000000]];
  [pos0 [578566538149550537;296258101068343910;353829186087388288;581266372000000000]; pos0 [222325195776546855;494688167965242204;171048771333048028;365342911300000000]; pos0 [103845897516091878;444122289200478019;123556739333729053;4448175700000000]];
  [pos0 [447081035824436969;826421506248688660;226727767911245158;802939776500000000]; pos0 [171758728011099729;623618430821506259;909078010705253804;670929704800000000]; pos0 [208876311882832032;280129586057015596;14453218630196343;357562860400000000]];
  [pos0 [9343096111758219;905012186471296766;665713395295086030;46997917250000000]; pos0 [409537810478049086;653113062917869650;983284010730315932;399606439500000000]; pos0 [179655805958785109;709609373204830691;830003561019455714;134194211200000000]];
  [pos0 [24246458650585674;215895050532595457;992709647339357189;761876749620000000]; pos0 [6104494834106323;706986572233651211;727207799175965712;751997338570000000]; pos0 [877926434766946778;51810878504592320;352931827266530492;302584885500000000]];
  [pos0 [853836772873251536;923315835704511858;462943788023841623;789814025000000000]; pos0 [2927482729120339;514811431439186523;51281136595310990;781547049459000000]; pos0 [91537202289773904;424359479383108675;500667290811115439;782901093900000000]];
  [pos0 [17441557813024754;641576613523495998;625088377112994824;411042613110000000]; pos0 [598832365112769567;500840426333383701;487978257168344896;878671685100000000]; pos0 [180481558805615212;283844892425392920;371502128013049154;699701955100000000]];
  [pos0 [677923513145077943;180235417688277041;906567296599446355;115848488200000000]; pos0 [26057143134872246;878710242196231996;877451937054351321;967576897200000000]; pos0 [23952039779285491;928175626791574691;996077428071400104;528418729520000000]];
  [pos0 [40834753644200024;749263927936056212;758527569139809370;394010159410000000]; pos0 [4055697403597718;659329939150734778;963220614726724057;320088123214000000]; pos0 [702941278489570546;703510205115893370;301547074056127780;934296065200000000]];
  [pos0 [24059376473897980;600979466016440512;182362479485392498;631572414560000000]; pos0 [951019014021609609;330749455167598736;728980982892784390;663711719400000000]; pos0 [13430835706202655;836896387955213809;277338562221118162;298402833360000000]];
  [pos0 [63986352928981896;810031664368600061;108601044856301156;989286525630000000]; pos0 [14174317901176825;761277706500617868;776225189512403872;671641584480000000]; pos0 [92121595546688239;420855711389836701;894437286235356886;953513373690000000]];
  [pos0 [651308084532438901;408617275130305884;373266357227686254;267321582200000000]; pos0 [19345696572958474;723020281961134381;482727742513258298;406571787550000000]; pos0 [235980804719426655;755443206749515642;139039540848543451;296610180900000000]];
  [pos0 [13230514795800473;47598976702289328;590239633592995306;99877624900000000]; pos0 [115725852140556271;303364638827014548;954164851182061987;31090116500000000]; pos0 [566481869937088668;158911029940414594;701001965672034941;718482994600000000]];
  [pos0 [543062767715509945;227985247327832704;443074046081367126;226585663300000000]; pos0 [253480491290567542;706387700177024202;611097872885612528;168869369600000000]; pos0 [14764679129112653;869214915330085911;970457891231186413;287544020140000000]];
  [pos0 [172536755286966700;377235271458848640;341157360618757613;717774680700000000]; pos0 [30123386577180447;857442927082275656;969824928522838169;936474068340000000]; pos0 [377014251501519327;384205497078405592;818944947773692087;839127751800000000]];
  [pos0 [110644569576541536;833590516914732615;917743770063258601;50502368500000000]; pos0 [576609725695179967;975358736237008326;946153911814444538;101718939900000000]; pos0 [111448413286544424;723256764093715475;326256084103600336;783933724200000000]];
  [pos0 [102208077048968125;42525879749271044;589798264704505389;23571660600000000]; pos0 [123706543661679305;709409649232612574;16660608518118511;179416691600000000]; pos0 [770994646745565421;276562332791206614;547242779134756685;409613664000000000]];
  [pos0 [26428011656697611;123244214716679058;446488359775321738;837719495630000000]; pos0 [562607736505752341;263529769040096812;195877846972185167;385592402000000000]; pos0 [80855199569846344;482550722536425727;792417645547074947;71727994380000000]];
  [pos0 [98540313766179837;834741759034765314;631521969076372871;622903773020000000]; pos0 [637764512936479219;529862800243281645;557166396531225067;716698235300000000]; pos0 [240487819864039471;907134980047493433;458900122104052155;185142489300000000]];
  [pos0 [3341545005920790;337300887915377391;155717285269192296;6592983855000000]; pos0 [420418940331431672;889717341196157152;937351745211433700;337004806300000000]; pos0 [332791126277577458;947824017132963626;8143353855873188;115210367000000000]];
  [pos0 [172109609399754218;907304205860305409;673219323952748848;880098353100000000]; pos0 [667716050159369486;331382181945895392;584135334900893630;905555541400000000]; pos0 [94512474403408917;454425852355934358;258356083372352734;12314260810000000]];
  [pos0 [449163824488140677;532756068683765006;178266466613223233;37487568600000000]; pos0 [53847911368464168;223423622394466324;999351830448749325;709890514930000000]; pos0 [368572509649386635;898822817968472626;992037649843290920;242356435100000000]];
  [pos0 [20236136779611489;323647519917036394;663784570348212418;566364203860000000]; pos0 [235081513242593181;128579389755410857;161983466996079967;157596357500000000]; pos0 [180360438758097493;41089953442921565;65836874688154144;33281493600000000]];
  [pos0 [364707169926796981;187923615424964660;213392392182141287;900576967500000000]; pos0 [227520592457406963;922544728367982465;677552817361838984;661758653500000000]; pos0 [17663626897847739;81262847128190422;827849113150282794;768795770840000000]];
  [pos0 [166540227310991491;548261428860351729;74697475639435173;680411131100000000]; pos0 [470385937513168860;258076304361912488;352446893198280858;108257207800000000]; pos0 [247255282956521527;569335042322565010;173586489567866708;432135191400000000]];
  [pos0 [106206217104279015;970899595901570113;712194084995811764;576014674200000000]; pos0 [24292505582138020;351080578177014463;574031344639693178;27999506000000000]; pos0 [748717650048395849;452376837302975222;711698466449401990;81716594900000000]];
  [pos0 [211115062877054775;866319711837010232;21161027381787276;646349901600000000]; pos0 [97223349344219690;7072505374417055;64155572708658603;86063476050000000]; pos0 [209548943584395319;652852003341457509;584215447887622044;941019964800000000]];
  [pos0 [117557262913754749;291598306897334146;805308371731197400;364366396700000000]; pos0 [252975820948897646;132542007586396410;939278621582944319;903173731500000000]; pos0 [229687833512808836;242859281607642926;961281259602268169;362381997400000000]];
  [pos0 [398022374215117763;864544416835011399;386413383535070559;507986899600000000]; pos0 [15030228177305372;512375490554662116;215704990601722804;622310725440000000]; pos0 [570492687422303299;978080901424308526;625999824019836496;98041653900000000]];
  [pos0 [13872851491447733;532512314131741677;216593541144653995;517613249790000000]; pos0 [766013300007680410;987879863996433672;874274372662196975;691260877700000000]; pos0 [81243491226011982;59004262459468049;596188729532725114;904486192630000000]];
  [pos0 [175477788419810431;143991742947507455;990618749814692656;96128380700000000]; pos0 [700546902098079497;566098931684722290;44564729085067300;956626914500000000]; pos0 [14573028405663153;589016778973147350;304953610683491133;327285475090000000]];
  [pos0 [338877031919836753;476967598903701772;885555605073062886;32553526200000000]; pos0 [110152902179919176;346995675595788178;665988857713731317;169869144900000000]; pos0 [56508988981017643;575581226081126673;572938750999923846;664332279000000000]];
  [pos0 [103597561117223602;557302895400636015;77661855676236787;99751315000000000]; pos0 [198263693329815357;291276904469666207;257972157468989298;107451475500000000]; pos0 [94290494373141957;326834897882435333;737730713140080853;370270004840000000]];
  [pos0 [7198974655729548;912974042286095842;645758619230461919;720830477544000000]; pos0 [117156038961969943;848337649232955252;204510406394967396;572770508700000000]; pos0 [1631602560864736;844270294296933602;23273941126972864;38754245161000000]];
  [pos0 [44315605222194060;501713256724278105;585902368949927586;105224864390000000]; pos0 [89677930769331434;81156026905883337;151201896836449698;900047526230000000]; pos0 [695827461683520271;95612200837951694;529243552437306885;875654735600000000]]],
 [pos0 [3209047264666413;820722797938690150;976347568091778858;524347540466000000];
  pos0 [5690517460437244;472040143959190227;661890076272441273;960476903139000000];
  pos0 [8537575823578058;923808952739455286;191426477372936273;420677067719000000];
  pos0 [2933441234411125;289164279587092049;545602638348979267;43929182752000000];
  pos0 [978962537225521;111544667224345059;397657191888571340;487591587341100000];
  pos0 [3239300215226231;387620287922254178;496651293487805749;650821625692000000];
  pos0 [16871626299505212;104458778348571270;237881644431504002;527353472580000000];
  pos0 [2970290860719654;964659448716621763;14715727556701696;614128653956000000];
  pos0 [4824006370829444;454453163566829312;15837839556365583;726016767263000000];
  pos0 [6081498867675586;276778126091494599;740835343469605249;328651654618000000];
  pos0 [2397736776948589;203037723146276533;685473116932119094;251508853657000000];
  pos0 [5152923887856844;112975969095485038;20942842069949325;72553730547000000];
  pos0 [5766213503003625;293570321832071841;165474468524216578;860410972051000000];
  pos0 [6244888440029747;241426710825063457;959558927030796313;310283703995000000];
  pos0 [11575659444774498;501890192307209258;769113449738631136;621011687130000000];
  pos0 [3064822979221495;294319240283573997;801440581733832700;753421490994000000];
  pos0 [4618463395097198;591917136770405189;414881722760278920;308142599792000000];
  pos0 [2423571606923225;336190105699039105;238603044990520554;550184325699000000];
  pos0 [2400737084276291;171721860276381250;601906916041935040;720763557608000000];
  pos0 [9516101367396371;798426379026067155;797740498067822192;57847188988000000];
  pos0 [2110802222507716;266675321685003555;402072545075721559;332251777097000000];
  pos0 [12613123316192877;824452525630081616;412900553288747983;551251853640000000];
  pos0 [8887585184519669;930499153399103894;93307933866950785;909982134998000000];
  pos0 [5235904935636209;420582448116183209;879544388414662612;818481198019000000];
  pos0 [3352463358359774;243802348709702215;523490272869489952;57689005862000000];
  pos0 [10101610042078014;695184497293228234;2224817845705484;816015854580000000];
  pos0 [1506026399935976;685457085723013656;499795951635176954;751991963038000000];
  pos0 [9891747378982755;114068984726825402;566142332719744923;870827893908000000];
  pos0 [4376954011674853;273135868474525513;531061458331497025;561591741928000000];
  pos0 [6721396524555166;26606775075702565;186976060678890405;298776827007000000];
  pos0 [13476618659521069;360894944360650448;293356884240816722;355969417390000000];
  pos0 [12218477517620410;557749430547217081;71902895127584865;499683921510000000];
  pos0 [2492111595426449;498539380129875651;17775459296048923;3631922068000000];
  pos0 [1681981087161436;338481934152044912;746184609840249130;354999521357000000];
  pos0 [12116126169657101;827951287925216597;724894549991278786;148836332820000000];
  pos0 [8610774457966613;952005074935676354;622226429094291991;210901276930000000];
  pos0 [2536778746338829;473466902237910051;778794410589197004;936981760809000000];
  pos0 [1916481003239114;716177176625996776;152389791805627169;39730190183000000];
  pos0 [1943461687927923;354357689984554812;433214502213607912;144162689284000000];
  pos0 [8973267620948126;324978485917963479;571440884187061743;778418221099000000];
  pos0 [6413398903513022;832940068619732476;925435206841610676;217072310668000000];
  pos0 [3075516588208086;318289585084084669;138355983942939090;418804174881000000];
  pos0 [10424304784447858;297270862920161344;409958555141222273;295091124870000000];
  pos0 [7465618409086671;43408051798257963;916489022995716061;708059199473000000];
  pos0 [9072472575421035;255530048971251888;807082939758167594;556444687081000000];
  pos0 [2330871288559907;245509190180398023;913104240317532713;246410623204000000];
  pos0 [16696748695048595;19415791247793680;361744569498494524;97799623780000000];
  pos0 [724925407085416;979836756898684540;906009523659284606;303585309863300000];
  pos0 [910671159220200;507718957831640254;376042586904998557;207694957840500000];
  pos0 [12007972289732044;357307815727580440;718835394058121337;879613870030000000];
  pos0 [4435179207748586;589364004239688928;11735931401312893;97937725326000000];
  pos0 [10590434470295990;326683577714284149;486840797822835968;362908386320000000];
  pos0 [11714968820347790;294180030701832230;626198355202751715;673313587040000000];
  pos0 [5999929124804787;503964462693284794;771578881807010588;506910791403000000];
  pos0 [1299081889838198;467830995157492381;47220106339319188;429673773874000000];
  pos0 [777273907991241;852777194214573752;198490277774796191;663577381137900000];
  pos0 [3993970114980817;489240074165726414;827597846722127857;675726739328000000];
  pos0 [6645269073958711;695438876973994014;522476778366168409;147534658190000000];
  pos0 [4041581908421489;303049312748172107;394156511028851247;457997591494000000];
  pos0 [570829449074909;419988070294079915;321143682973100788;344454197898700000];
  pos0 [2947950045411388;182066101887981181;503270426514521391;241830553236000000];
  pos0 [7055081768203036;182958693973882373;175275934694722258;188762204179000000];
  pos0 [9610925858769904;963190282508563572;439830677274151563;529941016167000000];
  pos0 [2484378628306811;531888885382029473;768352743462069102;937144691020000000];
  pos0 [2453077512692304;600028825559165720;405709658257315357;180090754920000000];
  pos0 [2469762611527706;404421646877829634;561035145377070778;570798590791000000];
  pos0 [1979803603927775;734682865625275515;847338257602372739;974704425091000000];
  pos0 [11741633298329975;930362319584113406;464477851422628494;498050314790000000];
  pos0 [13409699047496854;567623744753311610;509329952559997751;375555306560000000];
  pos0 [15914612482283893;140275753517033319;966984492700712753;189891668350000000];
  pos0 [2759748200087773;845057395742710088;800226668794434635;880793993314000000];
  pos0 [13497561233424138;446481806333719071;691097008353812761;362783415280000000];
  pos0 [2027382489537049;589752021514971347;349623906765885810;466956195130000000];
  pos0 [1430171487477176;269651418775529923;352351007842587279;779100685237000000];
  pos0 [879048628020798;956878197642601515;746610124176351404;417526164886100000];
  pos0 [4587297128568966;167902318809544183;802614119056335706;136601627366000000];
  pos0 [6500869571373630;142749445622170307;83946865221894663;711262338790000000];
  pos0 [1020201295650193;705956255570846906;366300280832341508;87710260595000000];
  pos0 [6983762548951579;631599647400477132;77674763230891302;414414682435000000];
  pos0 [11139253826852653;824456082565545209;260621149452259668;864495196450000000];
  pos0 [1707937705226536;989458802600850068;146669776298474994;402477501566000000];
  pos0 [9336258089629736;430097099949336673;834226833366426843;950852939895000000];
  pos0 [5816842408930410;238941491823504635;19488766984570002;330459554097000000];
  pos0 [8267796368551581;232955752590315885;657222314139594391;454460695456000000];
  pos0 [3653888242387943;421663719629092506;457081407966308962;579150724008000000];
  pos0 [5758754418573557;594200873618123569;561466313617126706;349003110940000000];
  pos0 [2626348924980967;859969111610778968;841484716470146844;316683126488000000];
  pos0 [4967260591914791;326094276389672034;450056289812167506;766231018024000000];
  pos0 [3821417400776950;545895628474657080;492880080719959926;877603587982000000];
  pos0 [7051230206178890;299252173310309942;330953513714144910;937376019057000000];
  pos0 [920302493972835;202560985083165852;173609926757457371;530963901603800000];
  pos0 [5253879413566863;809371671729999832;273918132040700511;185365267752000000];
  pos0 [15581849620136036;839023186676293005;861074442746615903;82976276270000000];
  pos0 [1054285844397431;694382416568252171;828249094650287696;254651083582000000];
  pos0 [5371238477990230;285869728235594586;690925954635120078;624849904521000000];
  pos0 [4702600220365203;416342837616432432;463697310938357742;523516867569000000];
  pos0 [2748189642414156;38890523733402320;669276314058443341;377650994043000000];
  pos0 [2582579780886833;126739689398301720;565071642700922623;487734359699000000];
  pos0 [3494490928600753;777896234229655687;690021741163938692;125385686740000000];
  pos0 [3870086279907699;164392379895052526;68533351696425488;881280604703000000];
  pos0 [4641654196113939;580730858236850144;715466035662807174;507077306249000000];
  pos0 [12685754024972430;549563393188147461;713874954837623495;674216385190000000];
  pos0 [11239476603901095;259627340895171089;451183182285226732;190120984090000000];
  pos0 [2718905668101607;896545165174910325;931878308068755523;827332575329000000];
  pos0 [2731227599726235;765553548824515801;149647690581064089;134237497998000000];
  pos0 [6043859371357759;149347945576647442;424171849755752882;465838811966000000];
  pos0 [1336686199908583;146422939124291992;942537475530401934;187106339689000000];
  pos0 [10029133870543722;89666916732809649;878799705296840056;848037653090000000];
  pos0 [1159598259487304;825707743090881320;252406010935680033;350702890815000000];
  pos0 [5946005250746306;746024207737502046;522202375449100049;610800975975000000];
  pos0 [10127488320283196;663960103273766521;671876908730634364;826788479200000000];
  pos0 [6464393772438156;218121101649791929;162080654044480325;985799532933000000];
  pos0 [1630620277248115;871109326271403610;214390983874400758;961582003189000000];
  pos0 [641797404332946;492606221553573952;648586677548268860;572849661322300000];
  pos0 [3182224612790754;914730389271543194;246580590369228369;493206005986000000];
  pos0 [8403884632152262;523354209802290927;834801905190718718;368015691031000000];
  pos0 [5072072661940632;529830443003640342;616849272941218242;281535088391000000];
  pos0 [5992400507004329;109448906522471629;717493911369215080;384146358074000000];
  pos0 [11923038951972310;928091512637064146;615712212408504015;4716848480000000];
  pos0 [1125650358963078;84348301305295109;511804145713571100;962804283906000000];
  pos0 [423873453084850;8486307810549881;7996442554490943;859920405729100000];
  pos0 [7179525130145103;298412247236468617;181854491185172499;335069824493000000];
  pos0 [226380112665588;452426387293590545;433670133275258959;719047466437400000];
  pos0 [13117431898490772;836771303623529699;746664413163824212;721131492630000000];
  pos0 [1019303964844575;26836172835391045;822046219141176579;781958008575000000];
  pos0 [2975696248447522;592318745176054151;54085909319887027;652133287775000000];
  pos0 [2246873883676256;712118646950768157;544809368426484275;980610128209000000];
  pos0 [4211370362897247;729585119104328158;872662036852596049;691653141617000000];
  pos0 [6352589300459927;726906955647959048;759211385119383755;462337735482000000];
  pos0 [6222854254200033;858324503790094286;42174405712628417;571661463466000000];
  pos0 [9150770623039259;458813579975770600;511889028338317655;821005287496000000];
  pos0 [9418904950157660;552995631250457551;639593955172864858;82123942535000000];
  pos0 [9238549230940294;905838947239241572;950902453367447010;70647317294000000];
  pos0 [575776900988535;375397505685896436;636528378910026749;705934446165300000];
  pos0 [1246535399694325;427996874203956082;663674187752891081;991930098530000000];
  pos0 [870341550966402;697436877026701312;482526907745610093;189514240192000000];
  pos0 [3438752780477626;14752344915105304;428246367485304091;565080821485000000];
  pos0 [10490104776386662;799610326271741156;182655770505986060;311859345670000000];
  pos0 [1900136613875483;167619296046565119;992814271952439182;892030068422000000];
  pos0 [2979821632276385;651789484836290539;948380537768108552;705357314845000000];
  pos0 [3008849811209318;370988099179017989;769722709248298282;851347281037000000];
  pos0 [9997290025986607;297698547840951493;369469121567659611;306591958246000000];
  pos0 [15029066734670747;391817553075259680;709611545631541955;503926890880000000];
  pos0 [4292665913174160;827376024912854205;767157374028817557;994087678326000000];
  pos0 [921742213346989;893817473749957678;315162022858035734;87006608297900000];
  pos0 [1149395802234229;851598112825872883;426813952391137885;526016545423000000];
  pos0 [5833241615881981;240584222294478836;19886435251995068;500378036088000000];
  pos0 [3562713398096093;647702480841404984;875340889335878109;18530041910000000];
  pos0 [1388178692905946;956362210108407227;313292664793984141;478937790843000000];
  pos0 [454607273176621;249214017047884092;127930371219458780;915581007044900000];
  pos0 [2491579627445117;364508095637205062;706528006194476526;645309017216000000];
  pos0 [5325906799754706;999839189597727164;279860843175791542;972665926532000000];
  pos0 [4582119748433643;425981554047368699;257976203873038516;323178279984000000];
  pos0 [5731749558969351;806664262532512259;146998671898913222;872461374035000000];
  pos0 [8701992632426948;476684887981408712;948185729513027031;940256457378000000];
  pos0 [10259634399964769;958332336127203432;782945533497686180;897554912180000000];
  pos0 [1700893224647546;719183214621110884;625691637862707632;337314537967000000];
  pos0 [6414613843541854;181456523194633960;138008106164765703;493276108326000000];
  pos0 [6424323357279731;190695697413472729;392410533449714418;705909455418000000];
  pos0 [3070160227491686;114667261952157708;213251424034290870;178901746946000000];
  pos0 [8281900546311299;520871377047508450;550523336292007803;374817105128000000];
  pos0 [10324970150098405;924902559879743808;810645946344147257;202503953670000000];
  pos0 [6827565694858372;887051605560369888;569446102035535642;391613979906000000];
  pos0 [7925164754969139;236804255550039084;606638904405720528;390640789743000000];
  pos0 [13099994724480223;753731958639220650;560138249636487942;476502305770000000];
  pos0 [5314543709674777;986446308575979019;980269103944179506;301232602996000000];
  pos0 [14549515076647822;194686612706608383;418690006718414472;227367426000000000];
  pos0 [15077851270263419;295918376329902133;812734294128009913;717902025840000000];
  pos0 [1962371338179456;878142546942424969;151696200463886317;72164711212000000];
  pos0 [2960614701580325;656043955722844998;638684195048721544;871992266794000000];
  pos0 [3803527196645015;684017113123693428;651935334156494620;110088097278000000];
  pos0 [9138114729575373;859487331065607106;928871889199371282;650811172374000000];
  pos0 [10179454322808368;732852638704945526;642755460485049704;214700083460000000];
  pos0 [414695848236118;220956203644808841;636217123232430851;558394548372100000];
  pos0 [5485971689213694;416167938732986393;557024313469881130;772119975400000000]]).
(** JaskowiecSukumar2020.cpp:3199-4027, order 15. *)
Definition JS_Tet_15 : raw_rule := (
 [[pos0 [150754791975597130;732322252100892200;604612220640633252;844449532200000000]; pos0 [34427323551792020;971440372287715387;94757093811141455;413964344810000000]; pos0 [360327397943910172;424911085555418276;550034067575195500;103718627700000000]];
  [pos0 [18815968035560354;631620887085400795;788093919577249048;431382847500000000]; pos0 [567300924807246163;641898031795037806;212526676355022833;939934785500000000]; pos0 [11738524719276163;390451253235186240;234550206689237785;477852658060000000]];
  [pos0 [131546298142660906;406265237087309458;587209276451590777;350340004100000000]; pos0 [350778994950637690;300117406557888729;40392950793509580;334032228800000000]; pos0 [189627686815640212;719492464096365406;96972207329212548;60942743200000000]];
  [pos0 [401373764314737272;974281235698116879;8068803205779414;373193154700000000]; pos0 [103833498432044594;515736425676896205;446860264856986671;986406250100000000]; pos0 [10334512777872537;660738937361031483;468715935206511956;423082957300000000]];
  [pos0 [7309253975721447;845991577268822397;225385997353165162;360712954257000000]; pos0 [561524039118392974;404097978642737424;438981179237474517;993157731500000000]; pos0 [256715308039777510;854928054151565161;342963496563422061;235686990400000000]];
  [pos0 [334702409382324124;460936909922826909;369324898920048624;717332694300000000]; pos0 [204110276006884135;376188873569654099;746272319145792188;28179150200000000]; pos0 [392450462791524204;507992558036545881;229752299505982654;120668846100000000]];
  [pos0 [149030627731341781;861003171832142099;528450141654135025;312624851700000000]; pos0 [514338551803085729;174940847140276795;801560093476324452;126692888000000000]; pos0 [269424105391577724;310502272759636336;945772319425954087;745102131100000000]];
  [pos0 [480514954588931364;703590646712154792;145260509749981690;566483864700000000]; pos0 [135304734763152671;600291189209834372;149907220203498548;696185247100000000]; pos0 [240548564774199850;480063076652376741;378049513487264696;2314716800000000]];
  [pos0 [428609610710858650;20123392439472182;19285312687440881;477928182900000000]; pos0 [546364650533873998;316999556061099470;394154470569272960;392716143400000000]; pos0 [3731155449942276;110963462763635732;520547611498233147;300108774643000000]];
  [pos0 [725929730441000065;34931458035053220;321114193259088473;444566247700000000]; pos0 [227761446925016116;104832238034527500;457731812777452729;496419510600000000]; pos0 [13702693490310527;527361778080045123;340464171658767798;504313120860000000]];
  [pos0 [688730394809933330;765494252627965732;311812334520644906;919977279300000000]; pos0 [68891109991111498;908121000947707820;127824451028940201;568693702050000000]; pos0 [67640291163236673;465785325985290623;131930695551092780;512138263430000000]];
  [pos0 [151247543173619143;159552018391052392;725267126717484378;7413432700000000]; pos0 [192751027192072716;230198167056518033;350802985680049547;8024370300000000]; pos0 [352354890093210684;33753291014212507;162816115785025055;90114553300000000]];
  [pos0 [3732342124948754;734813334603635283;190347712281148843;202963832292000000]; pos0 [371593717797079741;733858260533494092;661829879535089531;670133833300000000]; pos0 [73074899533087728;148146418488402304;650372548660927789;204439347500000000]];
  [pos0 [61595479565749937;457724304340984613;638505361039243805;467436729250000000]; pos0 [46367722839033967;455950232446012056;536581803839511241;719106364110000000]; pos0 [245101939778140656;654248000059369504;89299601781645285;709398504800000000]];
  [pos0 [738949009523459078;101851334803936962;511984221019833859;351959241500000000]; pos0 [81362651501225744;859224679370466617;947385549458908340;626313767220000000]; pos0 [9865683214212634;691937678349974060;282175099132246641;782630076059000000]];
  [pos0 [945873012859971349;507904762356104444;49569389237335975;156213811900000000]; pos0 [16480726112860409;497406682304461165;823885468508733916;482983751620000000]; pos0 [18138389420080688;173938299999697328;695856603029944072;525846065820000000]];
  [pos0 [121038167142195215;283398483070543085;7410087592672946;205609150300000000]; pos0 [347311201031977122;442411443142192867;745188374893137359;257241615400000000]; pos0 [349041646381156705;930446930509486589;62361552490474129;690582015900000000]];
  [pos0 [432979594590962749;893583978986617615;575877961437775672;254529959600000000]; pos0 [16261471254159192;319165876560029300;330540683972278955;616703289320000000]; pos0 [548827777798653376;84968193163600697;549596802811276462;295834065300000000]];
  [pos0 [181710152736214818;520784190405903812;958120158228165922;454001470700000000]; pos0 [49869023222412232;527779369623772948;658917438805227952;767687364410000000]; pos0 [52512002871760292;3869452834969014;714310511758273055;980883006630000000]];
  [pos0 [186210230801106760;152832640973776696;474959008082753539;782619984800000000]; pos0 [68424381802685720;701724060574875945;920295193009076016;884438879570000000]; pos0 [708781844745170047;25630329436721908;902033030331523166;412168996600000000]];
  [pos0 [234024323856464570;232690077369802520;6604894606508378;933152361200000000]; pos0 [180658718696642038;150224677598398506;103590566756360410;623300611700000000]; pos0 [23071956541979904;622868975255846574;625623663977126215;613384371620000000]];
  [pos0 [301988390295932031;33290030498144501;844126461422728020;263074755200000000]; pos0 [14030987688360223;720705699076287694;349259832632558843;248604622740000000]; pos0 [364367993448834925;777831328647930188;720539300381833780;391174233800000000]];
  [pos0 [368345239766241985;826446876161859539;332415185787773395;988788706600000000]; pos0 [11402275341141867;378928304343972525;143687383849983022;704224612070000000]; pos0 [442048555013146218;621855256769437981;561339116989536912;9960526100000000]];
  [pos0 [16700830874961884;788445680017424748;849470958220960046;11414924700000000]; pos0 [20167471701026882;427017995079859012;464069527140692828;892366382470000000]; pos0 [738093528158185079;575105224727759532;951263065433607373;387034313200000000]];
  [pos0 [185362734511067910;315659618128328802;6711335180021832;738142474200000000]; pos0 [430388537652166114;388478752506885603;651612249488115078;843488207000000000]; pos0 [199944215474993239;47162407413439708;282401000560861727;438411214900000000]];
  [pos0 [171294598244407281;31797399784959213;321801849716445876;557262160500000000]; pos0 [68935660184632101;608548015994064464;210333275371241904;563468502740000000]; pos0 [167361834741465511;842305725887994687;988732630817704635;69377139600000000]];
  [pos0 [316845032009581937;357800549933903948;630077163424542838;515778565800000000]; pos0 [84567054341934446;194801865424523871;744426347218512227;456593958920000000]; pos0 [480338175962948503;398104590985105118;258240632111856751;147741486100000000]];
  [pos0 [104048796242203794;658144135984377122;777555256200375508;167307909800000000]; pos0 [187495174945917605;801807697426453517;735151811068960488;758836682900000000]; pos0 [8918653598628844;331889215793602259;780425275882045742;155707515734000000]];
  [pos0 [98165972238964870;889956569121256722;270386071078555477;956937124640000000]; pos0 [222489908336992978;246740964846708981;669219538410804738;721529621500000000]; pos0 [661423241996030580;486303365811191896;537213625977689211;43776617100000000]];
  [pos0 [21629213178511696;246582441139703522;129490112719830103;391699659290000000]; pos0 [387164418440577388;700636151632414366;732172068947023059;308184685200000000]; pos0 [11564651502888654;216980160975263962;264776493249254085;848047488900000000]];
  [pos0 [2529716310619293;421498440081443720;515477810424886726;229240451945000000]; pos0 [755839411263125349;117033264071222342;896213036348263007;814073889700000000]; pos0 [21107554771486915;584112547919244603;195380456100216937;226046670470000000]];
  [pos0 [302479605196795105;722822190867040792;125265392466513434;985441179900000000]; pos0 [334593307150510552;692169022926616317;969928270375412679;123407137200000000]; pos0 [90967330346513967;640616199352892871;282956915368638857;176041124400000000]];
  [pos0 [671680302207824380;229940690735601194;751698018371896180;747910616400000000]; pos0 [46420994457794096;851396210371414900;971002275486543181;414270044640000000]; pos0 [203957686366899170;755167272896102186;925802206968247955;480271966000000000]];
  [pos0 [298985983063881730;248517227768076023;936387975831395572;278370101500000000]; pos0 [593340461680245870;150495400627244907;151582990319545555;544231928400000000]; pos0 [4954076397114757;544338579042693967;952586975907810581;490913505303000000]];
  [pos0 [556614417776357842;435508622520468150;559288895380125286;241924482700000000]; pos0 [19301596150259938;491174367730237738;691332554703310089;130785672000000000]; pos0 [14236768439424465;888894658142307649;575100672275608408;899967870400000000]];
  [pos0 [805186314539775390;875738128288152454;214425454280329502;997929045200000000]; pos0 [29538148136380548;483266005336219484;431903822722193870;911178201050000000]; pos0 [81972970122255273;433650047168067408;242781615252867869;841269078770000000]];
  [pos0 [242814265470845786;184209589880095954;57610177310057013;556501813300000000]; pos0 [314171788211244194;965017524150299827;749486687863567512;13875937400000000]; pos0 [5405425430551140;433886471098003534;196410832967125098;381091245863000000]];
  [pos0 [29780616808856386;710946687723374100;864992925080301298;586624064370000000]; pos0 [695775739594537913;123400393763804045;223570799704913879;696997331300000000]; pos0 [196419280962887953;983930061978656293;180025957502115939;12402025600000000]];
  [pos0 [235798805224793705;256450723310780150;14951876433499461;815597604800000000]; pos0 [744091937393755433;63101700378719543;835346736249650208;273341572900000000]; pos0 [7649794086153857;124920856496512567;345163993553524328;957012333775000000]];
  [pos0 [894627025341030452;211658525177726593;240766085666943708;57620958800000000]; pos0 [70549300198493766;60928057685075161;463123402916200446;621010302720000000]; pos0 [23451515627320018;565206917935463430;817351335734046571;31238520540000000]];
  [pos0 [112179228038670769;270994852752868648;674862928475417400;633666079100000000]; pos0 [104368769932467073;962504338997903642;574786559294276380;192352773600000000]; pos0 [312360475187690607;386921366768270578;468491137139370853;756327762400000000]];
  [pos0 [51923740034974705;597483579955102570;356807072425171236;622367596360000000]; pos0 [438870320934492822;596783707069646412;355881415409478429;803921861400000000]; pos0 [59098288286254020;728462174540321980;335029475794670949;671871173820000000]];
  [pos0 [75025700880729134;796387104840690060;530820720627375701;285187149770000000]; pos0 [112382609583173394;769107316761159628;446514809240871768;536158428800000000]; pos0 [487366128417079957;4054232552435224;219935516472611142;137395629000000000]];
  [pos0 [731062309434436336;625142357416712803;795103217748738322;695699283400000000]; pos0 [26955072919507927;39610456550714944;269500986991158758;333078681990000000]; pos0 [235883675007011249;464938546072705312;316761974612944682;259588216500000000]];
  [pos0 [12637464049880341;79013472127447921;934645116659099642;267447672970000000]; pos0 [11139573111845439;758923027464798605;596759968305582928;599543261920000000]; pos0 [881081394359380237;43840327398832540;137812317752301270;329092478600000000]];
  [pos0 [549857019210156759;691788496731093238;875270198250012988;133831680900000000]; pos0 [154573441540329552;267968840755852215;430047187728039936;286764834000000000]; pos0 [70458042897359473;30483735996354360;895846740516150967;510302957500000000]];
  [pos0 [700794867338610923;671107553708792908;345339532469010405;230431663000000000]; pos0 [211764865883519806;755453627469390239;456942727378660755;457220418100000000]; pos0 [80705552826304459;392758451740969324;826301406562247556;431969357300000000]];
  [pos0 [872689126799662544;957065607283564502;709836941152686052;736521137600000000]; pos0 [10931034129483041;237650276456312358;527493568766979213;118487834480000000]; pos0 [96747747013926260;716375314992171025;460101503396355252;774413816240000000]];
  [pos0 [179122136125721118;671972428629191284;607903379935660627;809969838100000000]; pos0 [305017830650006798;305681444202072337;212762623587337474;875483625200000000]; pos0 [70510773340469849;127366564138286289;164882144997135641;692952629490000000]];
  [pos0 [6001525602280862;480706047812171342;265816554691996328;183805199721000000]; pos0 [515522711884468707;311482739636393763;878804602757321569;155593813600000000]; pos0 [468642571158481426;226117850364221709;911386201829887290;60275079900000000]];
  [pos0 [442940939774157115;698897740827393602;899955672690944131;454923155700000000]; pos0 [260646078598350551;966356018695425495;143466273433011211;116222859700000000]; pos0 [228974893780061161;675160417496876235;543875805558609732;304093723300000000]];
  [pos0 [202138777098580319;330301949136239526;756788795469911469;367011221800000000]; pos0 [68653192244028201;555350955894898872;817892114784849003;846941767540000000]; pos0 [456460564405913101;404586424891519612;261299409205319917;489588724700000000]];
  [pos0 [1323710046339756;680592668994699521;124418404672850370;559560082391000000]; pos0 [849301165740937790;73556099449715338;236923947826763880;356781322200000000]; pos0 [91599852269136671;588682321099001636;844099106261605317;608935642840000000]];
  [pos0 [96326626965693365;799832395498479588;433268204792240976;187769488880000000]; pos0 [682359302135471302;96222029667757266;324055027602145028;925599882200000000]; pos0 [200878585987044919;460663690415916557;260448793851571368;93268087000000000]];
  [pos0 [510950063747572978;200670952546529849;90546209941003433;158977615300000000]; pos0 [29377632597237589;321877838476838694;788513922014275927;59201032530000000]; pos0 [376991134085265468;99277631650850363;751821616690260448;104681368900000000]];
  [pos0 [92992028683593469;590857043500025925;505144252803366411;810016039300000000]; pos0 [62764144967288004;275824598573194895;618806564165638043;765129901460000000]; pos0 [7608602792948092;21654968958137097;514191939786333554;699561450283000000]];
  [pos0 [88525058366157610;440808680626780740;461968377459497675;929401309330000000]; pos0 [14435679777159061;987924933688887129;760296051828655851;235769394990000000]; pos0 [682594891072418435;277267149242646124;154888219474712029;177302805700000000]];
  [pos0 [458989039551857883;169233689456146567;890175137209635381;841411136700000000]; pos0 [180953445070916249;864923738334122093;763089514797140438;740680722900000000]; pos0 [351622685295358487;911736484790687825;23952850260675841;483706693200000000]];
  [pos0 [304152096133492909;338735257868466355;544079219720702085;810918991800000000]; pos0 [23097067814684139;960687248602369216;917260925829217291;228607979430000000]; pos0 [176248670262457752;91090622495471074;939870218858826911;240038972900000000]];
  [pos0 [187941294520187959;644873133418259199;662719258474774331;808256038300000000]; pos0 [7331005205403499;529781498329272118;460972978432828048;458370450992000000]; pos0 [718862590998719236;517153585558895331;948168215496322625;110509082100000000]];
  [pos0 [122508640162984999;572293801969737080;754600313821611597;859627162000000000]; pos0 [677497670007578564;789340844640876098;615601157206146105;556303199800000000]; pos0 [54347089416676955;228895922604934626;100508054939082615;325434651300000000]];
  [pos0 [91920909914027085;24269256165085246;705165847037780965;254348613350000000]; pos0 [872082561157730018;124482195755739732;649745724525812465;727829948100000000]; pos0 [17789475949937225;491192990839420723;748233700012884952;96959871900000000]];
  [pos0 [54895175282277094;71069051075496971;312336396592176699;867761582320000000]; pos0 [696943613937667623;168832442305809793;414912234367446467;901755944500000000]; pos0 [14492817996620574;745811851588006864;732623634260936348;765757423730000000]];
  [pos0 [13128114267545621;430729831585099538;19931588468152385;229694888190000000]; pos0 [468140320753077265;742168482476678698;797242886266918119;36859025600000000]; pos0 [170949245063449574;823947254244281110;6970316749280269;566785281100000000]];
  [pos0 [159900965804373504;714428842997741256;245928552252023242;799535450100000000]; pos0 [493756708572585696;999600133622743016;956551595116283296;695153391300000000]; pos0 [334858489126579606;347399186530042278;41073003044358424;589935592500000000]];
  [pos0 [367062241006086189;160016074420470812;50174237444138939;529620364700000000]; pos0 [14033876717611786;390376122479688635;917567839258611844;227793076640000000]; pos0 [559142095500318928;559935829620254083;208549051825195028;951203835900000000]];
  [pos0 [655310113434747918;785804085705337282;184495360704595101;696229850300000000]; pos0 [119609561353823527;103279544360094390;39075380574367661;44260224900000000]; pos0 [203809311611165266;829731553565711468;650818316435998775;476422923500000000]];
  [pos0 [18468845648513107;969790656938102394;767366338411333946;293299093010000000]; pos0 [274048159202868271;219552329447018298;240273693171803521;244617976100000000]; pos0 [189695167658462348;744455799714115855;601193087535780227;852061474000000000]];
  [pos0 [420462614201435530;6328693416634116;639444785307915962;557072070300000000]; pos0 [61064039666979510;294658495704839245;759526011322025960;804163327720000000]; pos0 [164821263212323279;372553067099460195;836617707578122743;878142686000000000]];
  [pos0 [434120227772805935;871606030951063162;896932582055518729;614495165200000000]; pos0 [381686928479585362;556214541682976121;131710375111386724;188879550700000000]; pos0 [116494884309043594;687092991738037713;85269319094016818;402467760100000000]];
  [pos0 [338824465229041335;629834926923991570;643581439075621686;321788546800000000]; pos0 [591788005250351466;513905419401668633;991019312226848504;736608158800000000]; pos0 [55530444438663864;932993451358602703;579084608756216578;761752115420000000]];
  [pos0 [34641840239381562;269818972722335087;480088333342328708;981852649670000000]; pos0 [789487036724355695;320490953337905905;804167431072778594;358323068700000000]; pos0 [57730694347377646;268509237362239261;157511322354991247;613216940700000000]];
  [pos0 [828824172972092396;800681609501477353;473502975481890965;686659505400000000]; pos0 [144083447448515273;823210281673538745;52126079196490888;378653145100000000]; pos0 [16340136984087383;187784908889712827;952428295718672030;456513806890000000]];
  [pos0 [588404053663871938;193299488565839425;234998253733033928;79400892700000000]; pos0 [100558143240457975;829853614037660659;114723319823517240;466920790900000000]; pos0 [11107804553032097;437967528706104207;915194269720904237;62600316470000000]];
  [pos0 [125091500578732761;759824674076197470;358188498593141330;605453489700000000]; pos0 [208014745390542814;641509553605449241;740404721274599822;232653745400000000]; pos0 [183432707590760732;187317774412287008;371953245107962589;266332837200000000]];
  [pos0 [66648662038491744;449960130991734287;135718796540591873;936177982930000000]; pos0 [7434104644336051;475312878504281911;628232814351812342;671509141779000000]; pos0 [393620968205786855;864409211844352060;428427817832521459;12699716700000000]];
  [pos0 [384528175647150047;419187697550206492;476134587216605806;338422693800000000]; pos0 [233555892487675055;575800675913606054;567166986979122710;949309591100000000]; pos0 [16355370714969004;373416234928312363;902014016063889281;991050049880000000]];
  [pos0 [6352585741721007;711364534800837541;324891495954529996;576029610848000000]; pos0 [735586847226812238;945009162076005206;833182711998446375;302079015500000000]; pos0 [236461327375350865;77875433266330984;861410055816361145;302441261300000000]];
  [pos0 [248868602630851398;185747722324271888;455623491177170937;650924215500000000]; pos0 [556648327796057517;998744514285452863;880296451983412895;119443038900000000]; pos0 [188885302587314511;698682842579270505;706041104222581735;930074154300000000]];
  [pos0 [16312382991778494;839469043436473612;688300556263465576;934708494350000000]; pos0 [99005720415631313;875047344879652478;754623399209448346;51414002460000000]; pos0 [11854704103722428;804219824512170083;900857357921675467;16049702570000000]];
  [pos0 [58392264650900797;529379341835467465;444239461516910892;126698182300000000]; pos0 [301957172348371735;504488723802362311;694195335342794404;993082975000000000]; pos0 [303521708963999278;79750278762227669;930814339318148035;934889979600000000]];
  [pos0 [31187340666879700;393606751271403579;649896985832124683;308824203950000000]; pos0 [679169167672602363;632514245598847286;32469014381070285;367657583200000000]; pos0 [284765650495464059;691210682599237675;749275630451005686;225868378700000000]];
  [pos0 [225104117256348849;572160891658027187;590094890288403250;670534723200000000]; pos0 [73315559895637570;117907966297892827;409635846143298670;812720797000000000]; pos0 [8802405631309459;940839258528730571;503756686005986767;658218087947000000]];
  [pos0 [54183960154265486;159146082794084843;731309828934092179;875199375160000000]; pos0 [229777429522917549;151377729911390687;616079816604478307;682764316700000000]; pos0 [501159617389055870;726308363028568370;445411278599896088;305084117500000000]];
  [pos0 [599464903115047713;424945012511221288;47584822765313163;181188419000000000]; pos0 [17215695836844963;843105013247797927;680739836191453625;384285674610000000]; pos0 [85427724480200976;740242765448413146;339835301813444679;277399682040000000]];
  [pos0 [8704265258237210;87582484093625881;832728697118188215;492128457463000000]; pos0 [69090527222434156;866836923252196261;935945788789752495;613794547910000000]; pos0 [553650006687009381;351544273922474230;610844323809729280;523315442200000000]];
  [pos0 [28928933982512260;60393411761232196;194560857994049074;510016510420000000]; pos0 [65631290698422473;923740748616209450;843966078553525660;855747485510000000]; pos0 [387542810879327898;121449427539308911;360591238953522610;877334620500000000]];
  [pos0 [21110035296746076;973974815856247861;260398672071665938;541821833750000000]; pos0 [875169296711128284;185081238999001542;622957579885911127;736686775100000000]; pos0 [12154530890962875;899629186499640098;870829015752901717;948220260790000000]];
  [pos0 [86537633691482231;834194895648808535;107490242627509393;385749163110000000]; pos0 [14859714106544250;831266669528845833;933653526974215171;727424026920000000]; pos0 [24149400269582799;412737564488404347;852689229022621108;628264518950000000]];
  [pos0 [51998692881592888;710377799934506962;590907734255015494;952343087320000000]; pos0 [545544080391839590;755180468122837008;325735489142201013;347290268700000000]; pos0 [379687379097017059;462358261190311574;747528253081740973;586348770300000000]];
  [pos0 [241666005841553993;436477520412979869;252211419632333417;198924604600000000]; pos0 [254197870590258481;253813606292282233;267753798455634739;316299090100000000]; pos0 [206956727719426681;160921612853684407;247437469377350129;494041906500000000]];
  [pos0 [25122033113359812;22487279982591095;669768099984051705;366810027060000000]; pos0 [9235690950638253;408627746851493869;542248703763549461;90257932796000000]; pos0 [229886610332098163;518052221167690256;202491062490066959;908054594900000000]];
  [pos0 [170535005869279711;725800993474095031;340790978899414419;834006957100000000]; pos0 [3158066997929169;251897683584375200;57721650963209004;903034903396000000]; pos0 [503008344129957468;286807095778941833;358987285869929217;402064023300000000]];
  [pos0 [4579875841212080;219419848143369865;605537407669287495;719278367888000000]; pos0 [17122757034867068;599339208583867919;85571343798110376;958636302990000000]; pos0 [388181677800204387;694090560344697578;794485251450697376;944738742300000000]];
  [pos0 [77680374107593365;964842759244691699;778647320523950491;96012042050000000]; pos0 [793184303316581368;261687849353077137;563782257726405579;748041977300000000]; pos0 [80360775199670690;266796696649807788;684202516738603336;408736497840000000]];
  [pos0 [521304451915646302;390972204423707305;53679261534985386;621234725900000000]; pos0 [237188818101415224;301499943137593487;181290603717416531;415055610100000000]; pos0 [10821218543492821;645170333723548110;336302344738816340;413470148580000000]];
  [pos0 [488990426128122206;929845386266587760;890412409596868557;681240158900000000]; pos0 [115225081988983573;234193699016576536;267548220697788130;105856118800000000]; pos0 [326572370012294212;702891311499923951;741419972627178777;511301048300000000]];
  [pos0 [581058398178968102;885166127970353416;534677330688884232;270433641700000000]; pos0 [47199504498396214;5084035864228059;70215882098134854;815789102690000000]; pos0 [171869617497676096;711691627324825344;324425768071801043;297197318900000000]];
  [pos0 [469246008831500424;497567122012219867;10983137268195063;294882705400000000]; pos0 [295448978265936680;742924732520910079;664959296909235954;851549826600000000]; pos0 [72703490924577160;688644939055684795;804581104063760751;477882996470000000]];
  [pos0 [14390989301464274;892565138078453362;810601132021806701;201398137700000000]; pos0 [683242248479591135;311034446809700191;610692991366608418;914044874800000000]; pos0 [116866294336782609;78368036714218895;602603114608741293;390396935200000000]];
  [pos0 [242337681568606076;465043114322692752;614439558409213170;976545248400000000]; pos0 [416898497679184216;383629761093161601;231969548968090617;281803423800000000]; pos0 [21798439974209545;354059321535780361;964742126616890185;441695737910000000]];
  [pos0 [524929127442231425;717272768711882651;705242551461042891;940447542500000000]; pos0 [411113234575942265;675807174438371654;666032360566873611;112194105800000000]; pos0 [46317278426179723;938939828657368992;626494373882433753;980400557520000000]];
  [pos0 [18605289925886285;698625735213867115;752964338043897240;936555760440000000]; pos0 [8483800270388622;233332129211941873;154653996152609230;907132057107000000]; pos0 [574144276661208484;393387696228206538;604627413663935234;63954213500000000]];
  [pos0 [544211430264762126;213956163583516110;336314200729204317;840552441500000000]; pos0 [242553242503070219;731411556112752028;906288673194239940;357872795800000000]; pos0 [194606111470295266;257017308267471911;852965492716937694;801484185100000000]];
  [pos0 [143836808760617828;870532668515947689;372355430134824972;391224156000000000]; pos0 [146544993031245979;431057619436313980;25233648938920624;281582032100000000]; pos0 [79547719959962402;744412760066275229;617551651088553469;505949288250000000]];
  [pos0 [418889553263935120;819306072630964120;272033674734113911;258312850800000000]; pos0 [156450400536499148;520058126853388931;58339437755399884;222862345200000000]; pos0 [161231938187984013;166626452550995579;361986940280516293;597471722500000000]];
  [pos0 [437165757397315306;169382488143407835;734535162860370695;941827308700000000]; pos0 [10433943958306961;166467919084639061;464895572548886690;28727797540000000]; pos0 [83362567156859040;82538831945481385;215285787977756793;980589963520000000]];
  [pos0 [377090432732802475;841684372547287895;253263320421122146;627530357900000000]; pos0 [203322345962409008;529384328642525328;420477993363540341;88874131300000000]; pos0 [59695289793883290;452279421760575667;24263443636285900;35777911140000000]];
  [pos0 [377591069169552320;510084376998491015;622896002074479581;88441161100000000]; pos0 [496482125361449746;933138435085595605;940687366029409704;176109820400000000]; pos0 [43081833874654978;545350367240048657;322534342874719598;474350515820000000]];
  [pos0 [207704277134545509;459316147700957440;143103592899494573;265274265800000000]; pos0 [5839549888236497;273396282168702532;881717214579471117;246314760152000000]; pos0 [13041977362200233;646669678164154911;866191140997726758;448522022260000000]];
  [pos0 [272614936761790805;460107193268041367;831082093722433662;713311877600000000]; pos0 [164001545386369590;921230974437477204;729208418220232442;706380438400000000]; pos0 [120060808923868220;604757885195154946;585515341236506352;934520060400000000]];
  [pos0 [61807487031052748;929483321182553948;20930538928949399;813508612790000000]; pos0 [253470860122981140;428071372051682721;643435142316651022;535992634300000000]; pos0 [73852948958085701;629506255339019045;359312117791957464;73181197910000000]];
  [pos0 [200537482634500856;417790006141374519;76696456960658760;270333052200000000]; pos0 [303991859095630678;200068287917228015;680083146975837856;519917370200000000]; pos0 [494239773574856643;816259970795562829;582754290265862078;386333296700000000]];
  [pos0 [15105481063803414;327538420897318542;182327425410470872;600893751780000000]; pos0 [85143339073290069;323125347060863783;659118253394058554;41009519660000000]; pos0 [880750175272465284;669484362949781031;661635979185633631;760440133400000000]];
  [pos0 [14115893049055141;722317862656449624;87123207116312570;562890058830000000]; pos0 [184021152198784575;207439534268547578;164376811186888183;676475700200000000]; pos0 [438814636323987728;987326189382492487;508685662581790651;644003157300000000]];
  [pos0 [97608172080299677;189968317709912905;424739883998892329;292554054740000000]; pos0 [332200479165879040;814690591355581051;782692815752770171;661224751200000000]; pos0 [485068018364597113;595370199165029334;931520294008443961;663676015900000000]];
  [pos0 [734935256057787379;864394508563820508;336672299346930853;902155232700000000]; pos0 [6942568829339505;668536882676503087;763604860209493022;531790753853000000]; pos0 [214286743860630897;777733832152424243;418449310510247448;823296950700000000]];
  [pos0 [20568681783448744;551730241882637848;661145658836476732;478269196140000000]; pos0 [195004974451465601;53716216859841237;692274205103122422;80211991100000000]; pos0 [768739344710368387;792654461502262974;926796715793769798;362428987400000000]];
  [pos0 [320324014439986299;921025097114208066;410468491918612463;798326359100000000]; pos0 [74688936067718965;114766220542279414;328196244553866234;416503493800000000]; pos0 [71954432167742466;271099568219604579;653355048710395058;685842456360000000]];
  [pos0 [247423099208085507;791084371617528039;101259513675904332;555260513500000000]; pos0 [521725583901301620;462856302720670746;378865956369763182;457081915500000000]; pos0 [74061075310271077;827683964021938497;903877916913799592;180847261120000000]];
  [pos0 [75507476066647086;292691865370705636;387024999284669993;74706900920000000]; pos0 [31669041446200768;321851054014866708;753024438488485367;912132077490000000]; pos0 [540015328745927684;836456008151942389;52271472473098372;985625613600000000]];
  [pos0 [581005556823911449;883502406959493307;542266204937049387;894810767300000000]; pos0 [6762980936976298;302295066666716177;479672154063591354;698515720589000000]; pos0 [387458984029643287;991217913492156216;250724721483350717;947115820500000000]];
  [pos0 [28647228650818418;95237944546554544;812904773644094024;620853062950000000]; pos0 [853183375886702162;540530381568311054;605437992515540301;271977110900000000]; pos0 [109578545612373597;559630361824559185;232231271960933541;246323981500000000]];
  [pos0 [13672689571041493;361608394242189381;597632338730380382;17276582680000000]; pos0 [77965800308860563;933943024917033982;787716009177741557;219640042490000000]; pos0 [68572373374333096;837748217253301172;311548429371141936;405680906120000000]];
  [pos0 [18954508204721268;297629352078719262;379823852480668838;676655607160000000]; pos0 [225589468374352421;827649636147748186;283570624213424532;108455491600000000]; pos0 [19183256698742820;897926924975891397;15324975338521444;884849872270000000]];
  [pos0 [596889137814252967;314835849335093162;301891858857274354;587924314500000000]; pos0 [156451974162750210;763220973926663514;441489455235218894;112579307800000000]; pos0 [139482981354760962;740142148678825672;572170444663022594;879841279500000000]];
  [pos0 [17579787379585590;858242300553819900;844822978655432052;763854091940000000]; pos0 [18446436788701819;675742163430943681;344144425293053427;406810669300000000]; pos0 [18159555981724599;694892052790246081;943048876007000536;874187636160000000]];
  [pos0 [496387211193162525;856022151979791382;13102524287373170;432544841700000000]; pos0 [78253801229360204;564437416493640169;853172309764690699;504944266280000000]; pos0 [59497937702261041;202550209483465086;686136254270029241;14658565960000000]];
  [pos0 [372228968607390308;711649842820559100;478540214500033524;806320959500000000]; pos0 [405269919616340172;629263656809384848;228893241150744633;944207031400000000]; pos0 [16255885145888917;632286964559087463;763151991920522427;775902289680000000]];
  [pos0 [62317748013958398;496950524107639646;540336894999473501;722228516670000000]; pos0 [370717013005169348;717743166089018866;688794409474769053;98006415500000000]; pos0 [137492491096090804;31080293680035195;886981963984615427;991768927300000000]];
  [pos0 [580382966288247051;967090980195359006;712569687327345452;44401803900000000]; pos0 [1197709516953249;555039670115576744;783434909654447013;126679916905000000]; pos0 [268739806546183237;117725059010625182;350544840072608633;409644444400000000]];
  [pos0 [192852523759640515;920756574758487494;574979438178800927;682996269100000000]; pos0 [336807317374050125;190199552369256905;730696178107311346;896676301100000000]; pos0 [421113425249663370;146721400633579284;810312109782362164;806213647500000000]];
  [pos0 [259955919632590952;783522304532520841;204907404109376968;748886434700000000]; pos0 [417511536209115113;422815198063158349;590991386780486125;368681566200000000]; pos0 [247418261370783323;786705530272543228;918932108485068769;697887615100000000]];
  [pos0 [9914566790768629;23290952878120077;802272465984546656;675679750639000000]; pos0 [572163360891637752;959139466114816393;632205238397609702;41628907200000000]; pos0 [66553953615014487;226290425641942770;298783374373320634;138235831400000000]];
  [pos0 [368438177144938569;354278710141958629;685858094004353734;604047107100000000]; pos0 [20110155607961752;774028805430402676;782866861359960346;329821504240000000]; pos0 [18363643084976988;174490310980197889;995490147500159747;399257882960000000]];
  [pos0 [347632763218301091;616478345184985899;292592313671134462;167708604000000000]; pos0 [468428888571296031;219638319247153593;866210672464545433;618717996100000000]; pos0 [149355206506528717;525506377334169760;367985391009301690;11984637400000000]];
  [pos0 [629951390077083274;503856321858919183;658272088694280985;474582746000000000]; pos0 [348194109414595471;393707341321026887;840165034682116576;10066983200000000]; pos0 [12132629921292079;367932641817356361;27266955141298775;322152298040000000]];
  [pos0 [106549928583548303;185398342537426681;241217565589568096;98188850200000000]; pos0 [16903235319121608;440318270879646983;858097730798894505;472415206870000000]; pos0 [858362906615564172;7420205243629550;795425978810772804;12051935100000000]];
  [pos0 [3559059655362636;234080868606238822;366742704777701853;682349553118000000]; pos0 [141452522470339736;569830153790425954;260134782050025176;329860776300000000]; pos0 [287756145529966435;304644335967264146;727494361611399293;102506810200000000]];
  [pos0 [10221331943711549;841581186862542877;86397340759183941;172123191120000000]; pos0 [181126045502876900;86042963035114262;157881749629347747;406806382800000000]; pos0 [99856853054304190;997215993964576714;292622886324621913;386221433850000000]];
  [pos0 [247443701064044671;491797362963394592;599957825585935910;548377429600000000]; pos0 [18723424167229290;611957487193451978;378235767562923685;478154230520000000]; pos0 [719281116117972630;556366951941398063;995823066745419229;529856309600000000]];
  [pos0 [866810347890130522;289051584723599118;749841452926871053;169003957700000000]; pos0 [13500355457753890;315487558947857400;480587777733404303;558928258690000000]; pos0 [18051621864780974;177945402036845226;676036490063379041;563925278260000000]];
  [pos0 [60421640368717217;1589097242044929;989628688016435044;712929873550000000]; pos0 [69443097805536660;167741049283220295;52837753909269089;461015360940000000]; pos0 [109149197155054779;871213122441980759;621970800165545120;45852524900000000]];
  [pos0 [48716716734503799;491461441485965526;426378089268810922;333396347430000000]; pos0 [134083267226446343;36858370427053182;123131992953030480;107562255800000000]; pos0 [179995471286380989;933855420287369650;339372761977499537;230229617400000000]];
  [pos0 [46548682081625788;262342698885781682;275790241420101296;417881946160000000]; pos0 [180192670421727700;691132502397575530;525837059651835187;773441274300000000]; pos0 [310915207630629669;723812339050440861;624139210965496812;443475984600000000]];
  [pos0 [86013953579060627;696792499809680543;680769252662738953;459133414440000000]; pos0 [89124476476509848;147421493488252041;316528064410844419;534953879220000000]; pos0 [814064388855971801;473493722811882993;147327124203984447;205892450300000000]];
  [pos0 [20468396391194215;186215238707038478;959319468077120714;271769500750000000]; pos0 [386078655767887720;268844703932033141;547512290946435214;438065286800000000]; pos0 [394811133649614717;497514410492511350;299592048886873291;422932404100000000]];
  [pos0 [334335079696724345;428835915107887115;478006138687371391;791905032900000000]; pos0 [348533807881917046;23141217707158187;146599394148223879;374028461500000000]; pos0 [300651233334220165;861915902637102468;312901894758344180;283624698500000000]];
  [pos0 [17376517276758849;971343810177144104;111192430811467588;502414951020000000]; pos0 [14651139631932031;611183537158310989;328437647720034769;206282401850000000]; pos0 [98297494406554502;941054829251569962;795853091210109806;888508974680000000]];
  [pos0 [370767442170188320;362499981192209300;806475000555112021;875361837600000000]; pos0 [279111103569325408;468453151050757782;291123829524049263;718415638500000000]; pos0 [191416343199450765;866017587364576235;249871821405917407;132882333700000000]];
  [pos0 [669566120989302186;346790870926672183;251142115733760013;689600530600000000]; pos0 [190451323273993140;179610600578472946;427411690699797486;808530865900000000]; pos0 [21467639914399293;385054149274741154;908343260138058625;506987129680000000]];
  [pos0 [72198550499116227;825825513763893405;249489643221590326;375264966230000000]; pos0 [109384037528202648;639208796058348075;631658982721193116;662605093700000000]; pos0 [41270832406388450;413978235356369641;831762075610754644;605841344250000000]];
  [pos0 [18682286752783018;313434102316207079;73161132439998796;923049766090000000]; pos0 [370936625776584300;912810072183656558;342282742387993991;762523961400000000]; pos0 [524965065895284203;590552587904410565;837909955893323322;158324163300000000]];
  [pos0 [103184686606941334;550926471206182120;979572772115855074;354329690600000000]; pos0 [609375391607637717;388585462865069654;549410027419500152;142018938800000000]; pos0 [154527508761681191;693117583343950509;457406791743369192;356632648200000000]];
  [pos0 [839247742073216106;197569559109356088;23080465306939194;897240282800000000]; pos0 [81169899589621784;47387906103641688;510464150144597771;449188949460000000]; pos0 [12092703854745987;621427560445625792;263113312408512932;356575459860000000]];
  [pos0 [203495825587544214;128074046905570785;227674924486626528;165781555200000000]; pos0 [618713620566996936;383010874466051982;440054201613620650;608540328400000000]; pos0 [123912430675184084;410054931713836280;4649303585984354;442581308100000000]];
  [pos0 [23309652610479738;498967647888725139;419674513979009476;913441147460000000]; pos0 [102888242275702115;605104204996427573;489208243703894439;405922339600000000]; pos0 [664083846120543067;369571157353169444;640487249209942713;853943562500000000]];
  [pos0 [336820843655766799;10915563012349360;632224028657698653;424827873900000000]; pos0 [44905432059090514;320932128573849599;38602060122640561;183104135920000000]; pos0 [311343834718138816;380714106499582835;913317580297934250;295793495700000000]];
  [pos0 [728206882112429887;14992884511005056;19196129078176807;630134153600000000]; pos0 [16981735143013960;95522283387740394;279192200836430227;549469845700000000]; pos0 [19249315191727217;279537434587832430;702802549297097807;708445378830000000]];
  [pos0 [317000344231302890;178077771530238910;144524698975320540;378091717800000000]; pos0 [141292582392557035;300000380411127854;925490787232701181;181367211700000000]; pos0 [327530302467649563;285783266579207944;850738831656788132;859732527300000000]];
  [pos0 [212384496226047326;298393944501938395;726989846556381509;573043152100000000]; pos0 [109687926629139285;518675557376608052;398297494718745366;821928301200000000]; pos0 [675194247327448587;476189304703315608;208508067176937013;207690578500000000]];
  [pos0 [56346973589256104;434520470518648766;286289657564384531;349619959690000000]; pos0 [490779902827633216;948539314727002854;754123713852169;421192286200000000]; pos0 [218212380858497364;77582548614063883;890103471427832140;834946375000000000]];
  [pos0 [136104955481490663;576625079894574098;110341288081757652;668073000900000000]; pos0 [9243534373402538;72769792141426691;726918564875158877;56406375638000000]; pos0 [217935347987054356;430407751846190917;30237347227597363;813629307700000000]];
  [pos0 [77587878484387897;338761530853655586;331193944884605865;249804796180000000]; pos0 [97398433683051451;966846464006154929;813813283270728660;9782897670000000]; pos0 [760122615274263956;77414759322268214;719184426510746456;469193578300000000]];
  [pos0 [207976768174235468;738370629124785738;128155224787245446;46634105000000000]; pos0 [702088634092063073;697025456289533239;49091461732810308;432596347600000000]; pos0 [33286552291611068;29963084077762012;92288719859498360;505188095290000000]];
  [pos0 [593957080225958534;182232782188398703;873132000201962942;957328405400000000]; pos0 [270325603975609950;277074342858083325;171248391674228957;436859991000000000]; pos0 [80861398837765800;376481101001953241;846235266092635438;987646649470000000]];
  [pos0 [471499139507298664;649606277785027725;257670546479387516;419748161400000000]; pos0 [384466966676635863;326790096657809949;26360544967620077;632052413900000000]; pos0 [140239597482510651;299654381964574631;943256900565035740;752518362100000000]];
  [pos0 [4601338722531792;157786985212290246;75996963782450607;645634347522000000]; pos0 [62346256664018182;520908572033016643;568319219921572563;787516000480000000]; pos0 [200015872863874448;705550848565514204;313483031996217625;633264053700000000]];
  [pos0 [462528936063835101;598452903218279800;281217271196097698;228425442300000000]; pos0 [4574714879934040;107552691715956141;160097140926079686;387386959337000000]; pos0 [216409964153085822;789100794817926071;252651280337168275;419432355700000000]];
  [pos0 [17077332707409930;472295850966349007;795166653959923164;89793467420000000]; pos0 [943968563583031580;634143026372160833;489236456750351792;170694096100000000]; pos0 [21333181227099481;241462939218139417;304684250409361192;120822563740000000]];
  [pos0 [21349796445139460;251280928974147428;153240336155657944;299511096020000000]; pos0 [17527421775062457;594531551073716766;631979238577088663;931348547770000000]; pos0 [942611232728828858;162034159842555121;411323076303542795;391711633500000000]];
  [pos0 [17439012997501685;111269428764310246;656428814870126483;881214476230000000]; pos0 [339683531100047240;950502308867790391;505659532165952782;13942487200000000]; pos0 [624923161895800503;62919956744507288;69973368764417804;598018950200000000]];
  [pos0 [106011747499176253;738979766263123296;813283401932297902;297085447900000000]; pos0 [334619946329236200;913182305684265890;249547274429716788;335247505400000000]; pos0 [15275507120887216;526181088872877700;562000692066807474;786508547800000000]];
  [pos0 [534860528314658953;376366677121958043;612864364153750867;229011749600000000]; pos0 [364858595242091234;81402736369841665;275296946692964546;968349041600000000]; pos0 [12374476697908479;862632740106038369;983633043656212813;586715676230000000]];
  [pos0 [300344401003349299;87041609929369925;47068105072698383;390340164500000000]; pos0 [432072591363163271;881061849334241616;88714325646630859;118868038800000000]; pos0 [136147753583904981;456776698024049739;664124881719388345;695327805200000000]];
  [pos0 [14693608053181482;142655351164889212;960627118181849700;106803090590000000]; pos0 [75780415201501746;410726995749083265;727421314638749397;407968356640000000]; pos0 [813027967150599900;979772114781385847;390378683390629394;745806900500000000]];
  [pos0 [7964059531271890;224309627024461892;581150572478113100;326122138683000000]; pos0 [555226672735473238;378426180247690515;576016071432858271;234960347900000000]; pos0 [369208553863643861;804523383291702070;302799896749745894;818421925700000000]];
  [pos0 [144117104735324864;803847378825604218;14943417488438375;236144278900000000]; pos0 [477110317899526132;240583772888352260;534274124234789280;463221381600000000]; pos0 [88967741675773815;704568588197635154;198190867107598063;916096680290000000]];
  [pos0 [168828281620324532;830124790418399952;74544372455964518;473584262800000000]; pos0 [174792915795749628;597223480928453879;247728924059668956;40107287000000000]; pos0 [501200685198739430;26250929615283718;334477655511847040;570560721800000000]];
  [pos0 [160631496756306489;253167122095770083;237852158615012885;389633497900000000]; pos0 [755917538725230589;364843190538084586;115774517471809862;411968268000000000]; pos0 [80195714059656992;652107053933105892;870093646082817305;529070688940000000]];
  [pos0 [251319705526816782;216298570450401606;685977502955086836;998025089000000000]; pos0 [103269079729414671;136586577246241217;284951846757200417;308051300300000000]; pos0 [249865621581596077;245602182177958172;32832806270545748;188393903900000000]];
  [pos0 [190088152690053959;367467947813895878;830815313282804720;898523665100000000]; pos0 [178155348039300068;102570508012851665;410353024081858048;547973966100000000]; pos0 [579020947479240237;842318196759706600;994012107014000192;694460705200000000]];
  [pos0 [4038616537634293;54968657906698807;168432486968103735;960015948410000000]; pos0 [335510707724152194;783530993878375440;888320564876827808;243123392500000000]; pos0 [310572217646640132;210454708488449789;902959978490038762;701646457000000000]];
  [pos0 [555459903304243110;390971185758130912;827662620237997913;279317962000000000]; pos0 [63022180920580256;648710833770867454;644142727569566452;276476935590000000]; pos0 [367322380884793551;548660237142766204;413569439476483114;779622633500000000]];
  [pos0 [8595572803145900;771059003432073742;723630563615006502;317840888203000000]; pos0 [201134918490816553;36223894062467518;511182180215782454;462636596100000000]; pos0 [708776840776025920;857500329677283308;286995376787659479;238219754600000000]];
  [pos0 [815021850269445378;413409739051678338;545570533235384187;714141079600000000]; pos0 [69494107570445801;536417276552798278;389385037050929942;448790526050000000]; pos0 [103919256277849557;526655506003332155;391798021344887877;436655160100000000]];
  [pos0 [63858880418556539;247606008454452676;407398153650257106;835415458070000000]; pos0 [504761545552686729;515506072493735596;674648310649731654;851025209700000000]; pos0 [330310096029054595;975611240849194804;564812118340988663;145507740800000000]];
  [pos0 [250763091238394186;872706405490647063;389767485857816025;33115853700000000]; pos0 [272925869172978357;419102227067756300;830444638642311820;8672003300000000]; pos0 [332327781779690827;694339341190374742;853689481315736290;640994679300000000]];
  [pos0 [200751105790046172;783917654931320626;265563895320584204;57226339500000000]; pos0 [66093256733567005;682098031495603483;34564502997359072;309535380910000000]; pos0 [659085466395487917;983907819413425948;965777541764340236;639925043800000000]];
  [pos0 [73317149946576566;561295955139682981;648608381620231593;55831578710000000]; pos0 [20425248264170940;205618579430148852;241729836523588501;554395108270000000]; pos0 [812658039761530817;9563351917746033;362163827366159553;522913592500000000]];
  [pos0 [962684479221500;80016852629523154;607948088990747373;270082618913400000]; pos0 [231136520741577019;778131880420493804;639463637417803171;55999935300000000]; pos0 [569350723335082301;264601109703991546;73663484095485215;237320601900000000]];
  [pos0 [109451151192939872;29970320179592760;145599996526109837;894606982300000000]; pos0 [786839722772823694;233996455559284954;332658602651647744;63334628300000000]; pos0 [6424530788768692;498511462506061959;580337653994776488;856528000401000000]];
  [pos0 [76687958529722547;950942486202152367;697302593633614768;291545297610000000]; pos0 [392372232754746484;4497336278245748;237890297374558043;124951770500000000]; pos0 [514363206652112022;699134614111028043;115984532105952052;849583467300000000]];
  [pos0 [107447999225707019;796192710987045538;105637480894274544;102905823600000000]; pos0 [506047726088443746;282331761790531391;463768249208343316;151022134300000000]; pos0 [15331308889200438;160240877535682193;436766901684244092;601619404220000000]];
  [pos0 [448272620382159985;125305907946880595;188081093211336094;594943978800000000]; pos0 [49425732435787678;881881696096043543;588009464516830621;763984486090000000]; pos0 [308460071883805573;736612465826505473;570761336528073788;451395175800000000]];
  [pos0 [95413886358937019;149680321043441038;759549129154987619;958473154500000000]; pos0 [16000662197878164;435731546933913174;275262765866352294;719670605450000000]; pos0 [104038626600980103;135631570371415550;327235531057137102;785174718000000000]];
  [pos0 [107287795291316641;38451743291359092;229978880006195297;357722264800000000]; pos0 [81311814457052971;878107850493698990;432556111887874701;347902072320000000]; pos0 [639749281667995453;818602876209146615;828954837778797100;285578666000000000]];
  [pos0 [185585937550137707;256183211698021;144009382110864332;112565349600000000]; pos0 [590862888350117976;458123965875147164;506153060998670404;226061245000000000]; pos0 [14330912821685713;59959028849745142;5474167522304919;124684151460000000]];
  [pos0 [221858240583214902;371970079479499612;162435521338659051;945006660400000000]; pos0 [22042122637159501;134819788545455853;986118987695014342;656440152130000000]; pos0 [583423265693069697;977582413801368972;946625914732565763;436882693600000000]];
  [pos0 [730238457573892117;750754176602898693;20930943996500980;324803814500000000]; pos0 [937852412360105;578890974856367552;102750532003913092;745463185223900000]; pos0 [112599639658963000;768754338078347956;331258314819357496;953970677800000000]];
  [pos0 [58058634458505153;995164434513801159;612001141567476274;566963734240000000]; pos0 [595651950108272089;543978606220557470;508074129478831546;180172525400000000]; pos0 [81087566174184862;207381400662373706;305393780637516588;171859254070000000]];
  [pos0 [238917127805380661;621164226261975486;662885951841860764;986363239200000000]; pos0 [9891313694447862;975915063378027035;170572216842746659;83717187128000000]; pos0 [284523121945409844;949075083962972356;399051968089458736;161757122200000000]];
  [pos0 [753283819791528153;251829234983027955;514091488084244212;621772202600000000]; pos0 [116800000308017583;990383360168549038;557090404880715677;126014064600000000]; pos0 [73686144993992542;12259197019405300;400144158242219332;819545133510000000]];
  [pos0 [298734041384852931;103753519676854442;905548058091723469;677165757000000000]; pos0 [194351536281452266;740488355821151405;9476556670389949;650306298500000000]; pos0 [491578221829842274;375694756986962369;528591987472803645;825292916500000000]];
  [pos0 [58739591720556327;703666749461814078;794211865094599223;859241713820000000]; pos0 [204266501552363714;331267398016356981;71871600607216089;513875066400000000]; pos0 [640188548419085331;2363691712342228;335229133028873341;254482029600000000]];
  [pos0 [242480249870487643;63556541851176121;237689941681078626;730132181000000000]; pos0 [9163824916307248;17328036954446130;362720847604646351;895687208206000000]; pos0 [89159453523071818;250610978115630006;944157354459257667;112804743330000000]];
  [pos0 [367521788918966482;987374233553170849;902025321845968433;337863438600000000]; pos0 [80232882791985523;543090493901837969;98068050576506316;221576773430000000]; pos0 [528479816739961910;887625019496863431;756896513934379010;834800166200000000]]],
 [pos0 [6959486833268064;266563106746990524;130347255195963144;346521062045000000];
  pos0 [1653232006398001;509262689818094788;496922000593722077;98721856691000000];
  pos0 [10192677599525579;297014613797977067;62303880641933573;320655441250000000];
  pos0 [3625695784748881;93022730915809869;271561218517225962;744554440953000000];
  pos0 [3017484653076547;17621013096696628;804148227255584775;346441724060000000];
  pos0 [10193527011387870;940298393982477406;540223034805709486;53463270850000000];
  pos0 [7700832793907158;789966953582453752;285923771805383724;520942336691000000];
  pos0 [8279164248124523;483249886324271326;465844975921375984;979292301602000000];
  pos0 [1152975910953993;865674357673455012;342377790434506989;931292369398000000];
  pos0 [1825998177679834;274821678302840531;213058580215073645;352694657818000000];
  pos0 [5836648199004843;485153919734868;566425695389386682;693402543443000000];
  pos0 [15338732257423418;925239891818847300;255966614776145036;910566487700000000];
  pos0 [2057356475871561;866673555757602392;96369645701728506;989243289036000000];
  pos0 [4710318251195602;753692703258260619;785802446138711690;629227588348000000];
  pos0 [1781962035686336;826610072848808395;601756680374441556;504996086275000000];
  pos0 [569401953945017;759594849449866644;262083962680351226;528326842065200000];
  pos0 [13455104869038771;8089532415873784;813539393663698459;332155169490000000];
  pos0 [777901899521049;90283415551203206;307400835157493335;372485415380800000];
  pos0 [4065819999190276;39376075743102196;592269895132539581;34840884797000000];
  pos0 [1982152560510525;61206829912962479;775916355507597312;930826022387000000];
  pos0 [6494480562337596;163974245414720796;35972678113915713;504702622934000000];
  pos0 [3638092089883839;444313959454713092;834386115808121571;69573206028000000];
  pos0 [4149753931473900;143485286240742283;739331717334308617;349130851814000000];
  pos0 [2015146169964976;222994574436042221;680482400005816908;505314964583000000];
  pos0 [12855739315989532;680715834051769828;958392013720234134;133248005340000000];
  pos0 [9555893845760890;427044523946882727;387739766567148023;233318018315000000];
  pos0 [11365173965707526;296310817070935168;41380002649684114;689640053350000000];
  pos0 [2551654559989421;468371639335543713;897142028087379158;755234986285000000];
  pos0 [4342924600561707;62651698723307634;171406221541666308;795942711218000000];
  pos0 [1760743377057707;576732884801673615;763318365036849680;727169170559000000];
  pos0 [862663520545363;489326564881602440;949333186750463338;522477561697500000];
  pos0 [12963112883261694;399921535491079910;31757060598111966;592896079600000000];
  pos0 [6245575933752215;804346762629407028;860368468165603974;958950488001000000];
  pos0 [2178566573977348;979929097353054539;137380328180086720;666197362813000000];
  pos0 [2089762592294767;570878490415204132;219885978487095053;789684492623000000];
  pos0 [3015808244505484;414632485532339066;742162075101165192;143580065452000000];
  pos0 [2586862899750412;815592966180606141;704758110302814024;434049229614000000];
  pos0 [5060441922324747;444160457089569155;308838597406741098;489406414425000000];
  pos0 [871137900106366;851487689677769887;480626493143442889;543380222889800000];
  pos0 [645357646086357;866167984915041363;916911721643139765;13259119502800000];
  pos0 [8965800965574891;820726421641594919;5674703938028001;941062114200000000];
  pos0 [5129778925447668;800359217859128842;106257230831203530;527661146816000000];
  pos0 [9032791108007324;478192164137966483;316950412765200712;546668505813000000];
  pos0 [1196196799320896;773720667782947763;409746615630661951;217281149313000000];
  pos0 [683800630574788;992665095569283287;778286053124365059;753558693721400000];
  pos0 [8195883062948429;102471016914729252;15442979085394021;936944343291000000];
  pos0 [2220643942565266;426877723458767710;931429782076632317;857876813454000000];
  pos0 [969743704188477;796149677510240264;336618212254405704;447510146335000000];
  pos0 [12007295817729044;271519078702229140;396266666064425300;260656987930000000];
  pos0 [735934292661628;1961364192507517;183498735997309170;668169556735900000];
  pos0 [9199920254684937;463560571546129837;969427740279037218;421201708976000000];
  pos0 [11980648468075361;303512336853925342;364348740823267543;493827309670000000];
  pos0 [910906197371410;596587914427586483;89468036303886539;78154376426100000];
  pos0 [4624639407906879;798138583211644145;11741728541850486;530259939602000000];
  pos0 [5274029458483096;667063556058110409;503385348387090060;513139236549000000];
  pos0 [1100550090547387;463652807757287516;450564249238171675;427205808037000000];
  pos0 [3174175645303811;914226507409886919;901933823633361642;687163047486000000];
  pos0 [3647041029634499;416641089340272726;925522111511985391;7352814775000000];
  pos0 [5853403888949752;425402398869377325;629285813869233951;971425614358000000];
  pos0 [1942913358897424;405520161878610551;971561892663615998;311954848901000000];
  pos0 [5507380680976306;577477435362331822;726515138788162766;604001233460000000];
  pos0 [1346330517157690;982540965034052331;209531974092264847;702899733089000000];
  pos0 [3029919247922013;500974232199942162;466014136880651669;723563172119000000];
  pos0 [4521997974824701;569114357415689476;480554328100504516;194416455366000000];
  pos0 [4043742333603421;87065407863267174;934487997771094015;593333979444000000];
  pos0 [3556164789605407;77047820913243347;620573221999107536;313880037037000000];
  pos0 [4993247339558133;509345172152422188;708502307245201524;900835133560000000];
  pos0 [5830660528553945;107377103155891062;418992644659501668;568497947410000000];
  pos0 [9288963006885027;648738447908657408;317623692771167280;216042047405000000];
  pos0 [6063022833595364;790924200145665026;933614397605790674;420975360181000000];
  pos0 [3325897923605087;91161658218007763;103344515995038902;278770649812000000];
  pos0 [2815616769970525;329936127840062222;755829239254333499;457017741705000000];
  pos0 [697242926308969;331807620403028154;379959404715502979;256820185629800000];
  pos0 [3263066941814911;578111014351514106;208585139923083678;951060298176000000];
  pos0 [13330102890438977;315488684614988307;423056596258135465;363527682100000000];
  pos0 [2408386208187212;934761776291532039;458925614499910381;815620859606000000];
  pos0 [4699545732914226;658220906742179343;722170990644013507;275245981236000000];
  pos0 [951993998220364;821669417103031213;521232681795298551;985153718153000000];
  pos0 [2803222719809435;972415816800464382;148505916274480024;251604402255000000];
  pos0 [876188361942986;374322471687529281;995620144380099732;774685364316100000];
  pos0 [10642545240691064;65350186147029936;469631402862655662;37748492450000000];
  pos0 [849838561163065;118012824851503399;344567240635424927;836980923913800000];
  pos0 [2268901035795479;957573854206371052;878205141091053321;426425230332000000];
  pos0 [10044047311446247;528496765709956895;496557734530435112;895089483120000000];
  pos0 [3862812445424578;650717910275129529;258404527826526090;856459399885000000];
  pos0 [2553935928427639;771965450101901286;4825595063766653;769823726699000000];
  pos0 [5089622627509436;588185126690369694;686028310544752562;716404978172000000];
  pos0 [1079651007475946;516111516613797450;750373394948002968;816583845869000000];
  pos0 [1187209937270038;438334943256257784;442669680409592415;24907290343000000];
  pos0 [3570030511045138;93450649217269962;808026710505171031;302462051439000000];
  pos0 [15801985739867195;320186937157719462;199167698672293203;832071872770000000];
  pos0 [1437133769130581;380326772645776222;436051367652738620;674476344254000000];
  pos0 [2434431653155669;379823570550872600;269586564615915054;803221014757000000];
  pos0 [963279101805894;398923898011640302;942607626245056948;452812165762000000];
  pos0 [4105295601316544;623907036929489056;530024098235552704;958481211987000000];
  pos0 [3901214118656230;451558756760867832;405370660126391030;519383980732000000];
  pos0 [8387074812620188;810673705376779097;904009329592608572;624332817916000000];
  pos0 [8104803272073645;617546428300658499;805755739690398706;396640728289000000];
  pos0 [10787289204547530;412678080728585930;327580740835873251;294019008070000000];
  pos0 [3539408493577277;632585043003279276;267446274291411716;36846918483000000];
  pos0 [5584130446769978;246275125420882869;41187954595082859;402004025279000000];
  pos0 [2997582504062516;548700417651182580;781476537769704522;198301164204000000];
  pos0 [1351015026860132;687835341841941375;168125292403712950;723728419977000000];
  pos0 [4642573252519429;234263672049036317;301892238269828350;371900599520000000];
  pos0 [7724689465449649;833777105740045556;172365228373762460;389486203336000000];
  pos0 [13432052820967869;388506650887057654;814755180124146781;179484206670000000];
  pos0 [3088573647500701;929328734032772466;189538433113705559;123182809166000000];
  pos0 [8241143299911818;524043032416362825;709496121294306215;117465773816000000];
  pos0 [6236546875747804;604339096098667997;662948649092092324;538693519779000000];
  pos0 [756828077138792;355141457608036878;83299204851552895;666940596506800000];
  pos0 [12058010896321723;134760325194658732;788250475967325991;58631383880000000];
  pos0 [7212159881278318;322156089631216346;758831567402813573;237180706194000000];
  pos0 [2062972103329897;330358953334617086;15866216371981151;641589642471000000];
  pos0 [1030897124110867;160507873433602732;858242493040616409;825692859293000000];
  pos0 [4922683058275985;85695393274065492;875785081547045380;375419973259000000];
  pos0 [8425388951623545;178876560961582060;513986159593336212;244268014396000000];
  pos0 [1252948403805796;803775011658526102;920132340422888851;384705117985000000];
  pos0 [1612505227811301;355449454568828372;329245375965501355;3198870405000000];
  pos0 [8158299038197750;127839048358116144;982509502563735699;925498098803000000];
  pos0 [9211996349105280;583856145118209746;417353000034060226;984917720395000000];
  pos0 [5250065932168257;976085821777533229;850893119751517158;356126030934000000];
  pos0 [1342381067128889;218062602613789162;292050810231532257;514034299255000000];
  pos0 [1267039862502019;820046907264784293;611458277215076041;714430128981000000];
  pos0 [1510937541961516;436301744984033505;462018011058475620;407477628367000000];
  pos0 [2091567275015637;638518517745641293;161647482623290528;143807545869000000];
  pos0 [9710714594056770;948289065180934308;491250213199579482;495304330023000000];
  pos0 [592229752023637;139322072148092038;85249147513848078;228866095072100000];
  pos0 [6995957583788575;851533403103155317;179586463590669127;39090473217000000];
  pos0 [5942191916197198;648210101277484262;838657051609289561;851099669756000000];
  pos0 [7588546484692812;288548073774899503;848084686343622319;516109993956000000];
  pos0 [2018336111020516;6902646833749266;615018517860902008;424705837139000000];
  pos0 [8785075607693022;64995642863716893;958664454262416407;902982289377000000];
  pos0 [9157563268119343;140183771491351705;560595998859441673;671745061734000000];
  pos0 [2239175739876974;436684084770323099;362550694699697349;549906663995000000];
  pos0 [2491980938774911;525700068256662004;460793888378368732;737161607228000000];
  pos0 [5460143728311229;475123510280506858;567936799214263362;123023378290000000];
  pos0 [851001984541276;463397893578029967;189206100675089567;633875792400700000];
  pos0 [1381642204670235;440994735873086476;736029115631800355;237012500817000000];
  pos0 [2204516792188040;477599115531619935;743078470977337044;807849191225000000];
  pos0 [2674964897858329;373424265740911033;102940149508751507;861606024987000000];
  pos0 [1744916063270450;363962337278422020;954374871352047524;752003783157000000];
  pos0 [1106745855227594;693948457694933068;220548921665380579;856203138225000000];
  pos0 [3365976801506138;183628662355469981;777059349117208509;939700067459000000];
  pos0 [6701334517411695;72601511325634735;818994953911487934;138040335515000000];
  pos0 [6587495950883018;45237663547486664;725493860125490296;880092224061000000];
  pos0 [1771425005160162;341147294898979385;104538298392929209;688068808526000000];
  pos0 [6640500095856167;326024207057083653;161860917074552378;693411300256000000];
  pos0 [6699727326119133;964749979352420063;719777421721861057;764251592088000000];
  pos0 [1109148978067661;294696926883953627;3716559888547534;135671962320000000];
  pos0 [12618144005929623;937918280385689317;409930315954092083;231074882130000000];
  pos0 [4877974792835421;859946434010393986;303875431330973571;300831488316000000];
  pos0 [3134907781890950;347988531515462301;594951300269498929;812560174788000000];
  pos0 [4761952014694131;974279346184878881;247024192548432978;131372811423000000];
  pos0 [9412873489607134;413696524060561844;713551274202082813;602541435435000000];
  pos0 [1635654556075609;625967791293982805;710462020573315307;311085933398000000];
  pos0 [7851158619357932;118344571573650292;451679886454513737;418072200054000000];
  pos0 [5175158179429429;823787181948877451;382922615277604919;779701461240000000];
  pos0 [5688642812156178;96274413368385220;839986837372769420;726092526853000000];
  pos0 [1968045897115115;5387801803309530;35760450503192408;242140360814000000];
  pos0 [14750768198135140;362333113129982642;866335896486519313;246795278150000000];
  pos0 [1758023024351833;987826506922736454;960466777733058257;147434196251000000];
  pos0 [9874428366382120;923828490658043266;24519494015178344;243148080866000000];
  pos0 [2946828856968204;709928253945725878;241290897026230798;596988941822000000];
  pos0 [4346626874626566;28566186659427282;860317615981139535;844766188735000000];
  pos0 [4234555400613262;313210931122645463;667323756685865155;343543734994000000];
  pos0 [6516655096301793;611261947572102564;106711802444949596;263940321728000000];
  pos0 [2294686329357263;826599232519875269;308284984494579305;563066052286000000];
  pos0 [1586242490535612;27600282324286025;303097720320132548;902256537190000000];
  pos0 [3172020727126507;138491257988689334;708321952103069435;423371436445000000];
  pos0 [646546700598178;631647966096666870;512615081535520439;407170959744300000];
  pos0 [673345842338381;347929956567182857;225058478341323239;390352787747900000];
  pos0 [1889742082263662;23112072535039328;875873865590022773;913368286938000000];
  pos0 [4190769422185754;942448874519821480;811655689839265065;424078914084000000];
  pos0 [3883717266467965;447180779869001016;597245543341436237;657219644716000000];
  pos0 [6797643084003488;630765917148458461;368549253985021135;277025632016000000];
  pos0 [2266769797793616;354877690211399620;309010946014288921;44299738023000000];
  pos0 [2255195757435371;847705665837556889;210482162322314526;942594576602000000];
  pos0 [10797761688202185;239651563614422168;98602958096158035;53604862290000000];
  pos0 [13494991436357974;30268058389686630;438566727189208947;127049380710000000];
  pos0 [1658952814057419;443869521156554273;99849223984668564;154616428709000000];
  pos0 [13621801645488699;700930295483837656;996082653506757508;879232586640000000];
  pos0 [7986803570994515;52121713313008746;182081979032131500;522713887642000000];
  pos0 [2788838303840560;546963531550566316;987245404109654156;730737903773000000];
  pos0 [3170251026336861;242136794134467;41598037733116463;778400708179000000];
  pos0 [2088884346098397;1193955811342690;485206636186977705;653924741788000000];
  pos0 [1799301346231207;606739249159535607;654757565715803767;360652761243000000];
  pos0 [8272109571646415;510218873996829917;79377135775853078;174073787681000000];
  pos0 [13493336008200383;228698978626009056;184714511949339410;315161692760000000];
  pos0 [5232594663621721;93321880861941947;35655755090750110;705561955579000000];
  pos0 [2748796656217003;55114160961746482;816820070469913491;667617020736000000];
  pos0 [2038278879576294;218028552931778789;702031959021258368;197897641014000000];
  pos0 [1756384390467258;195177440104631469;386589098755784146;337601717099000000];
  pos0 [3736829558465618;119978838735989845;750745276548082777;765387512341000000];
  pos0 [4538440910238359;989258207723548026;831090738108395948;822284566754000000];
  pos0 [8036781056505146;307471210749255962;88257290028209659;563707448671000000];
  pos0 [2688701262344975;191603449187224698;92095074278200612;769510403133000000];
  pos0 [8353076838492788;851058714509397626;520872964737025838;770602983445000000];
  pos0 [4453800707077988;558693023257538942;114373175367817915;312741835064000000];
  pos0 [5436312736023179;774751461989571919;699918629935634253;652612914719000000];
  pos0 [1472025475959041;247087842974391452;594556093862521596;401561451548000000];
  pos0 [6130601056359508;254990928571807777;190898825526292535;85428861821000000];
  pos0 [2845296020940792;797278347528288238;802775973680647892;669906563266000000];
  pos0 [4658618004202648;95798186454077009;103627989540812627;271683810657000000];
  pos0 [3843350644637568;568237599142106578;243313115388287595;28773209984000000];
  pos0 [6940995047471769;129889523254595097;280400281937325916;834972475283000000];
  pos0 [2679049792630195;996848831476337079;408086304080099806;268776215012000000];
  pos0 [5506989544300104;818555894731600419;863384260764754922;420357582906000000]]).
(** JaskowiecSukumar2020.cpp:4028-5016, order 16. *)
Definition JS_Tet_16 : raw_rule := (
 [[pos0 [197767052707066602;737007852229801963;263905572268400978;303944359200000000]; pos0 [685706572689394005;686678479054147664;799453602041254295;424035871000000000]; pos0 [51800585987619561;337207450522417913;413468986584185595;699069632790000000]];
  [pos0 [130162240170237424;307660264766988586;346578300945471600;709805214400000000]; pos0 [437346191216900363;462680031973547520;763090085714283138;120441906700000000]; pos0 [425965750393640862;130743350436212809;879644247118691503;347944867400000000]];
  [pos0 [248151500072749764;400831049853273867;950175068763072093;706898545900000000]; pos0 [27227655362681492;461595215639472898;337527436173964005;471675199270000000]; pos0 [237568880507161743;430106964715021697;460262718191062942;900502579400000000]];
  [pos0 [155332183962761814;578954931646161909;466817991358067005;176442076500000000]; pos0 [569771484191008553;736424135038217664;624774262007346240;237844133200000000]; pos0 [15501158608587416;52136091355820089;272036242866972483;415168099540000000]];
  [pos0 [367318173693878349;161426642534471746;100888393878769996;796786800900000000]; pos0 [525808749533400586;98796883692372036;346904650987212907;520695283900000000]; pos0 [45958938042237975;156694928037955510;843656221869891585;367184194530000000]];
  [pos0 [233913565752482021;646332184600090032;161648215304644795;473654024200000000]; pos0 [256846844345278398;584183294073039313;129924880109137381;918464038000000000]; pos0 [416735554276327274;727252115076012162;647971030274741591;217650150000000000]];
  [pos0 [100952837018008636;848811173328271267;422063657043256867;964437171800000000]; pos0 [785066649061726442;425124857184416812;156232304886431542;967211274200000000]; pos0 [100033922930115973;168667628544933424;451284418768414450;175025910400000000]];
  [pos0 [248487104708551687;994818812687953713;807256330216017545;265030969500000000]; pos0 [158006751772824179;78437597036048120;760981045634880363;890356305100000000]; pos0 [82368252694359492;318525256460545653;625209908473516247;512107727520000000]];
  [pos0 [294466889491170166;760165864235266512;115397588332644446;643794203000000000]; pos0 [153651462013198184;912828518228382578;855091540289593711;49163441200000000]; pos0 [500707421761442248;653275764845296209;866523308032197513;184726396100000000]];
  [pos0 [332604090221901679;154429977807679263;744962974829626568;881926357800000000]; pos0 [7888519715475832;521509606136836556;13517623419305981;695516478897000000]; pos0 [258971025109169393;27189329187827854;201123161605218780;797109277000000000]];
  [pos0 [138679104091956328;420376646794737820;661894246734383561;1393404500000000]; pos0 [257156330966570567;331185410271146087;999999626981822564;972021523400000000]; pos0 [586605504233691901;467820042029749638;919178910889421098;273508690800000000]];
  [pos0 [18746161499891198;631399441852136580;434591540387570691;825503297730000000]; pos0 [469506952036331002;257988710380875718;478201012316232955;236973318800000000]; pos0 [13000197918056518;76701838358060481;479192438983546037;92147379680000000]];
  [pos0 [573414074753967285;896967563213253551;730838876460401046;180455215200000000]; pos0 [78479726231333761;563316546200373894;230573883865375966;321639404590000000]; pos0 [333300267570019483;392996166319604001;817417508342834791;1522623800000000]];
  [pos0 [71062926573408736;255240697422500020;557134678624297697;710678556700000000]; pos0 [160882501833631780;409340991006248072;37539423310971780;806163809100000000]; pos0 [191958072817144877;784467897493071911;560760230276465176;656217436600000000]];
  [pos0 [176048432184453959;649974326055899434;177163027859950212;15322298000000000]; pos0 [125073980561990431;253137038361386504;597271006378707522;462398822300000000]; pos0 [402446596703398922;361423117358579105;751748286292896530;148134213800000000]];
  [pos0 [425463762307126622;975823422656994516;313256409844550068;110387914500000000]; pos0 [188422654569261097;753320646366171748;927458916802416025;956338808500000000]; pos0 [370588489633740587;613705020196051939;378856885062308348;781514082400000000]];
  [pos0 [67162406791144722;911017444533650507;967249116222501574;334513315320000000]; pos0 [310740502969572828;275392250948965197;254528656979844931;103361174100000000]; pos0 [9230275305652723;583908291724084144;718653000619648951;788413097300000000]];
  [pos0 [80145882855664663;11844438111116860;48032022769976847;748990762510000000]; pos0 [4290626001659389;970727690710790034;325379321980739465;711272537499000000]; pos0 [864578529536036232;286360969330781396;424972972862673144;755898730600000000]];
  [pos0 [468619838518865631;181309753867050505;110626099839554668;849503315900000000]; pos0 [440805603006333684;600005705743747192;587089108238911339;489652420800000000]; pos0 [5836903863252539;275397324641699658;303749305740701131;491537591763000000]];
  [pos0 [34493301992469528;166201779358689389;364564029934189986;317072308610000000]; pos0 [609272256788291179;909554941328093149;881880993976872369;750958276100000000]; pos0 [284046239435631107;123462161951923191;787365831691296949;12599981000000000]];
  [pos0 [254860636457835002;330609861352481943;222107444188431285;837958459300000000]; pos0 [481441481699423937;173590381642751110;882554612565052870;922373937000000000]; pos0 [256101014426170117;362380777965113187;139340813437422369;167369982700000000]];
  [pos0 [175246263081129429;54827136104013562;4272987149221770;29072903600000000]; pos0 [130673671951365062;807212618500292287;516710899057775167;244186655400000000]; pos0 [171827152697710824;492404537188181303;879460549089993219;741028632400000000]];
  [pos0 [59473588040162853;509163721716381676;601800914410766445;322911487430000000]; pos0 [8775632332373652;946909377989739261;869005289004827639;327070994952000000]; pos0 [10303276426934726;16054302021622220;875361857780693834;454451859860000000]];
  [pos0 [588558957982919356;240113092399541028;737189535888243441;342648541000000000]; pos0 [178908056445968888;27482468962932680;771155267795356643;16005088900000000]; pos0 [214923886694961617;86891052028461528;770034201920251684;133308101500000000]];
  [pos0 [204544608693712518;374841479589535257;62377328044821231;70328042600000000]; pos0 [45530125266372223;269532141188574976;550494616695476975;582288558330000000]; pos0 [485417887080285128;57497909377194413;696989214119103143;831309483300000000]];
  [pos0 [9756776966587813;860291422013198838;274352448593258588;563190640821000000]; pos0 [352292746663884563;893982549281605793;23347938086556322;841821441000000000]; pos0 [94544009470426676;845406862739491993;32444042979004138;285005498560000000]];
  [pos0 [65089313974927671;296695127172559205;969444375336030338;509466147880000000]; pos0 [328185027433597279;190073824669540932;169211111312268894;553898198800000000]; pos0 [63095173497661297;511255624192839873;2068543348279656;703966386690000000]];
  [pos0 [73401116395495;743846868331506563;784887686922920571;710091944182820000]; pos0 [661898291645864682;766803211224790953;433485544862177509;611390668200000000]; pos0 [89155923821402570;827003149824781810;679846467818328140;615386163710000000]];
  [pos0 [40146695552559952;819290368339025048;122560442534491650;147862104370000000]; pos0 [422286559689742777;890308580720182511;391209425859892702;766716755100000000]; pos0 [474158604501490617;895379507617579893;174279441844436052;34665206100000000]];
  [pos0 [486105917199346;342372372971753887;896204394619664932;386081005619600000]; pos0 [164448043912286910;42989040207110814;328030787585731519;580027048200000000]; pos0 [8391423999090982;923178590313799898;649939905689844172;583227719695000000]];
  [pos0 [396579665181866574;113511682088009611;126164550017494293;826943027500000000]; pos0 [82966386323051222;306558137593473242;944387072342228994;254816556780000000]; pos0 [512485002134434392;604003353046634623;79498308038989343;728043905000000000]];
  [pos0 [56796829188874716;801487218140500685;86205130217168237;548783323670000000]; pos0 [629302754579604856;183254181583055324;920226064295903159;556733497400000000]; pos0 [266892171102496;582489498285933695;234283703707140028;335451012801600000]];
  [pos0 [9800593135275570;720483697458745794;879818058648621500;593265228610000000]; pos0 [1631133033407851;81393348917119998;110671202970424272;734935076370000000]; pos0 [791678207939377447;446580664644478882;258493154267384996;384493444400000000]];
  [pos0 [120217401142676479;255405364745652835;143330676136067326;965290019900000000]; pos0 [615673345626029097;392495935615366750;191361213488649241;434486256100000000]; pos0 [247861674699962064;998333817697736385;660649197391625914;154253644000000000]];
  [pos0 [947097944486798674;29885441750353861;21390985967174610;306558059700000000]; pos0 [44945868661442201;438209958675175233;411697561981206939;906132948790000000]; pos0 [455400696363307;930384916444766761;540575213754611207;605804582754300000]];
  [pos0 [815164305557857705;67356919410819830;494882306404589049;282626745600000000]; pos0 [6433094819694760;283259636574266927;130807396656126442;589670842981000000]; pos0 [178316785584121415;682411852544838516;606173883482955583;638209428800000000]];
  [pos0 [40401815382736753;821336421606173335;481131878168677004;343002677540000000]; pos0 [326662472718221885;841548215624736066;482211562011556467;152273164300000000]; pos0 [310802650300017552;340789700073180764;369530660466246576;827856924700000000]];
  [pos0 [271038221653568950;17014247741236660;404343464153213892;564343493300000000]; pos0 [726604091489466938;275993760802202231;783364169378719889;86151529700000000]; pos0 [1942883653135390;114941496003485242;358536260419374562;29330544518000000]];
  [pos0 [365426813666929552;511860989657976527;34504224263386;396412570500000000]; pos0 [307498978774353728;290757486496300687;67565632946876677;608208971500000000]; pos0 [266347857899158511;571647758828656122;765331030295939040;549884678700000000]];
  [pos0 [18003185980105673;242693095956293783;851004723160955966;405766299820000000]; pos0 [16624597988841256;809888507971496265;184697506514039596;509365960010000000]; pos0 [273219917909659716;26655279464947464;362910686101236751;105898695300000000]];
  [pos0 [296297559956047046;48914230022971777;96670609860796903;465231676700000000]; pos0 [650025157864463924;569134206501008988;729027039862653957;567334698200000000]; pos0 [39741695274155017;640718368404940553;565478146876967108;796597788900000000]];
  [pos0 [91650709964910047;234754251531425040;322180223931772881;159575252580000000]; pos0 [415841704912176434;888029023469936248;337638967078915547;562168991700000000]; pos0 [221708865774350801;240035273149495314;526662759375628963;339762236900000000]];
  [pos0 [442943323970681758;123173742266822263;275620556421006829;948549053900000000]; pos0 [157861036220712751;537724371045410263;651800501819302502;791258615300000000]; pos0 [197984980692699849;801992027990991759;658495595205808472;682894532500000000]];
  [pos0 [2537413073156058;465235974039413787;771077421827370215;654505583459000000]; pos0 [342308193295789527;176599016355769254;576011961445330112;515495869700000000]; pos0 [224465930726814502;454961858938962273;522134079087118512;227035969900000000]];
  [pos0 [399121848146513469;847728592640578677;451733857531916411;61052214300000000]; pos0 [492743628105036316;604443807528471601;67840783680158558;453617382900000000]; pos0 [105566667419033240;601820881839995050;612259441464663038;679908054200000000]];
  [pos0 [139013266474328284;814000614704326013;425847069611079231;583707607500000000]; pos0 [39693464745291126;866606569404632882;497175431730362847;214773747300000000]; pos0 [750432373833059142;864075900694568994;750033560924417292;727833471400000000]];
  [pos0 [231970356406075607;529748383651774166;228451820656163585;567353917800000000]; pos0 [73286228941784498;108264162341431385;714402859814412288;581051361610000000]; pos0 [676067114094160743;375538618024739746;559864862506837068;736868694400000000]];
  [pos0 [61709649917002626;624231654373407646;60296828726795601;861354923730000000]; pos0 [75165255241588173;910718826897561450;442921738363234908;648641394440000000]; pos0 [320913896397986045;53607763089417090;243159779263667474;197428387600000000]];
  [pos0 [15935226837067871;150758085709594053;738766994115800800;568505614690000000]; pos0 [79796457630970790;372533617474517486;67164343470909541;604177367320000000]; pos0 [619073599580779415;703435849104756040;352871628303291375;246517788200000000]];
  [pos0 [20887667725536622;761710552720163257;41080391533426638;992155194710000000]; pos0 [1149277830744254;678260443194821415;718587940448190551;621945096015000000]; pos0 [48591573496652734;9234586311540891;780315554536284250;783591895570000000]];
  [pos0 [14373595946179997;407213222688137676;175840831733263925;458102490240000000]; pos0 [8024864895907197;961122688039288371;213036013976565571;760716474863000000]; pos0 [908690279351762633;321006299180718911;120517643658434314;425808333000000000]];
  [pos0 [275560411920121703;40550898301306836;800726955945957008;325170528300000000]; pos0 [489825530102144375;103404485692818392;874279303874969415;522173897500000000]; pos0 [96708831375663002;871636493175886978;501644146261279337;610013720730000000]];
  [pos0 [507123709309405547;682963384702317260;573669263260704178;123891705200000000]; pos0 [314263170178526264;323916573833186107;842727673699997292;540624539100000000]; pos0 [139097021220942014;599009914159934374;115553024445195370;677728639600000000]];
  [pos0 [30292469640531379;815815604088747889;950209447966873443;325335556580000000]; pos0 [68563454819962623;731120845170275587;967923370355058170;467527226620000000]; pos0 [12845856120454023;460833066224478625;11301153199750175;390404361940000000]];
  [pos0 [4589957011234967;27280635236587756;843429262449216112;462733902100000000]; pos0 [252581492075378525;945560876180236731;797977272675507059;402640744500000000]; pos0 [737786989263727246;795416561771452543;405951837734069531;590504178900000000]];
  [pos0 [154613163957270271;936012892451418670;528959462630958191;775580255500000000]; pos0 [178648339549509508;57462569901408795;217768439247965436;356603259000000000]; pos0 [490180933750425839;177157131461161822;480142366959206707;737973572800000000]];
  [pos0 [86497763185481038;514623575166384308;494078872461799149;717372690680000000]; pos0 [765047840191520597;662484674977978138;918139480524353613;712290315900000000]; pos0 [59473849010200275;11576238786580069;279767079042088941;568987807940000000]];
  [pos0 [152608096453089681;302787778552953525;267765297231341333;987994166000000000]; pos0 [154903801509666346;556635687579187947;317965736003426842;813759213000000000]; pos0 [626630511255953133;619676118510999520;653535163236117451;366731711800000000]];
  [pos0 [150390374058910696;962889392545902466;224615419768354483;491655697400000000]; pos0 [811591039595791465;436922321279195123;467619992234294649;294897850300000000]; pos0 [24019688188159472;270680270387651617;485018969599201454;869988142470000000]];
  [pos0 [456626885874874674;316795582349244416;381289449474519232;640947717800000000]; pos0 [61662974359016001;905353996449665517;200463105019162769;562412158970000000]; pos0 [958898279735510;537997581929505610;921742621448645737;731869169614500000]];
  [pos0 [19768192926226262;611238796188247380;230672815030780604;456476251860000000]; pos0 [115021388076921643;830774894458507151;270178230389952619;658561465500000000]; pos0 [853051210033873864;571221656623722317;682691973849081333;673463366300000000]];
  [pos0 [75706837701583208;220242886902141751;46821218961822643;778095987020000000]; pos0 [15056066616958336;286668666877078829;307771919144257104;464826580740000000]; pos0 [756963728278485385;443382705776328468;640575747696520137;92932262800000000]];
  [pos0 [485566243149210013;259938740557605649;534558490463908574;883497856400000000]; pos0 [21747751255396825;37189784560929735;182012338557772778;276623305650000000]; pos0 [174827315464297879;55010665400199533;673575860022466541;658059705700000000]];
  [pos0 [178713455202060535;795695622870905672;508226092862688405;609535899100000000]; pos0 [338122708146736473;511181637816968519;735833860806672128;190182579500000000]; pos0 [12805546009953341;545708424041704236;541970405538948825;325425960220000000]];
  [pos0 [312458254470490259;75487130605866605;92721303520298363;317480989600000000]; pos0 [113343894531699941;743878112884694668;887675194699332127;708108664800000000]; pos0 [414363182301543984;690405978246003091;77757556409964503;936000883300000000]];
  [pos0 [472302833320465458;629458106363857315;716703282880163809;362580747100000000]; pos0 [502761880174944264;795225671534739824;315886191832233245;946071045000000000]; pos0 [15572886110270033;116958546697562636;657187031216901355;180792695600000000]];
  [pos0 [687827266787437747;775930087159040642;517678383511211603;27401544800000000]; pos0 [288850518223594790;56477588231863920;166784865630653052;447071822600000000]; pos0 [17333451069000742;946620866646098585;781385982102982272;295528094620000000]];
  [pos0 [136816606176007517;33336219633920187;874632961203908121;705689580500000000]; pos0 [337857070012132177;330264389763008158;641164646291501968;143067842200000000]; pos0 [473700578274800883;353319543958577116;601085598269303039;14825838500000000]];
  [pos0 [51014409585912320;92744771196167984;23625080213998176;883713123920000000]; pos0 [70331648105466283;359303025577513800;40934865575732670;430667593230000000]; pos0 [179894384798059331;564060694041839901;20672650086722115;607924994400000000]];
  [pos0 [528600279640006678;228474822028626917;596745745907577641;935545335300000000]; pos0 [92119211768173233;837575199469994558;947833301406308752;506479584910000000]; pos0 [74961836692321784;484762685778178107;139860882972381562;665066056420000000]];
  [pos0 [404188759099451613;391439751832220318;687752772636142947;429628592500000000]; pos0 [87776974063492571;293363919128220274;811195588482563280;386939692790000000]; pos0 [171015916704923889;742794829156637874;312260816531444504;300415562200000000]];
  [pos0 [498601657859417463;63092624265539145;700318362752629752;499980926100000000]; pos0 [27204014774894957;452216408569562297;340316943614216188;806277809770000000]; pos0 [66264399828634333;43914490987549467;231441277515378678;722447432440000000]];
  [pos0 [879440168967457697;312056931924823556;297084839951039508;207720453600000000]; pos0 [54338207242618603;681913110774997147;239886725693671714;908455966950000000]; pos0 [55543618818090352;878040583422183703;634360751617373562;407861739570000000]];
  [pos0 [208450772440116751;197617702412879060;929889295512105113;591108251200000000]; pos0 [441244320584017001;190083999945300913;916692151414976896;567886357500000000]; pos0 [48582562591166158;591599357803451267;231880354620853339;201328281290000000]];
  [pos0 [74669545989907675;178153605515347515;175288507269494257;700210637530000000]; pos0 [704463058321649652;599736531935927739;804771674254381465;807266656500000000]; pos0 [151548044191415575;259720381734450582;470612162709134213;711220979200000000]];
  [pos0 [522161429716864964;361039554464875598;373803908394745685;95446281100000000]; pos0 [9111560549080602;917029781467557102;660868804657423464;498141904787000000]; pos0 [18124255475966967;361696207884421685;667108184784053395;359950924320000000]];
  [pos0 [814902950453944904;234166314465827992;863226025681830852;991195884900000000]; pos0 [152383435713009309;3797102066108154;516035599863095212;835250964800000000]; pos0 [19312918096889846;880616686186008890;148032302191506499;317208081190000000]];
  [pos0 [9123085900007287;654406594570531742;578835512379104481;406833451564000000]; pos0 [310586586329678857;261021295308714398;47456084667301743;335582443600000000]; pos0 [20067251850427225;835262063050331467;11173017088930955;243976452850000000]];
  [pos0 [202981706192051765;136781774899219717;138848069084045530;587133508700000000]; pos0 [10344389446456863;848514528864809940;793944000371351746;637077313930000000]; pos0 [630847131604766525;980864858633244651;269720794253234068;587328433000000000]];
  [pos0 [150096328209107009;891447220916053385;241825143952434593;802772731200000000]; pos0 [18706762173465457;272965180045816637;615677651061809207;459786092230000000]; pos0 [823258055888942923;775418916399611239;47192196974932596;638360332000000000]];
  [pos0 [643256992466793692;111851852583268098;409769606754025287;391160800500000000]; pos0 [14410194253018222;825305606808706174;446621251231662628;949647498580000000]; pos0 [327911112168350941;824050319572723861;668979058350902247;859124442800000000]];
  [pos0 [351603630103360840;883415988997648243;631657999228534880;833490989100000000]; pos0 [23441193445300400;351405065028477050;61997480870187889;490234557190000000]; pos0 [461049446932206314;831128969302034776;188466661550121627;480883996800000000]];
  [pos0 [62913178296917077;380467570525745663;202714034485129972;291242533090000000]; pos0 [97941037381289899;533840396296928588;743534962433739120;306822024030000000]; pos0 [758410593349428081;847365479492420631;760306817018129070;284700357600000000]];
  [pos0 [718649598757160271;218501129569125051;740307437539120299;810495024800000000]; pos0 [132768421360661997;747088117768705703;754021583180846693;257628839800000000]; pos0 [25164435034472454;87216364343344698;372302915606573870;564904441270000000]];
  [pos0 [44084492011931125;913188335445888315;64410975076360828;627047776420000000]; pos0 [179491200417971182;726833069785063732;737130088514985970;739558910700000000]; pos0 [17807848750070528;170448384703187786;457600108460397022;366445551900000000]];
  [pos0 [32448221638227641;488294345556369396;469512472793012093;199032572470000000]; pos0 [456697717525866;316500987491261571;182618616075519844;68188098850000000]; pos0 [963825657102067868;696524537641423486;968997938629735364;135402051300000000]];
  [pos0 [352197502990103556;440549383127528441;122687702719645604;101072452400000000]; pos0 [458132658466965252;712796786115546783;544211632202638976;519130227800000000]; pos0 [17262046285061488;231300258492489289;586402124346155685;835821056540000000]];
  [pos0 [15255323316543663;822078967135905102;269616602247858912;55238382280000000]; pos0 [324144040403902507;504761431759514146;884649820782161193;470386352800000000]; pos0 [501446929629104585;704399933335494911;300996005296820282;221295428000000000]];
  [pos0 [17228282195250532;129802261034970931;886140504303038693;833468119770000000]; pos0 [785990625583085892;877124243040638748;525905552570896229;396767088700000000]; pos0 [16397062811275702;32599763928813968;401471028979139393;17776864110000000]];
  [pos0 [576367079884784180;337763148080406817;174398350029588954;940418018800000000]; pos0 [275723625706254908;927866968497360816;462918540923607;180050980000000000]; pos0 [14360780869348039;725911482733941052;239230178424234000;704471618460000000]];
  [pos0 [10791407981942816;311363198571141902;792259104036181089;105360381590000000]; pos0 [852115832681148368;688298585092866571;892131257893826302;49061617900000000]; pos0 [52048496401056193;516267635792960677;986853022060684995;321968356610000000]];
  [pos0 [15294898921257550;623650317842009700;938797907646157928;325276827680000000]; pos0 [78525065317934697;302109855583367779;768014372620418242;195029393400000000]; pos0 [462205649484256648;920438679411083883;449501839707926559;286167472300000000]];
  [pos0 [339533517264299379;487588301795980807;6175808779755777;118020521700000000]; pos0 [223854528456871799;653988611816639554;859885867971827846;23770538300000000]; pos0 [615877277266029;356753073020338028;195459531325956742;915540234037500000]];
  [pos0 [8560537663256436;795708157507048965;362553638286310503;182177265421000000]; pos0 [644100577663657116;787304490285736488;810880295408825548;755310487700000000]; pos0 [15536718728896713;602351418928309491;947030396744786139;441221669230000000]];
  [pos0 [739209684477040914;242359322182559617;871675339287429064;145146600600000000]; pos0 [147220833868247935;17864555261157636;625184678216627788;555166969100000000]; pos0 [96587281625072021;780113090993806889;354715230989883118;529523068570000000]];
  [pos0 [36326486159534433;961865251287079746;140154855476956100;772660317420000000]; pos0 [560192615667960323;338309299939331715;97926855512118705;632771760800000000]; pos0 [390607289085466387;563911608531062735;601345794857121692;250949948300000000]];
  [pos0 [73736082750667855;27815104857480146;119975249517841541;522448824770000000]; pos0 [11825581779105036;395480580447639731;598863555752177924;22866539680000000]; pos0 [155107401339442516;891122455703224954;769123484712974154;493922592300000000]];
  [pos0 [87001407316597129;64475116938806794;445513774396700781;715227950830000000]; pos0 [59125634218620154;351664050161223875;31803392837551400;960531015260000000]; pos0 [477470494270744657;348757532147879068;920412542157788191;402405495600000000]];
  [pos0 [563900330165620939;832434174700336988;74453501626227414;282935246700000000]; pos0 [194602146406035155;468809908946306555;180711077738190933;486954287000000000]; pos0 [152878886153645442;358647987800879110;912536164648090195;473814436000000000]];
  [pos0 [38777873083696159;277695177051889193;1895610190902021;756647052880000000]; pos0 [738794832958298389;18381744895044452;166723184831820788;28445307800000000]; pos0 [211621869321854756;248933843627104256;84920095733661606;447997062300000000]];
  [pos0 [28146164014706301;437357229815072364;897643887828173308;571386378020000000]; pos0 [735166144871073145;138268231154305408;985715970427732238;996988308600000000]; pos0 [88585593267387429;73204738502343001;382590921091140149;192573204400000000]];
  [pos0 [17814438519146609;643010326253662389;296522645887039213;637566464490000000]; pos0 [502177930272106480;608636221517722543;412905844994967987;667495863700000000]; pos0 [65336631114678029;736638635063260722;467715093728611176;732237948950000000]];
  [pos0 [818760512680835910;80735316392525427;150852372107341084;34043257800000000]; pos0 [11551473303146262;403928798945776460;434252802314123819;134448250430000000]; pos0 [19054183118457897;810837047857933273;624054155532788946;792192961450000000]];
  [pos0 [39411541236256833;515724406480299584;46464221934218177;871325909420000000]; pos0 [445587714918720316;260432938122679448;273545631068711962;672250675200000000]; pos0 [351196597136622318;906581259834750927;952492444256842648;912190048400000000]];
  [pos0 [329601392590872516;763757130773081805;803865541713290285;334280256800000000]; pos0 [481954430348545094;995428478366645692;200373749367631394;93824685500000000]; pos0 [147141908120502224;746782906097347997;634450222578529410;911977369100000000]];
  [pos0 [2590167395602102;433477465404819360;961845071529096882;222156597575000000]; pos0 [32652716280419665;256823828023008495;271365208526740359;507923845800000000]; pos0 [947095195369934711;443746435749616957;588992346938236183;556423351100000000]];
  [pos0 [356616465169740776;667002335753162542;512129233526509349;168877079700000000]; pos0 [13064334886094335;714510838420751834;846855341688704733;821468944270000000]; pos0 [15129362924077553;79178509771480366;300946454636232147;815631562380000000]];
  [pos0 [223862005775374830;644120366343932625;183200450560710910;303580528500000000]; pos0 [400569128928603301;758595887203345500;33847066106986312;822227669400000000]; pos0 [230848660150995302;826344490385394573;943814006150804645;107295534200000000]];
  [pos0 [6818343131565581;394816224978239360;909952397954537228;475672396195000000]; pos0 [297292661911287738;808349145933444585;910904864856312157;329764650200000000]; pos0 [633052518172810089;53913718269434801;340751034616823015;676264079200000000]];
  [pos0 [197501323124065874;312083494466485532;283791607631287749;559457621000000000]; pos0 [11288017736255749;183984999023075908;783129978887250368;297563050570000000]; pos0 [15662155234959596;693061714083446652;619096028643058378;498857670280000000]];
  [pos0 [183039416433455598;752112633000801663;369707538121232482;69439260600000000]; pos0 [416816326308409521;216846532104827371;130280538189079724;552949088300000000]; pos0 [149200281975889804;795621426181763016;324022560224849449;841618260500000000]];
  [pos0 [11548388427934368;528377178736036080;961494869411542305;613055741240000000]; pos0 [504502980752028883;694212895530241946;698590411200881756;584213027700000000]; pos0 [268241197968495716;95723955195691039;802157828937380422;742388162100000000]];
  [pos0 [805273234021518279;332596747666364565;211235316893366422;690719917700000000]; pos0 [75860974789190627;46171353540036699;297219267744915827;415156988870000000]; pos0 [42507613193058633;169770462506602365;437356271895246178;665655290400000000]];
  [pos0 [166857509208617335;587696984139512146;115925847664103337;751929506900000000]; pos0 [14145647267582502;662467755273189198;435385735008671219;517005957360000000]; pos0 [387990277479914719;734430512987472419;881358034077423893;530640363800000000]];
  [pos0 [271031218014365838;561988746523376613;67948220435363234;813837297200000000]; pos0 [308020766851944399;706651172141219463;511430886583711184;17898656300000000]; pos0 [405439814210456213;16792836410942742;111899377620777717;275056589000000000]];
  [pos0 [447923450730795961;241281285366446435;898565108812628093;67035224200000000]; pos0 [292968682009411729;60620361884270472;697759468761313558;521860839300000000]; pos0 [11842752365151816;949274104172054130;113480565779865986;5128383490000000]];
  [pos0 [214455929128453470;934212156900176688;998184842328991028;671988035800000000]; pos0 [649014907802288026;774801693027486545;106821488457070920;796925519500000000]; pos0 [124041041200448802;946282109783423565;516330238855754388;721773214200000000]];
  [pos0 [741839805564209400;105001623192912104;583953052200350349;132270043600000000]; pos0 [64255489396386405;500099914646249268;453940118615549426;276402586080000000]; pos0 [181875192370203397;578841686355061530;837688768178752436;454148063800000000]];
  [pos0 [433595894656755669;139564338443343935;630806171283503768;142944614700000000]; pos0 [175759779605762105;240087889110314624;687134887396277537;83370426600000000]; pos0 [303599290939398809;267063392465483679;379027489495217182;210731951000000000]];
  [pos0 [640754346820321798;146387735681260904;835235262157552921;216667838400000000]; pos0 [8670624682112583;28271384267056996;12632962148182039;699316027171000000]; pos0 [86739152903642447;145294053171413412;391041995207651816;141786973300000000]];
  [pos0 [19342093043348844;17681614023504830;261848630671548563;286849511530000000]; pos0 [489364140902491429;725406678292308326;245260753688925353;310296610600000000]; pos0 [161984518678013600;746056729080758916;616101886849329792;801106892700000000]];
  [pos0 [623070870884638023;217092569739386029;713546657287278302;348827032100000000]; pos0 [51101140763522082;617332503763161739;509883549414819491;572748011110000000]; pos0 [14315754591190760;168286835216140106;230856613271229257;148523670260000000]];
  [pos0 [50321266731037316;695965380756904346;259420063953531039;521580917920000000]; pos0 [940448003058412765;814523235511110909;607020722014918333;827663596200000000]; pos0 [8677273561534037;262476041925267637;312490185525325079;437677663869000000]];
  [pos0 [384567122857310539;373773902172310097;265405650686418742;81721206200000000]; pos0 [84124041937179624;855802710832515604;459657346034966089;388021196550000000]; pos0 [43653230850777618;857555025592322731;564210842085044706;540351694320000000]];
  [pos0 [37908272193616941;833340888718076506;727400039135409417;426808227080000000]; pos0 [205098133039919253;112923434756908116;81011275939515987;796056703100000000]; pos0 [714472177906961652;47023595263716198;226995692743486489;263068357300000000]];
  [pos0 [67477832176505999;468206659116743021;434876522281676187;351476323540000000]; pos0 [86861508423074481;820723624420923873;556521359937574684;828766077510000000]; pos0 [74022733415057635;472247020425702527;388557411263446746;210757266490000000]];
  [pos0 [72935328713260000;918131192385500570;946619524209201999;701805315040000000]; pos0 [255573387659100657;980042614765973857;550801723508867901;912417559400000000]; pos0 [570880323976671545;330519018523989142;31463937269837947;812784783600000000]];
  [pos0 [8139557178508007;697940355161833074;486455989379335929;336030643007000000]; pos0 [665432459558528575;539221399327775214;611776601630245209;833145074900000000]; pos0 [197480196597445985;128593844629559003;198078725882553599;952820240200000000]];
  [pos0 [388550702836899708;951759360527224727;435363602650034415;697757294700000000]; pos0 [699754928796805;657471934447185313;389938288388712079;288220318877700000]; pos0 [119053038982203635;982505332455197689;604633360244588794;497565773900000000]];
  [pos0 [619567688834597045;349346421878047632;299926871786555446;558136089100000000]; pos0 [147395290527275701;220873565991766765;125588450805069925;981943607000000000]; pos0 [12700946184132765;955869317906723108;730631616300582134;106764009470000000]];
  [pos0 [286476119706497465;731481604959844850;550828495932972597;696533271400000000]; pos0 [160348801702400857;826053183469755934;722034682589731789;867474184000000000]; pos0 [14673836347905906;312653561929734767;6861008427292037;425858791810000000]];
  [pos0 [725642754970234035;382575192142625964;652377343327826429;109707149400000000]; pos0 [81704395050014950;413700874666055631;29431757430506995;861214620830000000]; pos0 [119199191037106869;161400193899544083;574568833517473247;660751740600000000]];
  [pos0 [323943470746121042;307011607334175326;219136103475961938;265966887100000000]; pos0 [23555054322602602;919250957523259382;783030817718666104;24327754300000000]; pos0 [58203403117324604;373927904244369306;155674800869663318;181513231320000000]];
  [pos0 [219434167733943819;827786989734497460;597830090732959745;782974397700000000]; pos0 [6036621349577086;884936036974716883;697562073843577465;808554678981000000]; pos0 [723993999398027833;884800119850085944;588388744959630004;263009706400000000]];
  [pos0 [52756338823992419;190136600930118262;606596036825603125;490152911480000000]; pos0 [625645373853127461;754237362189075238;23031039141059125;723467832200000000]; pos0 [49262637223718047;414026177077966281;481354315254430972;279911968200000000]];
  [pos0 [600355546984448584;969197237480795533;483248659384777050;265229359400000000]; pos0 [350874819322115318;487974766575455332;723010225344240288;929373911100000000]; pos0 [14018927076238691;640963628415191805;834718462022516601;650070841460000000]];
  [pos0 [483244896706845420;767422560530327697;809307252904363438;454366453600000000]; pos0 [345748439569209400;412481536874891857;251537194820331040;820109676200000000]; pos0 [61120068851530065;446060603534471444;842670342333044903;230320757660000000]];
  [pos0 [597253915227726554;56705451956028340;704841303331268832;397031339600000000]; pos0 [72038805802919612;854068259259995711;117027273568968630;335472183770000000]; pos0 [143357017688325190;237577912579254371;576888934787152161;787741760700000000]];
  [pos0 [386109152116240793;224449581382921048;226063044287060619;75547750600000000]; pos0 [286056733010748461;249019997808265844;313068638906910265;61967920200000000]; pos0 [159868631537738085;408629904728034426;27795226117080778;341102343600000000]];
  [pos0 [8244117110100647;941762426459268926;90123275297112955;881922876413000000]; pos0 [86740857587459695;566321914857551265;187201301269667788;253043697810000000]; pos0 [294172226023838639;519437461449014959;768038123071782141;323318889500000000]];
  [pos0 [427362062572368284;529576850841880877;970050677257635952;290293446700000000]; pos0 [332420360101821631;933486817385890620;287191801718301500;474536885100000000]; pos0 [231693595724147669;848668265586727628;169141503065080379;314986254200000000]];
  [pos0 [314950289141328205;891557442825311453;660536837817509695;844235827700000000]; pos0 [15016640451591010;431117457016690474;62031390523389940;767943536970000000]; pos0 [660793025442331526;317584584306195427;741234164410342120;853590509000000000]];
  [pos0 [168623588158606055;829833802692215367;632629277739950431;111015241900000000]; pos0 [768349104680737646;905060035891244668;20619652037252293;833733349000000000]; pos0 [128162529544716;956123821970777664;943359454033669276;326187642796100000]];
  [pos0 [110705167013338894;207064700426100067;447109734654454168;276558885400000000]; pos0 [491120367753493726;142525579899372219;569001345064102823;136949766400000000]; pos0 [340860698760658430;150344818991743092;387137995222364256;843994311400000000]];
  [pos0 [786993045454224278;326388985996243709;28648994875762731;292327043000000000]; pos0 [14508763487575847;993877788766817093;650980937521131305;218579275630000000]; pos0 [87942641931122435;937355345609302142;407417868669467725;874682442860000000]];
  [pos0 [3749937920247321;391777279210258131;309319783151612294;745054171734000000]; pos0 [123312785980995390;575126247863903857;719278521124547723;576728793900000000]; pos0 [805531852522238612;196786878373181429;765317790530422230;919812495500000000]];
  [pos0 [103198435783061210;559142524271185133;241792683114161044;817508240500000000]; pos0 [188364141568080367;639388541345775195;584185639888710571;307026836600000000]; pos0 [84512839023905507;945017198836536347;981933323510359947;197698694320000000]];
  [pos0 [212061770100923011;523686753181424369;111002327505549817;334124441800000000]; pos0 [12465394937797474;156234228764943889;53791738415822172;957422074740000000]; pos0 [92693169199165444;866969754298243066;740377262657555112;235388964240000000]];
  [pos0 [188459309941595166;471022409090556446;252972259124298203;165537100300000000]; pos0 [77338192388554248;821661088658991874;570451030906436954;746253250750000000]; pos0 [65596354087766757;186368915221197463;175142958164309102;329449353650000000]];
  [pos0 [102414791361658243;757646108159282468;243932262515896319;259562967000000000]; pos0 [16807513445866210;992026306966108046;497765575753964601;379976759490000000]; pos0 [63084278193403804;52665870767374963;428651800429506700;62378778460000000]];
  [pos0 [103948799255937707;366980359667293921;860463251171042013;850424372200000000]; pos0 [530336787868697009;38226223369657244;306143830733934829;954751608800000000]; pos0 [227804891519101496;903266537589779363;360559572546260939;102540683800000000]];
  [pos0 [324695037953777608;842428629318569214;175586320263956113;468204507500000000]; pos0 [628900436475051830;591413657435269128;510403655139707866;986876459900000000]; pos0 [158166949844274;374698418390378564;880739790742453416;652889483625900000]];
  [pos0 [474055318763502493;280619316041056263;373234537897790746;352399124900000000]; pos0 [152627684177717376;926491345605392356;168994811242031335;826425393400000000]; pos0 [18281458025500247;616716693400190983;732456999133915727;223492832470000000]];
  [pos0 [54146663272240483;832997730948073932;537428762231983864;731571644660000000]; pos0 [43093511162311582;342167465010009292;573170549614120702;887578690950000000]; pos0 [884033613014823571;74651289067176505;558488818441324097;935483622100000000]];
  [pos0 [86947578981125671;947574599085392671;501854108410090338;518121390410000000]; pos0 [14156578062066385;880859654259016618;241059674462241333;801818835240000000]; pos0 [300125055421677875;609881207347146897;524469004471841027;858893934400000000]];
  [pos0 [142293810074785864;36011854090276324;896764907266062760;994605448200000000]; pos0 [262245156636156991;743442174005312257;155670892664217641;401613254700000000]; pos0 [182227569145690280;362769815004689273;498945845619358246;961582898000000000]];
  [pos0 [92865973958583546;432657450742342659;327343113870209624;57884397650000000]; pos0 [738102605224425932;17714270703132207;341639456510609680;114750281200000000]; pos0 [14476956001641133;304427230105777278;946479010011933550;516499444230000000]];
  [pos0 [258044497604337510;485616531283091135;407300439627227008;368057026100000000]; pos0 [69134762430986216;4480375264886135;882823531672905832;335747707190000000]; pos0 [11023772664817729;823810186532390309;31715384069322276;25514290640000000]];
  [pos0 [19391220525060029;957716194740759768;800790278805889801;300818753090000000]; pos0 [900650699026653063;746314560027470484;583236912579944528;814354214800000000]; pos0 [2501318530885622;841787370345643727;44626708213469566;968024740277000000]];
  [pos0 [12226898687839505;257737188313996890;310698508440290502;696002514600000000]; pos0 [84564228916090140;462967152841067685;565638518680552799;316904897090000000]; pos0 [154168967119037176;369883665794684358;402199290255549358;703578633600000000]];
  [pos0 [467429348056426433;647796952450635361;299120486765748133;70894417200000000]; pos0 [7260243140568505;556251670526569550;449001007258812091;897863764490000000]; pos0 [302649580511950770;180204179527947540;860246110172198277;967957196900000000]];
  [pos0 [274458776650418747;183884461789133779;302429897568526424;777990327300000000]; pos0 [278062372640659049;932959763707064834;718648665435971461;606752080200000000]; pos0 [154038991312284735;111766012139871323;598443975331998022;853754538400000000]];
  [pos0 [594658114564184511;449600301535347162;367273460624753586;892628022300000000]; pos0 [81829814007397058;1918549948420671;658528814677499009;827248249690000000]; pos0 [245649425669951693;734216877514164573;284420639213570470;376584411100000000]];
  [pos0 [19399519106252162;411452662104574733;720271668323425479;575193627200000000]; pos0 [200206424406274864;199095234073397711;371484582179755202;533151763800000000]; pos0 [83115598730546915;773259941062120676;100824943825671911;242532413590000000]];
  [pos0 [22400729480987422;765785523382762748;680745616163539611;862934997730000000]; pos0 [41944950926794121;218489397082120194;427065953814875343;548634461400000000]; pos0 [848093736347210846;929083705808446048;580048686258083853;183135376000000000]];
  [pos0 [83547806906684;541156381226014893;212007312593311072;327706317995710000]; pos0 [461084441409862001;220256150659627569;328071715608636221;232002531900000000]; pos0 [523497019979187938;3824663421844683;233261924866209118;619623562000000000]];
  [pos0 [21744133868917384;61016303952716404;810527227812808553;550633958310000000]; pos0 [27202684361171336;333557742888881061;673225778842736247;967898190810000000]; pos0 [64966450325830402;93565391928018221;340600586533948650;708591882600000000]];
  [pos0 [450962309161899;307169431990659015;164810545370492611;161295672068600000]; pos0 [19435072294269827;890998116755115127;379048255079183697;39818906130000000]; pos0 [10318697446872784;239236797760843578;166180129458474306;572195662600000000]];
  [pos0 [178810495641134855;930761042565093028;725638629826267814;261288892100000000]; pos0 [297970800991589958;404449478383530873;377693357031641026;413093821600000000]; pos0 [78962223261508188;467345167605645340;559925032905427854;479420492620000000]];
  [pos0 [269184094588194607;2698292583068755;640274181689261082;547203703100000000]; pos0 [416643024292320754;80986364485332770;601236873795679075;842877020700000000]; pos0 [459488172307940;373913619101791634;209587930100724011;32040029406400000]];
  [pos0 [49515242688631224;895004822113991378;941160895662009208;714831012470000000]; pos0 [596144588700180563;782155118137076531;362352630947850939;33321206300000000]; pos0 [153913816856612523;73161463585495751;54064513044272840;789567384300000000]];
  [pos0 [117732959407363863;629069196870079000;656611315936754820;527850905600000000]; pos0 [106981593558921909;983612051640367490;785010591794927797;422146496100000000]; pos0 [761216247341546531;548179914842109028;792394021454635422;8628523600000000]];
  [pos0 [788880640859592786;370471859142589232;550444987744957687;649284307100000000]; pos0 [56904610778994020;566639477476008220;59441780061991563;863842537020000000]; pos0 [158424014144570;919022314859732851;748738637246354370;130170874450000000]];
  [pos0 [478032844564911453;110423473015830430;300493339167228513;646284725800000000]; pos0 [16411967978918655;60561424731077839;850934155601186090;139908742280000000]; pos0 [487607609603497196;134382404604112849;987036979697056032;268769224400000000]];
  [pos0 [11880795635271773;501666142636533428;258896387486800789;852280049060000000]; pos0 [16308719094600887;601994140246890270;207850734710293416;644216510280000000]; pos0 [420337997571352304;911613030160017610;194931029297004885;333313265100000000]];
  [pos0 [856170381282633216;903000093502208756;618794806941186334;183675173300000000]; pos0 [14980725163853814;988505979331793624;980200574518463517;972371223090000000]; pos0 [98730831637002709;495869597153863346;74705436257144630;697136701740000000]];
  [pos0 [15545222038232044;106627339811985914;878822083736267477;158432859300000000]; pos0 [171442630890744451;768383286181480334;402628365877428418;425080934000000000]; pos0 [655279005543634628;344497590319015175;892424437387385385;503451405100000000]];
  [pos0 [463917149784472087;638836290555682436;208177183360957401;970489000100000000]; pos0 [63601823581199854;350681073205266453;274501831827752936;120189162310000000]; pos0 [290663766878201225;231604307960186873;245085989663064489;643152112600000000]];
  [pos0 [137978498486055958;396508758270102211;2459557766515555;188119023100000000]; pos0 [593990512204043481;924693053684442261;56422078289200073;699194447100000000]; pos0 [86647511083257458;548772136346139481;493000120863293442;801258900840000000]];
  [pos0 [63257391274075070;393768270481069118;88239528152986267;134535808680000000]; pos0 [872994233324895799;43009678337812400;573644175700276132;901773688800000000]; pos0 [16604878818128949;787066448970414971;527988365346716189;597679469740000000]];
  [pos0 [192713442459724930;246112459214524534;226684940302402589;435776914100000000]; pos0 [6694213840666102;342455420821765435;924130370465624256;905651075334000000]; pos0 [205668619735507978;45276126398218324;98978783964013229;396885839900000000]];
  [pos0 [180349918550877156;827982886031994383;139007190399116001;331296929800000000]; pos0 [588623949162285757;612225164434423;905259856717935038;597302073100000000]; pos0 [158824511982187958;360685231389056666;178240975245232043;538553251500000000]];
  [pos0 [169968102658814403;1293219138488906;952633743415741162;464590736600000000]; pos0 [72423668719805767;594712033441945978;615670601191697703;673149691580000000]; pos0 [303374083342266708;44628130249580000;122873308635977572;573340077700000000]];
  [pos0 [123954529940066764;843771748160350430;452841478430768883;670352750900000000]; pos0 [8051520606762474;350341345707269612;647212400954329512;59769491139000000]; pos0 [575023341970354571;425232105412859535;494707757157200290;456854480400000000]];
  [pos0 [717350375166607370;923407850208569197;386894900499246760;287349217300000000]; pos0 [15785535195281233;172834299925143303;343937396219179172;114565331030000000]; pos0 [213638480184299279;934746070791375735;251329390285067901;890078129500000000]];
  [pos0 [157065615048239497;496269277928789756;422938612050224209;796199005500000000]; pos0 [266958022471465305;53242710898920146;809293762976508554;479469171200000000]; pos0 [305001186752790714;126062841492162625;978131928517624793;923026202700000000]];
  [pos0 [140162847727767;903861334623847897;707184984144300785;495433767858900000]; pos0 [342157751232964677;234565955544795831;413090056350785568;508625231700000000]; pos0 [376670372135259945;322720400475141830;841706581703971675;916693067500000000]];
  [pos0 [618022862208909090;34031969668042695;730156862940676538;260019274000000000]; pos0 [283037784288709417;976083525300530339;609976504785512937;63439815300000000]; pos0 [95069904336587961;672761081664795665;732409768118332701;90449574770000000]];
  [pos0 [273373768739272;915845652300390451;197734147057026529;629114385313700000]; pos0 [508581175038575419;968988958746223640;810942729264244732;537642580600000000]; pos0 [402831248650685779;437995706101508943;65610462074356678;271293531300000000]];
  [pos0 [913111878347118948;586948581246165740;737197222891748754;166135620100000000]; pos0 [15789074323569506;652310749408849183;907001599408035921;831526185540000000]; pos0 [17687329468309185;234244763395918103;186085632526896460;406111641990000000]];
  [pos0 [207903701572977558;494379303752452671;845549140894132150;268215281700000000]; pos0 [75652796633008006;91818052630033780;510764325245693764;249727889630000000]; pos0 [589397960880353942;171102745252719472;811662185452383657;28275866800000000]];
  [pos0 [1963816437671349;477960507076641093;12525560593778821;360588217998000000]; pos0 [960123737189193437;392462084604615755;72195507244501844;759913692300000000]; pos0 [18463096706594661;190453373696797234;644930216466096202;179144310260000000]];
  [pos0 [511018489115684807;594767460412296;887743375085739840;142965274500000000]; pos0 [399663892926873374;457445251860295239;236395506506535943;615442304600000000]; pos0 [63933570660503909;122483140863680896;826110543079460756;301657806990000000]];
  [pos0 [378070162976694172;302110028143637286;597693548308669505;434752264900000000]; pos0 [1873888467703799;25811695374060896;284856820208090866;669101210276000000]; pos0 [543696874870405474;223821749975096449;716694866797997438;107369338700000000]];
  [pos0 [68681313798180397;569655599612316500;915083809566914927;774685286790000000]; pos0 [127130932884146500;614075830262203378;964666391066757832;778075914200000000]; pos0 [633879617728757700;891014050850193877;224026096415698362;24888320700000000]];
  [pos0 [61365504328873617;960956322122520273;336082861803308546;515416945200000000]; pos0 [136539619858144868;499585600375478533;159815828531846325;490397658700000000]; pos0 [492167682461299201;841138832674726649;295339388859496651;371030513200000000]];
  [pos0 [440295688553422223;477842404762723730;40025641072942256;7215569800000000]; pos0 [72548915105671470;667049434394062915;800374505868559293;3225653980000000]; pos0 [421655935388097293;46586433781711855;671387255677970732;455256637100000000]];
  [pos0 [696727106658750047;913010564233740190;871553209787945160;996621239900000000]; pos0 [5045878286231283;706849119669406945;739242525402843939;598641847423000000]; pos0 [13905400991500510;929779218989752948;440748697386565743;200169447310000000]];
  [pos0 [732675717604937079;641284102625443598;914881598613201224;779039171900000000]; pos0 [201736055060672364;377972031828184786;428120525411485834;644938100000000000]; pos0 [138999630449934;61925054101614181;546504218843563432;914208370292400000]];
  [pos0 [668952967319850941;946580449751787490;158569811046493924;51584030100000000]; pos0 [222295854808180181;385531730665371754;341951299004791911;195195064900000000]; pos0 [52493284438905206;650961723534128069;918937113012867129;573824290250000000]];
  [pos0 [637540479707903110;937860037470843559;629974830630523596;908540880600000000]; pos0 [15045145421937313;902367977432288607;723592854398434207;132659301690000000]; pos0 [192063507986188796;66909194786952049;317220382629861880;641160630000000000]];
  [pos0 [4883430088078787;642069060456287290;617491693735646567;870080271887000000]; pos0 [873329917692893074;619138267632566598;257422468287115483;240820930800000000]; pos0 [121547074265914095;981438232969333514;678723001413659365;580197243900000000]];
  [pos0 [43755376580391104;923779303156271094;382944835077126002;799019178070000000]; pos0 [357897954380762832;600856785291320817;373799436816805203;330258924500000000]; pos0 [585320745190232614;123249293809230665;514343463238776938;202868931500000000]];
  [pos0 [92493811172667696;952808221369050523;43570092376159691;424296848540000000]; pos0 [468052636614534272;831301924274525881;202521810049556783;231936363900000000]; pos0 [18862373159192559;786654076737474261;387388151643544414;763843895640000000]];
  [pos0 [99395280764277607;267989863764230629;723022600025384647;690787243870000000]; pos0 [63365466452153176;453242184431812686;895985243877929510;694517997510000000]; pos0 [628147806660635742;466907437333309506;736805252040513486;787987671700000000]];
  [pos0 [852565112240780131;135858689433146978;164447428527768444;859293627300000000]; pos0 [84286662160307377;260480533956524962;430430348082852134;782752978880000000]; pos0 [12209475310985030;493861117054851879;183488544450578634;737341103620000000]];
  [pos0 [11034343660137204;422577922365075728;997416469808572168;518173061940000000]; pos0 [15329147896584290;126466157098483403;436855569025363395;440805653240000000]; pos0 [148388480496848991;985554507502623364;663293550579952175;144697891800000000]];
  [pos0 [704930088635116903;351778904545910229;297603792477712626;968290246000000000]; pos0 [50839404797362363;288384487428538569;160221347728699001;836377885060000000]; pos0 [50301730034110776;950379621975135820;893868564574983810;186311567690000000]];
  [pos0 [365316939585755483;600095986426456768;196807910643875491;664311115600000000]; pos0 [176129701740671819;379298150791874297;950106959843037027;659393798700000000]; pos0 [99342729047923560;986604780871138802;369364085629132711;240126453020000000]];
  [pos0 [31789048379933921;823069091366159967;461077589164167483;664224909830000000]; pos0 [886207026424465590;913567634754649080;29424514478854179;216413699200000000]; pos0 [63695662189170344;610626148492610443;474042184730227635;761852625480000000]];
  [pos0 [224065286228032149;161369166542969939;918951275776784291;866247691000000000]; pos0 [430403602738715891;501015804924973877;299085808592789054;290176727600000000]; pos0 [291309545838629930;502318568154075448;457486781787353751;494578707000000000]];
  [pos0 [315974209765318367;151524058452208847;433163397620044695;521302400600000000]; pos0 [271678315253248270;130826995244791893;483056199475800503;261852517700000000]; pos0 [33742721124650008;551894615843237121;861138815209890394;563681740590000000]];
  [pos0 [129553087152872;615980833010247084;984623338166696845;539646180884900000]; pos0 [682788400674175896;926691844764403168;25576360232679730;437124565900000000]; pos0 [296402008885077004;967231101629895404;932569630587493092;207337780700000000]];
  [pos0 [57991972113041559;516353921416597248;689107669843694400;949819430400000000]; pos0 [247989996719497660;169562487767146411;156725338450269924;455720574600000000]; pos0 [455406608140210508;711978522264089978;420673364827390229;561590196000000000]];
  [pos0 [477776002816508250;263807435695339726;718603873729254706;274622900600000000]; pos0 [223795188047638281;348462692569565789;218697613826328091;884864460500000000]; pos0 [73332331611633514;277340166541072844;27674530406020248;775300452900000000]];
  [pos0 [50219101925406098;305903257444636589;572114117497274090;473962864080000000]; pos0 [312751116550189673;415895098914560787;924334027119733225;865240131800000000]; pos0 [175654029607817777;209675757914177783;268870011875257637;677109072700000000]];
  [pos0 [318087855933398463;176629976710491777;385225060183558547;227496700100000000]; pos0 [50635453133613378;18030146468191569;353723463010471249;109991687490000000]; pos0 [317501565680564188;322323711724209433;117666579587946959;120812002200000000]];
  [pos0 [40576150395260541;460695421601302425;339567643792260293;839399499470000000]; pos0 [18073619488278518;104112666506885151;179443390701503545;165699446130000000]; pos0 [643675581788580582;733575126021370020;964705627478663875;72113765700000000]];
  [pos0 [160187473212539509;259098707850054630;918479569978288396;661301376500000000]; pos0 [208803879075000290;880368381071224337;865989417007048950;217169854600000000]; pos0 [19399825528349834;250200983378290838;218233812233276016;584334545020000000]];
  [pos0 [314361428760989994;409014206167401738;677476998624672257;499505716700000000]; pos0 [41752643412124413;600250996824126366;499809966173324353;868551278780000000]; pos0 [581082843484296627;994634224923790146;695993115090947503;598757260700000000]];
  [pos0 [13346710151454490;633804314276696643;705853955595380695;767186130900000000]; pos0 [198683845584491940;262539345314852367;903022055221538608;174100226800000000]; pos0 [194086738261341546;105850200480827624;525302036990508782;101839235200000000]];
  [pos0 [92067131497621842;595448421178726664;33574428580871376;151957864330000000]; pos0 [452384029134642239;396143820001318290;327818865023419078;979022230400000000]; pos0 [97630074760809538;713346302066963050;862870908669495177;607436799080000000]];
  [pos0 [123208154972783174;702005097077432500;663237580707795699;392053439500000000]; pos0 [120661071558523728;891269710954372218;62646591923243963;493244438600000000]; pos0 [12277121397032084;979076439962532890;582809909949461567;547389432470000000]];
  [pos0 [233942658655550645;100674507247729103;389105483694338917;348776346400000000]; pos0 [607760465108053075;336961848723306716;998762283344435056;231540046200000000]; pos0 [17849878494033981;248572424686319450;149188232848597513;557484444670000000]];
  [pos0 [93371410684771320;329052428025193690;905981210951945138;539960394480000000]; pos0 [176994817743151545;886224945791614716;891761979067632434;345102757300000000]; pos0 [319724141159144870;893103297360063057;405474492200934663;668655605700000000]];
  [pos0 [119227194378257116;62815135499060102;126252987398919572;565421269400000000]; pos0 [352924544899919853;685180172187711458;318819256987638685;866243995400000000]; pos0 [377402321472473920;552542364575286627;676891445957620702;144490082300000000]];
  [pos0 [284032700928787484;675241601285963870;329288252241219818;994028580800000000]; pos0 [244240333170399452;214331461869379780;574068135841065534;846556803300000000]; pos0 [296046499970104858;903958344963795258;93875351522773931;942405195900000000]];
  [pos0 [13671872112349103;59734015528302992;285869725696583034;44782372280000000]; pos0 [52063206235922044;616241211865676303;448937041543426362;40399935220000000]; pos0 [755969169108589090;275882671304354060;197178139551782542;866772082600000000]];
  [pos0 [383219559471944128;39294811499898314;563553301485227033;339306678800000000]; pos0 [354392700096868362;517512708198079538;372839941200732470;749605648100000000]; pos0 [152997301885985984;990805150001966935;605462236229041445;476596428000000000]];
  [pos0 [18591986988982029;440453291783466233;484088079852891523;178656622330000000]; pos0 [191607345526142944;899096397909834297;373285448859926899;518901422400000000]; pos0 [341763293186594887;689948712833458928;803781468995633062;582392281200000000]];
  [pos0 [538128953054587199;796889947876378856;565961785825169015;922395711800000000]; pos0 [15210227957183914;769914217477760587;83912125269150980;609463403020000000]; pos0 [358104236255045477;381335295984744435;31176049171573774;419655794600000000]];
  [pos0 [311594108287944307;493804071541592507;173421974689156346;721145961400000000]; pos0 [52882606436819209;3341048755071874;912524865466956932;614143105840000000]; pos0 [140853101131655937;466677520199001902;738899087265387938;942931230600000000]];
  [pos0 [609589106613622786;164891069816123062;104857737654972795;984818887300000000]; pos0 [158331645875080884;375223467971315653;147079689107200746;682210997700000000]; pos0 [76253426509140238;654298992231720277;916773107192116522;210682187450000000]];
  [pos0 [4872865915402102;302566962651847463;613893717738135081;923168157063000000]; pos0 [15461701381781169;446702824509681990;734445725482443095;894694935530000000]; pos0 [600770635932608473;397818532087196445;525394070097519260;143532326500000000]];
  [pos0 [115825230980530280;656732915787423541;608326582202398727;294249459700000000]; pos0 [47224091031419883;708125547689768979;873452961484517132;321722789310000000]; pos0 [13556854143791699;849812549458703922;809024372168773550;441421118000000000]];
  [pos0 [293542875437004259;290831743786860812;659781305855303441;600507582700000000]; pos0 [151641005447069449;427383961378612682;192446624056690682;770289282200000000]; pos0 [285642272995310901;258672973403391075;747027796820751602;306663859400000000]];
  [pos0 [70497845590753661;958304100752463616;463074069629457662;169987939900000000]; pos0 [198284849842374641;516508537530636770;424079385753432319;628721511100000000]; pos0 [723960386124741135;621036934225997147;376977597426709314;586901406000000000]];
  [pos0 [7784178791856039;625520638657243979;959222138987146483;694106233538000000]; pos0 [189562906007598560;160773772284224654;384165942507622449;160575897600000000]; pos0 [502040000976818299;169323125224788668;565723334938512671;318718006100000000]];
  [pos0 [12783809108406689;207274237565046573;542200556975241729;251839978440000000]; pos0 [795073753737828272;743754482610448381;594789936478469242;458206557900000000]; pos0 [144079586300685279;233867302431705673;592687894208571654;278224285200000000]];
  [pos0 [5068453357026726;150483043944203844;132601889220395520;56048257186000000]; pos0 [98384754554863873;260910371097225339;781426922850128643;773574364620000000]; pos0 [57788427604235155;992762853785413546;81473642386647373;512115096560000000]];
  [pos0 [139484006258008305;9635298289684188;800571367861455213;774840423200000000]; pos0 [54114059052986104;800599055859167076;491968234366321770;489710788550000000]; pos0 [171364752130159565;58170564445456277;728970627567813195;718801938600000000]];
  [pos0 [281558013077710542;327841348944371139;688087243490194414;597007939600000000]; pos0 [3178432030266401;642545710631715115;907055703703731701;829788236158000000]; pos0 [427124732048923864;572750341052196174;701821917403034958;271503490400000000]];
  [pos0 [54246039396418637;68391592822881469;27917738752618690;636753121930000000]; pos0 [12046449880670634;78101666949459406;53868821757623478;861567395370000000]; pos0 [473482832999707702;68438884140387784;422571289379687862;670587239700000000]];
  [pos0 [966148663956520893;911980138851360255;19593889083998813;664965022600000000]; pos0 [131367167702761;684525411753481935;663621367532403354;834997442449400000]; pos0 [29161433870978696;165173127708543156;172064670422930393;973273035190000000]];
  [pos0 [334442858572125739;740095151522312845;88659575843374911;958621885600000000]; pos0 [365991167285766299;968397252643772150;804953228864507862;376321527500000000]; pos0 [64293121764967361;335951192741180221;947079986991438320;434797700580000000]];
  [pos0 [248370448377080164;217675377528000642;38210916092218313;352729151600000000]; pos0 [147411137215938017;534819856864691577;753372836687017583;130141473000000000]; pos0 [218437249458820306;287914550697010203;495029633053956075;266452700000000]];
  [pos0 [245869558305405229;88275494685629942;228295070441876304;772168454000000000]; pos0 [177660426878057415;826935928569191960;443964928382899744;470371798900000000]; pos0 [571114683882531709;918185938154141133;45591473860962064;223925957000000000]]],
 [pos0 [4918225539483336;411639289718365051;385437581539809790;36774370400000000];
  pos0 [2771393844216010;659942838128563985;471165586176578556;187797549163000000];
  pos0 [3484868181822526;211755474423694856;798981577551435088;851867737068000000];
  pos0 [3781687727414067;84836115742569991;860081223578740736;759349901868000000];
  pos0 [5252824189035830;42673005498969383;486059075601785976;132444396014000000];
  pos0 [10750981766877155;81062277360611859;317191867118665971;232663366810000000];
  pos0 [2328423552232365;464000662122370607;805179210753307188;832659576064000000];
  pos0 [8438672947362619;262117225072754594;539987480020821516;412545399822000000];
  pos0 [7746139606565013;975838190865577616;959009386511834793;906552587769000000];
  pos0 [2710539395133481;525511563942620559;526141215682941647;911349101064000000];
  pos0 [3919836138284556;73082058582275239;663341476311857635;309191781441000000];
  pos0 [1612273937220395;725973590855322646;690020630496376992;813465685596000000];
  pos0 [3307016636981856;857962061541081990;304375218232742571;351233460518000000];
  pos0 [7239015485380997;518151369461925875;989098783099674461;761006660453000000];
  pos0 [10199141726232201;869962271866921608;868450181123672088;68263408530000000];
  pos0 [5020922355399944;581128234392296623;849919210018668109;371637161861000000];
  pos0 [2107813109722771;131009401663119331;403906412036025727;142341455419000000];
  pos0 [732744327582155;879955984185885400;506673146728423885;37235727502800000];
  pos0 [1809092925221237;949468645112415793;679286989274907456;825451985991000000];
  pos0 [4884664806670971;678243609068593883;414310990393421988;708340027144000000];
  pos0 [3160428316612219;253299270318871181;413188993049810007;385566941326000000];
  pos0 [7577324533436814;627083424927108455;974656668482860828;202021538452000000];
  pos0 [407569780275562;192577431285256721;578615813351266196;68682749830800000];
  pos0 [4963800573612631;776494299772672288;86423451846846338;200956542045000000];
  pos0 [7535761089783956;819509674185942788;846076917873496870;512733790820000000];
  pos0 [2576320802720123;584734836533226242;468168090834171013;266541990183000000];
  pos0 [6057152431259083;892695880206769705;71011340336914039;821619039683000000];
  pos0 [1236918888909614;17202224745272978;110183951406139495;827653054230000000];
  pos0 [5113699568555957;238225547550366226;88490476773951634;479222284542000000];
  pos0 [275936440345306;463698176010421264;484712592253993889;391230727127100000];
  pos0 [2342951886658690;414053772372854616;923986100423423548;411731618290000000];
  pos0 [881303859519825;10988410166361319;671336045915202979;44190278514600000];
  pos0 [410186670422895;67629439358226513;202862896941563865;210309834654400000];
  pos0 [4083982289857721;696408290858904171;112214182418865648;759401780250000000];
  pos0 [168903703299099;117318599769052054;760089990280959276;610553646365400000];
  pos0 [248541568915078;96066171866194538;338437341995099249;655238845190000000];
  pos0 [8234485398396694;544815004347868801;624660410413578541;959364867265000000];
  pos0 [165251852086258;170644965838284309;720162492907480753;478801296155200000];
  pos0 [8737471376904256;935777735332439612;826667490624833347;298601595420000000];
  pos0 [1596994260707610;735821916964906384;331135821921467236;498531703569000000];
  pos0 [2146592755348467;840201005567242130;686118574709254169;438963583173000000];
  pos0 [9616633513435058;176545197243503751;953947444467467527;927143024181000000];
  pos0 [11865718814424697;386861607190664612;873648743793469741;950923882310000000];
  pos0 [1988779679627508;346238303281126354;724907559709278335;423670392370000000];
  pos0 [1655911487092193;384342376155890319;196570090359678850;828592024680000000];
  pos0 [3707217019999215;395382071675344082;377439630986670099;169364805352000000];
  pos0 [3110448275500639;261147979293977398;699437944375307229;182561900818000000];
  pos0 [6355485611841911;879106122231487779;987674283029125851;659043821075000000];
  pos0 [2873929931164730;806168079392634690;481212207381178925;512797454942000000];
  pos0 [174740077184301;896839190751863068;619840372272961787;185797573987000000];
  pos0 [427059256528264;528481382561405130;655414224665393435;750313176726200000];
  pos0 [9494809920466669;785481694706347595;699024184313529867;573044282700000000];
  pos0 [5443973847400670;860016918609025665;13335058752199712;715138478017000000];
  pos0 [1059295648724477;997333765099601562;782710237236822723;657479460344000000];
  pos0 [414071588522398;4222564756477529;891308598043631026;524188169031500000];
  pos0 [11310138617816156;164069809129416445;478204615600324348;763873221040000000];
  pos0 [3590687391079640;597191128600762986;512120571147424986;507409015005000000];
  pos0 [6993506059418939;900303778236396535;518917844954310906;825331589819000000];
  pos0 [1446606242309616;117531167594037209;453229520945876369;668956120708000000];
  pos0 [1222099837884573;747109294281820525;900618515087069071;573248356182000000];
  pos0 [971959544472936;85472261570892586;315475268073851050;443211713664400000];
  pos0 [2634655570593446;542581787946940861;650893194261276208;285613291245000000];
  pos0 [5632828002982902;176724863943618445;822615179854875224;929665395969000000];
  pos0 [3742607958799031;877345092481310678;363752678332017901;531536304752000000];
  pos0 [11772573440121160;760876676967871997;83288098212290201;214479395760000000];
  pos0 [1212055768951526;1095850903345226;33557389961078815;328117236170000000];
  pos0 [774924735132788;131326271047529952;106364075230860978;527507370688300000];
  pos0 [5828051203695102;845452232839458406;982996189238802675;157548097759000000];
  pos0 [3347475129975728;72869917743234030;279332485844336611;149437516797000000];
  pos0 [6802425642343731;587164997550467771;828391663105171050;158795382742000000];
  pos0 [8652159290848692;773024957455570401;134482236935032592;81807264672000000];
  pos0 [3968932914211923;368672807561777756;672966231712005013;132504417238000000];
  pos0 [1159337873190477;894768727463158150;531646375031270549;781275328680000000];
  pos0 [7657352100128567;344070778709864163;298934872175193609;853649793621000000];
  pos0 [4883154005710238;674466276018801687;658914037370234045;484308009026000000];
  pos0 [1134274768113322;68298749571432021;940681459328433194;335316178337000000];
  pos0 [1200522516192466;571878835654258736;667275477101977677;2403331283000000];
  pos0 [1255819450684123;428351069349370336;880392502134834649;385358482946000000];
  pos0 [3130508248062054;649135327722680018;208648867584711907;480313788140000000];
  pos0 [888153481630335;793722520823741998;17239929245302595;909505700579200000];
  pos0 [1317305612884365;777660535853008065;496796145024440310;746052060204000000];
  pos0 [5888946134294498;835084555016823914;767498872722380048;253034095257000000];
  pos0 [4199085929681469;375507156860952602;811318232547377602;70802516726000000];
  pos0 [2584078595309079;900904843040748570;362893559321292204;560134100161000000];
  pos0 [2329595378652023;371520051553804011;151263040061047982;419293274216000000];
  pos0 [107310856841604;78728414467676325;854932926987634909;761619617268600000];
  pos0 [4471965079296137;688341248721238042;889265135741058399;334127396071000000];
  pos0 [4207096247034206;522027431947897292;330437856091951729;52979308567000000];
  pos0 [1410253019881351;834650766437554949;690272697070354908;848011430139000000];
  pos0 [3329735450923311;716629317259313986;400826587673091638;930043751363000000];
  pos0 [1189858759722240;988634680114496554;658189513124694383;406144210373000000];
  pos0 [3432227657454161;631895939491519722;411070574457783340;273715934581000000];
  pos0 [1049652745319599;814697702675138931;973209555409474197;75835177325000000];
  pos0 [950004622020352;112926168349985354;971709207043541203;885892431296600000];
  pos0 [2884249890250260;215276548387557489;461461220511001392;560748895669000000];
  pos0 [2457104829321265;383567820350275379;612248184466770581;863743727109000000];
  pos0 [2066529514785999;598952221440929424;811728857000578406;41911746762000000];
  pos0 [6240122713500488;685927653458434792;134200040953596746;921339248059000000];
  pos0 [8808695150335298;658837685272463850;168841306172968491;647611711547000000];
  pos0 [1716138569101147;699435119532619969;565941145492045611;961978071726000000];
  pos0 [2971268031660654;977939369162046700;75486544262418669;845180606839000000];
  pos0 [3127313251880523;401173810703954918;751062634258538764;109396996900000000];
  pos0 [938977215832083;471936960347564290;379077208985449536;340678842757900000];
  pos0 [6507011448603330;898983872248075557;810073319324942363;335786973868000000];
  pos0 [7185515063054365;345139409128639553;190969772581482843;94865728169000000];
  pos0 [267150130426526;772168877079151888;763061805169108732;477996864992400000];
  pos0 [1231876503127519;955494709390803176;361364619401829777;185295539325000000];
  pos0 [12092277405041610;86370789152249525;99333638737425804;235056108280000000];
  pos0 [1805438710209732;119066390167600969;236847042294779082;729085732305000000];
  pos0 [1065916166492796;196064589690553152;312177808631158384;900776197085000000];
  pos0 [9967073759750882;867092561306758373;754645745970039194;451144633670000000];
  pos0 [3298689654068937;568293018723934263;579503005199383776;290987269282000000];
  pos0 [2243460452556013;461772725845828072;724886945051758668;92064113497000000];
  pos0 [4331873315243768;567988047077954155;539585519324737652;901318211645000000];
  pos0 [5468906439891876;262989935303412938;685983003843485436;533644483884000000];
  pos0 [3940575208701151;878591188564822538;118315930430065897;144111928549000000];
  pos0 [3117174139248275;779317877574723292;49583646167149554;451451270918000000];
  pos0 [2251267305126320;558427638201241843;593519132004401156;800644041554000000];
  pos0 [10574820968311727;66659993805919819;240545882714787488;101138595730000000];
  pos0 [2404771907953059;452817429796962949;934390390263694735;608004369817000000];
  pos0 [5034341763726736;112174655924503446;517582751924622869;22786012302000000];
  pos0 [2571739365774268;294537518948538031;774677085522171532;785575767895000000];
  pos0 [196878224213838;438244762446851633;466652777060358635;807889301920400000];
  pos0 [5801625789439186;848855092189355684;518167554731126604;698148094370000000];
  pos0 [3154531407476796;207010632568572751;925837408382952185;814628984716000000];
  pos0 [4265183593043566;428444316395843381;393041782680928801;280450186021000000];
  pos0 [7483638274675253;943329581907865057;285930022061468918;629973388770000000];
  pos0 [2177240236307017;885473141179392109;981717863807977743;552731991258000000];
  pos0 [1592523032556855;932321495926669420;378383285099837375;804319180129000000];
  pos0 [3094249789440537;790644678253763043;203046805212201187;203814931054000000];
  pos0 [3366070402381878;680617631400162296;868969356278803410;935602480912000000];
  pos0 [5064442670090322;859379630630614478;392492380456347431;969044476603000000];
  pos0 [2522980168211154;613528781072883253;544109627271016428;248366821328000000];
  pos0 [1224599671948742;101571388633139902;953079053917778096;180946295344000000];
  pos0 [5055999655406184;279723532718876635;781304401190129423;741919646903000000];
  pos0 [1752146768145377;843144482723025661;624688445140543039;410727713312000000];
  pos0 [7544493022655318;31694964402466213;875522150088862897;188597281589000000];
  pos0 [7304475283189379;227529991082004649;605665792012714565;572373901912000000];
  pos0 [8371491082109867;596148084270043964;629181456585327225;921150876690000000];
  pos0 [2166357609903295;577951517492724400;467956131882511499;81408924844000000];
  pos0 [3564596300566498;709538951129556499;6382567964779213;212990359796000000];
  pos0 [1021252364150246;975987688721536207;300857116923069466;997468043133000000];
  pos0 [823004797075986;105039716118397692;638217122486183045;556349846746600000];
  pos0 [6167886580323209;177863656628497668;240102319719545687;442641082836000000];
  pos0 [2263808034144244;789192348895575226;791573615807807545;95029327394000000];
  pos0 [1069525595964044;718911034315173732;36894797711990147;46144773163000000];
  pos0 [7257945343527347;476720794905123284;574200798577091137;263876332728000000];
  pos0 [2533703189673676;917066391886409059;985648751379073426;98434412100000000];
  pos0 [5912791997154187;594062151516219679;448818111752228800;633719461078000000];
  pos0 [1901251063690673;435722431845389286;722764665786169389;308269782668000000];
  pos0 [8502107748820873;686663377180641802;350198903421941125;473315289392000000];
  pos0 [959729883253846;543952422711739276;815549099247093265;37480931137900000];
  pos0 [4713737731515570;216351554131604061;694579939668731191;222402809945000000];
  pos0 [1415769280102371;571887248651089080;388272048083547267;156120944533000000];
  pos0 [3172937650276073;785924214913506082;380522734317446387;957252119306000000];
  pos0 [11058463881376598;908883822769931104;72235259916991408;499919601240000000];
  pos0 [2816685254144883;381582331780339720;729578440661774766;554135595878000000];
  pos0 [2310090189744299;229489425027758346;973710235438747516;853404994312000000];
  pos0 [348494467108292;411366091075224949;817739285492763616;470069862165500000];
  pos0 [1937192121953008;633424680423240182;875635264447494636;51842201602000000];
  pos0 [2927865852684498;403603058280052242;582500249297585090;408752056233000000];
  pos0 [13293320744017982;372840527733856988;627426858957333681;29512721360000000];
  pos0 [7052848069612741;741008018516387203;355383592295811157;372696384917000000];
  pos0 [3530183419467075;991653043459968377;496437079973161302;342434959294000000];
  pos0 [1436200139285426;246112627861266375;570024961177060458;254575451454000000];
  pos0 [587646733948500;53071058325246478;61937635726884678;348081684489500000];
  pos0 [1092265739897471;18157418093432006;791461312355468729;747611073159000000];
  pos0 [123148876292447;911554546575427196;796702554456252327;501805458510400000];
  pos0 [9630979435272378;12097231514734116;404424708101271613;249649040497000000];
  pos0 [1874335950350894;639434954603205350;430124010250451739;9749387354000000];
  pos0 [6031254940027357;269463844530564403;67149018546972850;631560090233000000];
  pos0 [2351654883169884;545547378567810878;134475810724811870;815187327445000000];
  pos0 [758671078988898;922324240557141792;269530559777103469;54304794096500000];
  pos0 [1868114801981064;649485159797745018;350756352925110127;214756673081000000];
  pos0 [1202743799795733;557163657135902599;62808368804789115;776151859209000000];
  pos0 [1272321522475327;337751794873389751;54829193119825187;279511252987000000];
  pos0 [3869854944440657;518229320317490122;431540548092543126;873391050688000000];
  pos0 [9094870652782770;678440078712586549;166745843265172415;556646067148000000];
  pos0 [8915147848863428;730871553269343453;502809400172974148;59549822696000000];
  pos0 [1307090307434140;703048278768200272;48049579464881587;625659993820000000];
  pos0 [2165278796015686;734695267253187134;222125246952569067;793494364235000000];
  pos0 [7608161267461628;749975352906530858;897735230112935444;768285034528000000];
  pos0 [8733260156989133;639147388843579262;355275381001684092;575878026450000000];
  pos0 [2436360432446618;864052211485076801;983355236383584950;118620429316000000];
  pos0 [2493207925712130;285430239954648286;870054527612977508;448857159130000000];
  pos0 [13606524510582188;544100801517654688;67579613382739579;874244757510000000];
  pos0 [1621005232391958;38338307297313774;215199339487976427;732771663804000000];
  pos0 [1632257232197700;778108561318036572;489708968083664194;879605744647000000];
  pos0 [1377663038771117;404824695230495246;211650565063597782;779672889561000000];
  pos0 [834935622868220;338659373955790110;269132719932209646;997620942641300000];
  pos0 [7313628359556857;807095052817424163;597827075234312810;770302849326000000];
  pos0 [203485112079492;412803957142168588;948053534620872851;915879847600200000];
  pos0 [3113727266521766;967327785484379501;611178326256973517;254219709097000000];
  pos0 [1218126556837761;794690670864428127;814254644012583766;414296849788000000];
  pos0 [4775609676902077;515257176385161473;495487989470102476;94084789865000000];
  pos0 [6446991348798300;920812248935484231;357598797090938402;77013308617000000];
  pos0 [6521819680930091;791777206408959013;46408061003296966;272385981431000000];
  pos0 [645611140603157;886492937452802271;879186484649130315;108703940432000000];
  pos0 [875243140515775;887511414556371647;259628625717844889;588177219118800000];
  pos0 [4970815607410753;791369590788031030;963840553458131919;638807273822000000];
  pos0 [3758834020771922;151887737525007418;272519529169537745;586587792652000000];
  pos0 [180061750124687;234893851284173263;671859066343074706;427265585342300000];
  pos0 [2553570324320331;851705867387057114;842202865467824070;788394080053000000];
  pos0 [4249629009346016;365443063221228169;982387680476204797;170506777055000000];
  pos0 [5890151428647484;646801421910209276;68475135305679908;364066067629000000];
  pos0 [904002834861767;364074060187534335;141492022629117052;536744732753600000];
  pos0 [801022348192717;813495468769958651;631541289389903544;69930809837200000];
  pos0 [3855390429188505;717406926360720842;239335947468197096;362033286434000000];
  pos0 [9693257876320675;312098666298128707;11723396364814491;159847365370000000];
  pos0 [1207991436765972;579605805147869980;55115685701625362;570008279216000000];
  pos0 [7694332031613710;495842140306471903;515356138717768056;830511642554000000];
  pos0 [7155835600586895;646091859703099303;856007276133669259;287698251875000000];
  pos0 [641259973756819;279796662586800670;442917513405370502;925141805917900000];
  pos0 [8343174038472928;250456265980938084;182371580413036973;5569352561000000];
  pos0 [8703278051787421;299056577726154880;237069992801000075;702618470499000000];
  pos0 [8263332398646098;462099701234390283;441903254847212386;783685143470000000];
  pos0 [9538795266770978;23856112838179063;945100206629724774;229213417617000000];
  pos0 [2381885411675126;515333739091372603;362685612470633361;494260232604000000];
  pos0 [4146312888213457;313415458882632953;939598077818983934;480828766310000000];
  pos0 [4514906462416352;220534917855860060;836213436019325824;273588820228000000];
  pos0 [3554799345283807;343239108864811814;455259375663891129;482810306347000000];
  pos0 [8861597789870892;421029877510276231;943960413340014454;981354716873000000];
  pos0 [1993543192797624;142959477108109110;595319556270349789;365082933340000000];
  pos0 [4145356952875416;274266974559010080;832563646381081083;303724594723000000];
  pos0 [10611509588208602;41717875487611806;495884699088220179;651431487290000000];
  pos0 [11245689744861034;181620644611454608;512959578746166431;182798262560000000];
  pos0 [11903015325788146;247621893800851681;628732830294409187;687729429350000000];
  pos0 [1978652677174702;302419010855218607;344530919151980977;947993467880000000];
  pos0 [6582738123706442;596103514830702592;320085621100769401;83659527858000000];
  pos0 [5655144156006876;486203822356135224;803415498636020984;247393207808000000];
  pos0 [3884703104585935;585443009344878545;762262429305813648;264327132551000000];
  pos0 [8303800842611250;995540217507201854;933221152665292950;552724592879000000];
  pos0 [5836996049295009;672326828030038554;700715014581454174;899834202565000000];
  pos0 [758323751554989;815309355587814811;770598355760592149;746597725855500000];
  pos0 [1286492521609441;855860217478690036;989024965376638834;77427139758000000];
  pos0 [8899107005314475;716936320356397865;439419729167425914;731781250304000000];
  pos0 [1189236480668926;105610205837633563;690886482835274741;279832497282000000];
  pos0 [2889839089754711;96024998644905502;585759748634455700;493998778302000000];
  pos0 [1699214152159150;511599767468517933;300657039136885380;430313310392000000];
  pos0 [875743310810307;753995582887654950;499924968248107832;28743486942400000];
  pos0 [6116902847439700;514776643587898960;884456297487402897;399976830311000000];
  pos0 [2104688839985908;11811249406728593;292952863620707006;783592095175000000];
  pos0 [2322739483044276;940699419566869934;538585747231407095;335854907968000000];
  pos0 [108951463965766;11678657321590155;617507364460373828;873575497427500000];
  pos0 [8024454157344759;40581451494208611;970224829752016635;493539177690000000];
  pos0 [10427642640844968;33623495629159832;140283054364146579;617702660400000000];
  pos0 [2181826101794792;400092393476393151;623301346642786816;982899130987000000]]).
(** JaskowiecSukumar2020.cpp:5017-6169, order 17. *)
Definition JS_Tet_17 : raw_rule := (
 [[pos0 [133026098233063289;510531822221045738;231419494908576824;147179795600000000]; pos0 [460255196000461043;530925905014948808;115989100041151371;976474855700000000]; pos0 [396126929522049543;681492416231478094;692659690889637617;11785479800000000]];
  [pos0 [253136177498434756;306269781347376123;15437483315306246;147351067500000000]; pos0 [41641913127445715;246497322557470504;488469894763533926;344336261870000000]; pos0 [148174711279267276;71112089968292390;373555141973483025;926864698800000000]];
  [pos0 [68983658564089139;436302287934681711;578953156856551275;125188724460000000]; pos0 [650212885026982069;477241894173635881;547006898572831119;228951836800000000]; pos0 [6792271395674992;636535801185917795;653244452815281364;29330339888000000]];
  [pos0 [294011878573861323;97364216283013099;226914689667188300;604281672100000000]; pos0 [548013290342830349;356020227754853210;971568367193869401;930062468500000000]; pos0 [96590015738382369;582539323410234743;20931083469429180;412558043880000000]];
  [pos0 [115302435865384005;733666913825202225;408479310324120087;599902020800000000]; pos0 [282407151178844834;52122613303786000;972371506028883486;371144858900000000]; pos0 [528655631830059510;864975321641488483;154885962476286700;289039225800000000]];
  [pos0 [176167510936140398;418536475636352933;991237624245939320;513813145700000000]; pos0 [766630046348298121;31518298006260688;858454978800332018;741288835900000000]; pos0 [42790508237920105;699039296599036700;464473716794332845;208376144810000000]];
  [pos0 [138695338330526524;584658140741039964;893290094587703647;325722254800000000]; pos0 [325228692333563390;484396371492494228;506375201774073819;555500360000000000]; pos0 [49311405231035745;87877155602405092;861337102921221367;497187441820000000]];
  [pos0 [265335331562572991;363893438414476126;715874462013673586;864866952000000000]; pos0 [74808301404608677;312901793406761065;950386940011427288;724181048300000000]; pos0 [596938149140337885;790718373179654473;824726934086125188;454262489800000000]];
  [pos0 [325680619914369125;264127387959562902;986671757688356444;401182407500000000]; pos0 [7874771181126466;339643222818674473;34195523267951724;372405036300000000]; pos0 [193329300614339097;71108990953735812;805698056927209524;274504134200000000]];
  [pos0 [164133443805718769;823310668947674784;481478546362994137;192640935300000000]; pos0 [301774590876034376;522357056058930237;390246467606064021;123523581800000000]; pos0 [520934332660866960;867221557477983940;289306627258773916;403587867000000000]];
  [pos0 [14420206569025703;394869205098613398;870758293760755478;704400996620000000]; pos0 [409740649173770820;825316889636521575;675886585411594;471190198500000000]; pos0 [12511018097578964;685168564823092244;371517695469121541;514512796960000000]];
  [pos0 [506538129166530744;52147814769109143;661369263186899969;388737477500000000]; pos0 [73149799091555426;809671937983398381;469934983933819103;92820389670000000]; pos0 [405835636777880435;707009204447084327;311023383877918340;222991106600000000]];
  [pos0 [15715019741406981;619758231283424146;8411257847586232;476459585880000000]; pos0 [150897730123261028;676515798720444373;621534214135275070;154349543800000000]; pos0 [291639051741753295;103447682669683734;222252863517447236;381354220900000000]];
  [pos0 [166519201135426868;174350015303681855;308995358085570456;602032698100000000]; pos0 [44344278397918023;860185685169436416;54047736385995211;131556060460000000]; pos0 [528081034550924349;408776473408639339;627320646493857095;275740332000000000]];
  [pos0 [372241861981192392;638475365834684882;499998896376752949;468885891400000000]; pos0 [246292396811739301;368492037466760147;213668533775320400;610662383700000000]; pos0 [331950598026982990;264070929680072421;290125368130601194;897969410800000000]];
  [pos0 [63596103969219800;190335005895942035;550004429521510478;49618699290000000]; pos0 [308930019238207511;800222886498948691;81960341591574779;792821957900000000]; pos0 [15272021402495487;739556856227472014;415370311147096386;503421929890000000]];
  [pos0 [71375497318870185;584437500782578131;953420311541155279;131799897000000000]; pos0 [4816333630342450;49027836960325540;940670067918952262;321995753175000000]; pos0 [847252023505756592;561513083089166345;797216552619227489;703161617000000000]];
  [pos0 [436855502986996194;750283031078337574;964851833429531346;724440844200000000]; pos0 [474489989976842817;456006129939625413;104104350034836641;518317525900000000]; pos0 [9760707739329590;854396291100155605;413489928955278322;135695097804000000]];
  [pos0 [73793531855591613;195816890996218633;343386185445521321;402755538200000000]; pos0 [590269531553010931;923109726996761738;290436606929487914;900169993000000000]; pos0 [273402734414350768;571250762510534312;682423034736075848;586034517400000000]];
  [pos0 [258051683221130782;232348590114484887;442164851818273448;630334681900000000]; pos0 [472913989735783065;127141914239299709;299733803163463123;946310397700000000]; pos0 [262949931963263728;291936377850737148;204010974769551400;13460293700000000]];
  [pos0 [45122840500550367;738124907853836144;429436389496606212;862185775790000000]; pos0 [266759275864040957;579718731294188076;738436066821385097;486478776000000000]; pos0 [161579308035683888;135793787060461272;203467871000970723;383669168900000000]];
  [pos0 [54635678433257608;877489212082221952;411951178537242385;146250019230000000]; pos0 [5513008229521898;14320687483073201;199945654961193746;360602457857000000]; pos0 [13388588851430796;816554312411055521;256634314161041362;609408744540000000]];
  [pos0 [554847443619523237;695404932447741081;435713788734861544;742958450500000000]; pos0 [191966978430089430;752484547947881144;942514488282211583;997624395500000000]; pos0 [246818112641705898;13444913766000704;557291259311684991;982283745300000000]];
  [pos0 [254055367241270808;585494863073704207;277252543671297682;250075223500000000]; pos0 [75349303759307669;195660434860229880;663820120698508308;364128508960000000]; pos0 [399504332850074468;321627817748980643;587834822455908013;273711080600000000]];
  [pos0 [8732659293293893;588862404329504415;150477631244458936;733039965953000000]; pos0 [247657949235266443;673569497895268325;516498131476935508;547347306900000000]; pos0 [166180168057671270;595082502289459027;955903382536089930;777186692500000000]];
  [pos0 [12625143923327342;405696938539897503;720229776340024762;855076296860000000]; pos0 [312341614058208528;723563207193656271;301307741529645109;863546338700000000]; pos0 [66924501101416181;473956694628779241;976611528528110216;99592653290000000]];
  [pos0 [7660325332249557;290819848019002390;481929636529739747;502318817880000000]; pos0 [495091665233842468;172205894440682895;258249530282340268;504494244900000000]; pos0 [54092774384044345;339507421602108196;942198871310473602;380774764660000000]];
  [pos0 [12447351280408358;783255725012290526;879379971240962438;293615138080000000]; pos0 [453011461318888090;694098848994969794;950921743035798874;47900395400000000]; pos0 [482276885971368784;118179193998647431;274447097454415771;554664793100000000]];
  [pos0 [11370274509284214;811044253252726045;731244582194978517;972975476240000000]; pos0 [103766762742463080;791989936865199970;834828054152681043;181987818100000000]; pos0 [14650181314107159;78369251383805415;348837220210325661;148251582450000000]];
  [pos0 [406769204245285562;613247859907509416;507379596580636237;838627677800000000]; pos0 [181261336574625003;75210548981778397;666268805520924586;929365348100000000]; pos0 [405273681384336259;377632108123090364;644935223656974552;775226753600000000]];
  [pos0 [76489298907986825;272782611948572816;346110035699966183;153359138080000000]; pos0 [598479683553789110;557579939568024578;388078479914168395;965342794100000000]; pos0 [58675498435677260;34016577957562020;558412214797605436;165599888510000000]];
  [pos0 [11124334459558098;939600607603137269;882808886670853512;96246781890000000]; pos0 [10981348803649543;366884045966349801;272923501974702762;593041557790000000]; pos0 [905654077537876133;524972861923055691;995857546059730761;557414639400000000]];
  [pos0 [43368725635770480;845058489100501182;688994309320454454;64939258500000000]; pos0 [588304604373622394;668059561642280694;349929492564933073;718589576200000000]; pos0 [355673038556737153;630378261173503715;527284040641761828;288007337800000000]];
  [pos0 [769875350675297502;514436139397299954;886254599290197967;260921804700000000]; pos0 [209395027350198539;687830036772410558;713635214249114078;174558951500000000]; pos0 [1570960039093291;475281626473951560;259546395948328860;372427837344000000]];
  [pos0 [898222075861453173;914026375700920935;573604023042000210;105829741500000000]; pos0 [8619187774470037;674999117138521281;413967892370876062;937968401411000000]; pos0 [80765961132903327;384701650992701781;415684651309726544;860946154120000000]];
  [pos0 [12596087448402958;597218374850617109;98743064132744242;300792276140000000]; pos0 [314084589943090167;935843764307882213;415545049610887846;39890424800000000]; pos0 [414009127698778858;23190068380784555;891513068116676721;238317237600000000]];
  [pos0 [233913100263437244;126571769350737414;282129164684296690;981594067500000000]; pos0 [752207205648508470;377230112674632154;422938750757600383;980666943800000000]; pos0 [3117426772700751;992606033214575579;463710002143724597;297029574696000000]];
  [pos0 [296717812775977420;175571613864257574;919954830877058728;21782297200000000]; pos0 [418796924115098501;982910891020725985;63732093715885944;121839021500000000]; pos0 [228814997685229585;256862650668314869;123069208576440664;193518611900000000]];
  [pos0 [16004673127883035;632041835393649331;344095589408465544;12024925260000000]; pos0 [11434574516933632;754812519995929504;188162896520840048;788247809150000000]; pos0 [311452500959665143;515262978768208841;963257629513637441;596819255200000000]];
  [pos0 [172033149812137734;355790654776036998;379692932390102830;826371071300000000]; pos0 [688540948951120553;778898240278588909;129604120841476584;537538205700000000]; pos0 [65478569470178475;990959577853948467;383167272777396035;340670434910000000]];
  [pos0 [55223378430799851;978391339403321800;158967792678038796;99209798220000000]; pos0 [501034672594089811;614786002723723950;601577275698182035;313966942400000000]; pos0 [290042955102777151;514754161689680577;931663550794956341;568020652000000000]];
  [pos0 [478954428430007871;815330654049850670;787232186176620868;707372616000000000]; pos0 [154237739502546985;289691017147712592;576973697640676131;813432699400000000]; pos0 [177615782455503380;310486293731439509;212169586028651058;587532019200000000]];
  [pos0 [8874100797351389;618987487719360103;891653565393508582;74986844833000000]; pos0 [280380847537211105;626975856553700308;927164267747016049;241184645100000000]; pos0 [293440900134602141;496393251480281972;222291613408906296;602944315400000000]];
  [pos0 [480956887340721642;714602698562369539;832298625988020786;113175103900000000]; pos0 [469759382088060563;860036579306383705;225915563291540380;781440464100000000]; pos0 [46855856960795293;661046696823640175;215904751015937166;585540114740000000]];
  [pos0 [136675380089481110;582487348338420729;576950527712982536;289244067700000000]; pos0 [60578928368805029;609943058115051974;57516960441256030;602527712190000000]; pos0 [740974020286448959;987324834745984256;758428730618794941;255677471000000000]];
  [pos0 [254436148872490626;868489891779394594;232010271767734790;817009208600000000]; pos0 [175796184772654707;488812979226897240;436092843285730758;42269985400000000]; pos0 [554251175023447782;617976055395155377;432549321536809002;46735655000000000]];
  [pos0 [87383441408982581;745980996237682003;673059728533172303;157975359420000000]; pos0 [161433724045417441;91153257229737539;767924931783173284;798988698200000000]; pos0 [274832858131438312;312281161896982956;622762362417967985;371821736900000000]];
  [pos0 [13198163075904784;91516355157577526;473008524692748944;392263164770000000]; pos0 [55786378732522013;193925400890820839;942763336687571916;522102156780000000]; pos0 [744116159685873264;748370650012058638;157694992151875911;735661214700000000]];
  [pos0 [17442645719614981;718485416849673785;854512446589262238;261510349690000000]; pos0 [8921674571814648;53558735738502382;927427655909672263;72712672293000000]; pos0 [73225660011837580;754702679546874753;131837282278929998;551490174720000000]];
  [pos0 [15898331076438856;998929258089183499;985918307347451537;809516513390000000]; pos0 [16711457357777420;120956292717348022;847953037017034790;779229911990000000]; pos0 [953111650946282214;973347695545327320;866073437603955106;233423994800000000]];
  [pos0 [282506561353721113;427945039404120060;82075444244742981;226009928700000000]; pos0 [421015265142065220;417264646346977944;192473929622954821;874460043800000000]; pos0 [153401659468724999;288129406533831834;735983066279800909;953514528200000000]];
  [pos0 [560511961662477812;184320273355274620;962604825898364212;548876537600000000]; pos0 [319834568817585205;156604703065291706;285691791289872472;478933825700000000]; pos0 [107648722415275840;193796410699162023;907867145121653941;393631029300000000]];
  [pos0 [56007837182626052;452296496477619187;82447914055757194;350554064530000000]; pos0 [53723544330429260;995429590680619106;887461311278894215;134398787400000000]; pos0 [9235848652934166;543865723558028969;865213277081511843;586683175153000000]];
  [pos0 [29580232215482252;363831001380491910;247507463570881925;941441302030000000]; pos0 [198473521501600020;739211464910445459;902617004701970438;299035145500000000]; pos0 [770079728185162597;317764074827963557;876805348175614865;177583955200000000]];
  [pos0 [151084474491068241;879682292670431315;16486463628072783;264768966100000000]; pos0 [132029879937982980;101599630124882966;874884198748877234;754579971600000000]; pos0 [539467938403141827;962825912598064248;113735194089942741;556267522100000000]];
  [pos0 [13746299080634797;182854107476336027;779954957934416498;354288501590000000]; pos0 [739990241399361518;166382811518566563;522316367384162821;778347691300000000]; pos0 [82215057775903824;617315727113560351;145165601835711236;460249668470000000]];
  [pos0 [251029574435736673;776938107401519363;291220813964615912;24429444500000000]; pos0 [202409442509320802;318629199607485150;184005802113004564;41911784900000000]; pos0 [470990552720377057;293562578247659721;908655757491648952;451031171000000000]];
  [pos0 [320381340374566127;63944273098476980;789601898798508070;773956165900000000]; pos0 [622797902350311930;1405497386853932;996883157750966321;856118476100000000]; pos0 [39410478162897400;595724180123415850;437510439856143273;773438669520000000]];
  [pos0 [429727170298519010;714581382129386731;105924375284033952;190931642300000000]; pos0 [75821059945444560;949198067176058078;960086802247269533;272665518400000000]; pos0 [8521854292099569;28092569453214655;897138588007696799;111900548109000000]];
  [pos0 [147509351933883089;681063895114549980;252811910910381575;162061374800000000]; pos0 [153440987984382697;940629232927383250;341929842083322802;435525622600000000]; pos0 [629158556552848580;415015174315176015;43115593669426547;302850845300000000]];
  [pos0 [75872753626455250;974112622427371399;277535464341214463;69259480700000000]; pos0 [19103940635687356;287275873905482329;769119453721813307;283780922130000000]; pos0 [731252939662858711;405459919522355131;19045354100516822;794403276500000000]];
  [pos0 [519426924132114064;77749870440579910;305066981310944473;789903732900000000]; pos0 [115401348726227589;750183904997394901;690118365674092964;148171546700000000]; pos0 [72314024652476988;598490127130746257;470776207430991026;26457923670000000]];
  [pos0 [266264696506500593;646014072896778169;969216074712309864;545789922300000000]; pos0 [372069441809291982;3259386229446091;474180163248492082;945542049200000000]; pos0 [11467637992751564;590527791809911456;787459948056876301;992693931480000000]];
  [pos0 [175471705729922334;847463233307966339;637148263931914246;77159900300000000]; pos0 [45073047073943563;881452738141199342;655812461839402935;513635255800000000]; pos0 [632426524158383029;969054572301245114;454233600456064203;390090390900000000]];
  [pos0 [413244647576380651;190114973662408736;119255203171604518;701041007400000000]; pos0 [567838833678940155;696215670914257753;804030643685911103;689458503900000000]; pos0 [4273614837742556;985951333306073237;763303563059814046;136998858356000000]];
  [pos0 [585423284495804106;335364286308753348;40278874151051226;375420506900000000]; pos0 [386664019755021890;860152151502952576;938460008818890803;4247349900000000]; pos0 [10459447535068213;824545046914927229;818727518175520302;485290697830000000]];
  [pos0 [204188292109528314;826181758983020750;335298475100699843;362750672500000000]; pos0 [346430499747304107;253381948376133048;260631211520874241;890860072400000000]; pos0 [388666469656892461;76562466918714447;991027355935459798;235632441400000000]];
  [pos0 [50381615680456655;36594919163843607;434862736451916603;442805739850000000]; pos0 [71233544134721099;568586106537781963;334387230191174019;661092732770000000]; pos0 [138076348233283898;272949676637132749;255096479353803220;494067573200000000]];
  [pos0 [369131088044348522;573276564389393968;393341559997876052;540016756600000000]; pos0 [128219389418251565;559902074448950637;567387761582648820;415690378200000000]; pos0 [59662285429203201;343570712543240501;321312784453340515;946371630500000000]];
  [pos0 [286717647600082845;94407945453608544;437512082207030903;343412242600000000]; pos0 [173243201742274751;856405285528133350;926923059509462975;20133483800000000]; pos0 [272390820063457347;399532475713918636;866638264221992683;780018276300000000]];
  [pos0 [499384566749794677;659399885269729786;369165834680938467;150961272000000000]; pos0 [43494119586232595;29437518375477055;728365963731238485;46627827110000000]; pos0 [50100545227064042;981425943486945569;492383516410647209;87164525880000000]];
  [pos0 [861490702309611190;396007081531712749;503643386462772421;812224336700000000]; pos0 [74959380371695332;780303030758106408;231280878430571090;17607617670000000]; pos0 [11357273781153913;449788841859344308;584051713996251009;886767571360000000]];
  [pos0 [181664187900395086;866068426740645809;894963819546184359;786022506300000000]; pos0 [556881016390772367;324743395684624966;35114960095543974;101200509400000000]; pos0 [77589711491123357;267632812895905048;340601651482334583;6237221470000000]];
  [pos0 [14672947429788194;602823459548325884;204043715065885896;652246384920000000]; pos0 [719459299461370977;93553259669254475;945681568211443738;898209656300000000]; pos0 [185212391447191867;476965277407212505;121062557569824524;350485513100000000]];
  [pos0 [611323217047796803;107363255680516996;15207599542580957;729721813000000000]; pos0 [5714732752008685;284739539753864295;646471913737551211;58974762799000000]; pos0 [20507867568855508;974506664878339503;124834960342998079;324691546220000000]];
  [pos0 [771569984193190966;604130928733064101;882146675204441576;652124673700000000]; pos0 [159685326655482233;395692316490965082;554833346275007756;566601506900000000]; pos0 [49846448326325176;247766688806776912;777968411070683234;377764386260000000]];
  [pos0 [10105149547336805;952618043084243602;629129471238793955;554129526680000000]; pos0 [243972608310556510;832765523932245878;220387746738540251;301213266800000000]; pos0 [12349639208519360;346007002264039707;87566415716619353;808644381710000000]];
  [pos0 [147697379010998011;627450005916517347;43357227958364268;442751087900000000]; pos0 [2578922209919277;411837010466717142;851389527696384101;67210971240000000]; pos0 [598713254472007540;550135282948943833;556082189584339816;98325456400000000]];
  [pos0 [181055966644896065;852793793647937509;785735782899148025;106471945100000000]; pos0 [10947184960973290;577652021627494115;93268858528635937;471091237510000000]; pos0 [743532023640472010;520486723920972827;217336621547901538;326995868800000000]];
  [pos0 [643586003494770890;462329845878899002;361196510978090453;325630415800000000]; pos0 [13467198317783745;910951601805375949;116267720295380884;929519315430000000]; pos0 [327520563251897961;842844375658866786;909874007219141078;666216320300000000]];
  [pos0 [290702167428694547;470326575266886187;68038399595304713;940896047500000000]; pos0 [13057297824426982;824422432846102202;184963949018304797;516518134660000000]; pos0 [544381766684923323;191453050094617484;748252378064265870;695425145000000000]];
  [pos0 [59572275852107797;128019554965447566;227476305779716475;918710458160000000]; pos0 [41899150849584080;494340198101908217;635818843830320614;936181596740000000]; pos0 [831197124642504007;769170526268771341;48912862852713479;749224678700000000]];
  [pos0 [735165810848630815;473145146905413843;474362164320451052;755061705000000000]; pos0 [161537842539846964;301497470721000712;673830457983484046;703275220000000000]; pos0 [18759617757517817;200451408564464627;9018860685596962;338524086570000000]];
  [pos0 [58766914190316263;120336258805478715;794885806870523862;913377788570000000]; pos0 [166471823596726539;680305353614887454;652719232196877786;318582401200000000]; pos0 [11406408284039924;432452285287996069;526235976209390151;241436578010000000]];
  [pos0 [78625637210867402;564018805693655702;593650062521990407;890552336440000000]; pos0 [13051734951076177;273815513826101880;93125162126817005;741870727240000000]; pos0 [893927291862635360;141564054733110138;686992930168925715;11285883500000000]];
  [pos0 [205342588578367973;849778584112375018;754574295197872166;863361363500000000]; pos0 [603955523623980438;818640426620549209;424227329189681129;634673203900000000]; pos0 [14622152664106570;857522861329571701;335059893001638528;703237998180000000]];
  [pos0 [1639977537915284;681684243687761603;897559334327774527;402912739135000000]; pos0 [304326692478677483;57200723933605563;489145824911299650;213600691400000000]; pos0 [577948008304916879;591267330742749986;286142166223645013;873232237100000000]];
  [pos0 [39035668019086939;314956726422515742;104283948693308289;660487951540000000]; pos0 [786535288501772558;586375652808466790;993061833867314987;64509390800000000]; pos0 [19407999183143259;512936309163182931;156381473134082501;238519517300000000]];
  [pos0 [467136852837884697;469150484006312431;694551639398908280;44843821000000000]; pos0 [329828821132309278;912719796915025423;796213318558857629;781722776400000000]; pos0 [12962342236532095;492567328321810033;30651793716122621;667654680930000000]];
  [pos0 [15738391686547503;319628601331807585;485651381114769421;740031661240000000]; pos0 [836217602359580598;462037296809968746;103919795904480784;757710560700000000]; pos0 [85475740624077149;323737517184931172;283346235362579897;751512284180000000]];
  [pos0 [73508164526467144;513230849025060338;622051856967822458;487998015040000000]; pos0 [58681418361610264;384587682346845671;153853324106402325;158710746240000000]; pos0 [581683929214830217;212981960065839106;261608995402558960;766225744100000000]];
  [pos0 [299626118775200412;763094051504320082;871571535500486493;445372205000000000]; pos0 [203475870966401432;465433619932910619;587368516934429925;366162315500000000]; pos0 [9484856519511231;240764807065415492;545726533437912501;292747279937000000]];
  [pos0 [14891410431742199;595104453210313320;966897886262289188;451559036510000000]; pos0 [584135062147122423;378558903548431848;890493917628470449;538103264600000000]; pos0 [3477593862488966;943299285430772653;790023775126224932;516985374943000000]];
  [pos0 [851625177997960786;781536644585027743;401383160688526748;689197041900000000]; pos0 [60176159842708591;808196213652630879;903333551905327789;868490101920000000]; pos0 [83816641339118462;825899524963407519;635588552377580941;942705286640000000]];
  [pos0 [6780202814486034;225638667039798023;20780881900178353;780250877219000000]; pos0 [522916733849929389;340009649254316370;516572953457735597;638947973400000000]; pos0 [462161910885692385;235314102652492926;301251015882554851;940713790800000000]];
  [pos0 [72621680392291251;457936640907224974;643298947476013933;33649035430000000]; pos0 [12910613515744744;955784980233885342;820512460821121689;526016759610000000]; pos0 [185059745160667671;71429809577239288;590231886307895816;952175567700000000]];
  [pos0 [126224404459556749;308401405236660065;329900703757348801;225723177200000000]; pos0 [72367602655752586;708360942518283637;248006375261581938;235141754170000000]; pos0 [396065438322695697;869488244377945801;275150693752489311;529158566600000000]];
  [pos0 [534275630546767970;803454973523560172;166728417612210979;783244586700000000]; pos0 [146165038205049137;861181563219362176;349431193284885232;58865743000000000]; pos0 [278332991016775386;946405291446496609;147717120452264311;714946895600000000]];
  [pos0 [37678343929206176;672130952423200165;579149357198912606;478590965260000000]; pos0 [747797761921928053;909472445525998102;354771839407254166;462404967000000000]; pos0 [200704953105320920;911080931071328848;614253932438723146;400251495600000000]];
  [pos0 [78713818484896296;543984682711948891;188372333846439811;562470363930000000]; pos0 [702029808037293605;43626943287127430;49617874230040396;541830459700000000]; pos0 [76990833316369269;230390338814817494;811936068424264850;491804556770000000]];
  [pos0 [9321181973730906;556209221057710866;6222472211858504;840050808650000000]; pos0 [407219149197545142;37405074097826798;710997686690274184;458674699700000000]; pos0 [150504314313133650;844528872118273258;722628151082494765;580668348200000000]];
  [pos0 [902432704758208346;408335797178421503;921904064533528908;779272140000000000]; pos0 [7210987705900086;515102066335429683;388437191615659004;851269207697000000]; pos0 [9873149852428524;14062380822687853;348706053814641583;877636209947000000]];
  [pos0 [9747842930567717;903836617844997625;672620128739138648;254819014576000000]; pos0 [466002717480012156;323970187010784149;14769930481682607;49447285300000000]; pos0 [367648726701743811;542523377881421409;275556191645859694;111579823400000000]];
  [pos0 [207999465310696026;750282041265822223;963799285481964076;762454794500000000]; pos0 [602501456270413071;23275393038265863;765031623519560300;50210653600000000]; pos0 [163559226879577128;380778094486589130;852033908636433972;713040265300000000]];
  [pos0 [80088069672076103;441429999229010220;156293710010447336;847655693200000000]; pos0 [72997161541352850;87621404260040479;182856142411696560;472592640930000000]; pos0 [836060447404958472;841631463083829541;227014371681337518;190481084900000000]];
  [pos0 [440035706666431576;15264791277158367;823102670458759738;734612144900000000]; pos0 [12241652792391110;546447956535219896;411711224233050123;454464909280000000]; pos0 [15283517552928087;142539763582643191;652982025441518025;650069949800000000]];
  [pos0 [162711028308295311;886808444888467818;668864401505028040;413174848000000000]; pos0 [412284552689084334;888760975442134148;601450475273559927;588415001400000000]; pos0 [283401547193276479;160034464709257543;551754476493837552;724082116400000000]];
  [pos0 [11711739603757518;962072931496090644;88477772592507999;50101515060000000]; pos0 [153975484528025806;70403631748715709;686273359070848670;497138920000000000]; pos0 [714816589018861771;248687770577365324;840051054423100367;599946041100000000]];
  [pos0 [337178050437537813;793381972450434740;227573499369693784;661241941900000000]; pos0 [10192984400774904;359995119433619785;165987729502136369;893122773840000000]; pos0 [80984756613126390;232677565125714268;521126700783379303;530430169670000000]];
  [pos0 [136063453282798110;382701235539834193;785972525534081411;296157982600000000]; pos0 [468653933429306812;615610295191309287;341877581073527989;115526318300000000]; pos0 [170557801151421536;580711149545693181;921119974684870047;398541386600000000]];
  [pos0 [14412381828666361;62267808139530391;862199051855120672;75340963040000000]; pos0 [578007734694818384;205872894555584264;690967178613116691;11670050500000000]; pos0 [117779504214461592;920677404284931852;792299927457792959;939141835000000000]];
  [pos0 [719172530234945886;665218209639236198;758846652533178805;342583362300000000]; pos0 [129497543303604660;834096777699809586;722814391457742508;87295935700000000]; pos0 [89352203095493814;629776601180853141;541539384382663562;184012518910000000]];
  [pos0 [89159464977905511;847009358617156371;736223749511171058;407649250680000000]; pos0 [9379559668201236;433517703413795945;723620177869406284;554898632613000000]; pos0 [323728051838341042;55642780620904585;669627455670036688;592073579000000000]];
  [pos0 [285824318664141305;738477464107794506;508105458216712967;906138562700000000]; pos0 [318656871700358367;221130075371029010;277894124053782081;946744238500000000]; pos0 [383379299854348728;688535759104411265;535761974373931277;543709043400000000]];
  [pos0 [329316439117108131;332772678017926057;297314862940400057;62437964500000000]; pos0 [471175236460454858;796516015724964878;955604804123621581;651675562400000000]; pos0 [5044105780342005;496936338733657788;256470669436574474;312139693932000000]];
  [pos0 [249615142780779736;850085168973360605;52393127582910447;250726860600000000]; pos0 [640789109559975951;30827771344666688;815394743261238983;179338093300000000]; pos0 [105768981378751523;34665942539610382;628553044619615718;525218407100000000]];
  [pos0 [882572126462655282;984994261231973745;865313757959421837;237489812400000000]; pos0 [93272084706207701;37944801793813921;613464836346047120;669332731690000000]; pos0 [15976080596289098;997280662536710586;663638635235870365;506308864110000000]];
  [pos0 [276219994135220975;178251831746946542;810503157797779021;773471662100000000]; pos0 [92026643901510260;58216869948942408;864130502867206439;157321475100000000]; pos0 [496533203136995943;589881938178192862;286860554348020543;34734174800000000]];
  [pos0 [536164865661845271;749211324189030181;866621398450621316;386988939200000000]; pos0 [33691755694517291;239176398292803750;419342075101586410;956795190750000000]; pos0 [264902912610345700;6789849284321810;829584236903137135;605245217100000000]];
  [pos0 [7952113157501166;515871803951698319;251527468277119176;402856794260000000]; pos0 [772829051763088902;555922327205758208;474280758588863229;70393411900000000]; pos0 [9249479368847982;969931970857341552;213235940687088529;569234175557000000]];
  [pos0 [600122552850076373;434352822140365263;63850293911177112;915236901100000000]; pos0 [35263081615943507;866622315234852879;653601189005824725;185902831100000000]; pos0 [1563872699172903;46807561796019237;981392919860823602;492845091656000000]];
  [pos0 [87413970505642315;522166186140002829;678149805273301190;144658884560000000]; pos0 [887170480667767148;362206562574866221;985663500100137636;494245791000000000]; pos0 [14674301502823306;869218481193488468;735358294041708198;958564004590000000]];
  [pos0 [329161932955512549;790984700848316805;443722563417730335;891573499800000000]; pos0 [49850419250484681;523440899017104714;409354404776513109;432405979230000000]; pos0 [56636189782168192;542146758376612621;580966223140625935;767025840880000000]];
  [pos0 [2156883753372778;39598327116362625;262096388004011800;964172112312000000]; pos0 [187781628474591635;891814823913131856;754710640063803117;876060431800000000]; pos0 [776933363455282583;826850013312646326;101325576877865400;252001560200000000]];
  [pos0 [89506786514304549;46454296789608095;27921178161575038;414367544490000000]; pos0 [122247782933225851;198220245769845120;853037877291369913;63422459300000000]; pos0 [58016156084576190;103478732909729967;534970931455836649;946755597160000000]];
  [pos0 [76717189052432035;245403216498363317;310512090998003437;649137196010000000]; pos0 [276295606385994638;116580110127366198;334893401501440381;535955424400000000]; pos0 [629155418062558290;811251787421568457;162706819540964600;467237784100000000]];
  [pos0 [8896274367531152;73643650932003190;721244435424632881;253317252011000000]; pos0 [602700948441564270;320554228942231108;141406433567921879;823480586000000000]; pos0 [209562195350851876;908269436450446061;755716538052379257;793089560400000000]];
  [pos0 [511542505789298174;474140887154905805;284585086525966525;376451273500000000]; pos0 [11054403820377118;523534154195888154;661718578849134409;611888565370000000]; pos0 [188526738736321035;55139243123025714;987970993976721589;576398613900000000]];
  [pos0 [710534439136911018;605031709317324563;785229250149075374;224777756900000000]; pos0 [81590481436695559;221825067433349336;660197513918444925;562837126640000000]; pos0 [58358691041660123;876780547839669274;681536840754604455;477717981810000000]];
  [pos0 [269859452242411881;986993171081394470;188761003813945595;250198405500000000]; pos0 [104736042753682013;825324552909056175;603168367290380470;396300848700000000]; pos0 [16474402281045781;630720278827421390;705126136399323224;743977722040000000]];
  [pos0 [719310373531632009;623003624413398017;730301006486860108;310737782900000000]; pos0 [77781726054149070;388764743131248389;100131924344298356;91104510230000000]; pos0 [178581459361189178;68646385344280870;932999813716087171;47800727700000000]];
  [pos0 [484839248314907810;638413069594948334;59283968381641735;90521013200000000]; pos0 [2267004853158171;343498955721873875;848123710860941735;953744832875000000]; pos0 [90498861966760683;654414363371886312;235589045960602364;222676472610000000]];
  [pos0 [165368695540938292;27182036641178384;622555938745920006;972654016100000000]; pos0 [6843967007020116;552977184416160928;149855652626375693;583419435470000000]; pos0 [700223819028792687;611627639208042146;203593052387249054;742218124900000000]];
  [pos0 [49851452225882633;583419284121412242;369299669723162334;575330302490000000]; pos0 [499076545045078078;967386403834602044;65202605526790955;319007922600000000]; pos0 [39166291938414721;137056123957651571;871461374018431852;751128146270000000]];
  [pos0 [611527405387862523;449825685633986621;25808536815179346;381833014900000000]; pos0 [299200914961105443;194342143019655688;853568977927926158;355557156200000000]; pos0 [4594802519005919;153973685715609328;262008758623593127;391354913483000000]];
  [pos0 [427771360184992555;155118927617584811;889240763879766421;558352695300000000]; pos0 [332829441804108896;46623126691988196;385331554299790161;313250339100000000]; pos0 [86928891955153515;344476210447516985;306915389977973206;106695550520000000]];
  [pos0 [487359217135571474;876906385042509756;180345403358883928;677138488900000000]; pos0 [93956840302243480;79448471169635078;982833379942849968;462216031800000000]; pos0 [299005623686625580;905150066127493549;384333847704075533;392729771700000000]];
  [pos0 [461968084432676642;214908293106001232;438836055955097408;711086385500000000]; pos0 [247503522240830365;360221738459846165;324054292452403448;496304181200000000]; pos0 [201553788260489213;53305573585752131;962328455904464109;898977880100000000]];
  [pos0 [1962120862808291;237717077437961374;185788163403115034;740434275848000000]; pos0 [57775114836162522;280102723033918774;79717650027615578;637174956580000000]; pos0 [385958523586321900;815989170500251506;194911047618039039;293683361400000000]];
  [pos0 [375992685344279818;490982854785649214;905770430047443654;497364088900000000]; pos0 [477267970118983065;30594942922476477;683250750460655122;411407744000000000]; pos0 [134497898767264815;458250908965364320;971584592078876405;451013001600000000]];
  [pos0 [320218650213693729;805063345484733000;290946664507275048;243437096100000000]; pos0 [12781310184591042;748949348234994474;550111965231331527;833403310990000000]; pos0 [658789189053325096;54825857785445935;812237535076182876;194538728400000000]];
  [pos0 [143624206055336810;762288136426604016;731257155828198973;55976091200000000]; pos0 [787615897497191512;724272989537832735;639301642178607768;793448223200000000]; pos0 [9284231413564186;151778939516859014;578807407173057210;537273641448000000]];
  [pos0 [91150503113710695;647138362841085055;692091202140420211;56647739520000000]; pos0 [414896391964373853;648214445120575880;304853308902566630;297871291500000000]; pos0 [387701085100309753;194276042773899356;84901528946755350;459287491900000000]];
  [pos0 [830271166382178378;937389807975541943;911378185905112050;638978569300000000]; pos0 [51286683779842665;895171730372868736;576922355462317462;963914379000000000]; pos0 [71393932130819554;971037832347863307;437108590843742601;643231709770000000]];
  [pos0 [12440922771912122;386022591669190537;470493857878393019;466373610210000000]; pos0 [65471929800375363;467448580408474666;7492840207667885;155335630670000000]; pos0 [843061418797881012;598282779682241572;946834473656472505;783096898900000000]];
  [pos0 [58763491932148184;655931283397344008;628183588262730492;504261079890000000]; pos0 [160993464846025647;640963819649086841;636605819500576460;330941577800000000]; pos0 [162856953795646521;411269229429906961;706321096663957470;987673448700000000]];
  [pos0 [196175135940257435;255048094499576178;308972302396461212;118677662200000000]; pos0 [6337925963617491;666901186043363927;222117525143601416;813175044166000000]; pos0 [83927504586152579;798535827068280938;101272560618502894;10805540730000000]];
  [pos0 [184728103190527417;349630225243058275;661837459876969255;118848980100000000]; pos0 [55622966804999887;790486469354275267;334092409150302906;300372115200000000]; pos0 [56925135785916937;536938753985395040;383340938310657601;124908145920000000]];
  [pos0 [85016506860519172;654543935991174464;780209897540329254;837983837830000000]; pos0 [13391679645066960;836312108827743788;969916133747456021;62954571870000000]; pos0 [75550692492546782;58699659457390062;194006571123470595;750580263420000000]];
  [pos0 [75415746131700155;732424891313126658;185273956365301018;27181869280000000]; pos0 [717962301988995950;153686229732386197;919778281843698566;389987746600000000]; pos0 [144167909189360099;533583167963190022;896603289435959285;925182275400000000]];
  [pos0 [275414965798618781;917749580582655384;578701086631476773;648302255600000000]; pos0 [636584788079388585;885461542907064759;645386066516410224;505718350800000000]; pos0 [13708728146038313;452827255375100324;69420347107552672;494878592310000000]];
  [pos0 [532261177481527356;699715495254661328;848743732011036244;589591606000000000]; pos0 [135649835954806121;921407834830395965;710367607053451398;234705470200000000]; pos0 [9954635815040293;937663728532158563;631937347125506514;487358388606000000]];
  [pos0 [179822525187736969;361846511260405303;986784816731076995;748654203000000000]; pos0 [15217263368470242;395576260404827119;694873517268340660;659775466000000000]; pos0 [791376089633379707;64762848213646990;972475037007970430;47639235400000000]];
  [pos0 [45148120233593012;495268376300612403;900793237805965848;540278206690000000]; pos0 [31152215597179676;108938951026397239;58542800032317646;626999701150000000]; pos0 [415100516083015640;226003070913899910;309563210029028878;70392464800000000]];
  [pos0 [245940474808161354;470073618668651760;635289058411090860;619940743300000000]; pos0 [355789416748473966;143490975358986086;85795574520041223;665260998200000000]; pos0 [125069865531821649;351201606472247123;879373103083136464;573878886300000000]];
  [pos0 [43959697379050170;715106162227657245;770001736882377940;65728736850000000]; pos0 [881754818602369847;322448403128403180;546038558911386967;749721314100000000]; pos0 [2287633944252364;652949978653950122;477008963673168528;969580602402000000]];
  [pos0 [275729701765646408;728546571703629111;386694666572654670;810614272500000000]; pos0 [10435867986219646;94403730407729703;714941957607724870;796496335940000000]; pos0 [18537875423477923;342670381294649418;878963265737837447;676047444790000000]];
  [pos0 [4622555388209751;807214469701016909;703774454818331931;215750129441000000]; pos0 [888773457219687724;881370315046533605;84973352236261113;527235263700000000]; pos0 [21393117585820158;642582853370641748;802124188145884930;55168593790000000]];
  [pos0 [4803089824142454;63957907483587194;624807696654604718;29593577890000000]; pos0 [66739547530232482;72289140874096619;509612414638106927;138902144410000000]; pos0 [209455146360271362;263188771444472846;727168236001777765;812182596300000000]];
  [pos0 [457374481123507986;454166281510474898;593591846968631259;885875048800000000]; pos0 [37306738890944543;837186259831931317;837411345852547829;741712978080000000]; pos0 [425063615326825176;979799895664536360;295468576115109669;21570019700000000]];
  [pos0 [201423706999669906;670815448617735282;587832077069391284;189634451600000000]; pos0 [304902484708665890;854042744626625489;311521936506718870;687552316500000000]; pos0 [247561864157731419;698790082078935872;367246846493485205;833807054300000000]];
  [pos0 [632222557705599553;993697443560002906;487788889705342361;820130562400000000]; pos0 [77223962606244304;336265329324952333;282753316416709868;255924511870000000]; pos0 [286984185417805802;156920072751210239;338053420001939128;176506151600000000]];
  [pos0 [16878442923798494;713700465698733076;354605780030872859;433100650200000000]; pos0 [167329709866406845;174073045412361395;418343468026079252;956214048100000000]; pos0 [65747423084469668;179545397590823306;757569265383565601;880790899190000000]];
  [pos0 [14358311726872207;217549587553121189;73083563089172879;582958621700000000]; pos0 [83606275491839304;828321254396281400;918887508929836067;334169278340000000]; pos0 [887225317936763496;492019894068867678;231169228799066430;145400659400000000]];
  [pos0 [9150281621700694;139699999130135475;533891299617478174;334005303601000000]; pos0 [337234391933192980;947279985943759673;726338509781734921;866092979700000000]; pos0 [638934988126282661;581847772170792166;403246837412972328;613757852800000000]];
  [pos0 [62021895876025813;877372875266263766;865902411423039338;364543910300000000]; pos0 [55253885758065335;93595229204940798;503232005080995486;988824580760000000]; pos0 [46027384889908482;476489392651879579;38391429898882302;287630347920000000]];
  [pos0 [9018782020859701;553691266608372998;206561236358653289;253581792657000000]; pos0 [20915328606716622;70074893366937248;548038703715967528;167015521890000000]; pos0 [15300037809917450;209661795978771793;148218158617251010;361127108200000000]];
  [pos0 [263708758363354864;919323080975402551;956737075186595352;304305689900000000]; pos0 [261340782844951262;34153050299122904;336485121383796797;656942346100000000]; pos0 [55293382936966856;726212528978886032;172839847297588053;280013849740000000]];
  [pos0 [164175773333482117;466095059748006477;751751278431243112;394381615200000000]; pos0 [515345958005559779;664129172405305456;441091001509306170;777244684900000000]; pos0 [15433258871934965;801168455335817418;325553815371186911;173099116160000000]];
  [pos0 [60382864525843903;731356282876749368;347573105238951015;214328182210000000]; pos0 [602674594546639327;212646933039227667;984041907712555012;674466327800000000]; pos0 [166621030642538354;281600083600066082;916303275271917749;60781358500000000]];
  [pos0 [205039908044097532;213087905316685086;414241670178975412;397483342700000000]; pos0 [72952421069817441;375934390169126404;957674548704308122;349714080900000000]; pos0 [709572998965740049;215373629123583687;301683749046442406;67072175500000000]];
  [pos0 [736348578776115439;268543043113551426;915919028498969648;583528538400000000]; pos0 [88159482776810834;701045204596901757;943900530454440245;600807416840000000]; pos0 [2576738135949552;468446376498464496;42313153095293539;739969697593000000]];
  [pos0 [482060176968194332;619089437678829220;602635573069262860;665892587400000000]; pos0 [14369383504843433;450383195345431651;275406795873890388;805422086450000000]; pos0 [488368779966624916;761584579961049343;825827465077218912;603742530700000000]];
  [pos0 [13920281269259776;30375537609725950;370609900567990857;299394658460000000]; pos0 [5918985239768515;508739930028845026;18924610858763677;10299756173000000]; pos0 [492630074437632337;45558544787474416;172052128698067470;358615119800000000]];
  [pos0 [766819701044523935;823052447980715452;671940326080362834;508261178200000000]; pos0 [12445345190916732;462341513820030781;250753104458789120;228198198430000000]; pos0 [174125583106174882;369235209640257834;723879740350773066;692445586200000000]];
  [pos0 [29217976128514806;387528479478201969;232648576647066147;143933438140000000]; pos0 [278888873688809158;728628776405877075;438597274098196843;338724889700000000]; pos0 [632979968231441660;356396217856998803;975013837383765750;220379364600000000]];
  [pos0 [401466465070998681;206407915782532800;888063319069506195;893871678400000000]; pos0 [76022039981868157;56567730701302261;157433587489676357;879928911080000000]; pos0 [258804374791563660;308970422583711395;334200216804267672;862112735400000000]];
  [pos0 [14300186298984891;602250275146642075;826739033516387207;659881128330000000]; pos0 [654718465267381300;206317150004704723;129336335327077912;42993233600000000]; pos0 [35193713877077441;237423731991246379;253067772399332492;37291187160000000]];
  [pos0 [122287022704202293;366119164239715423;633169355425865239;632891187300000000]; pos0 [745844200589357525;434848136395138618;713617878743856497;590396228500000000]; pos0 [115840989840479964;935218603470688828;954403412838534253;517164344100000000]];
  [pos0 [178996518148969701;546090563795016818;825120214018133888;692075711100000000]; pos0 [10941327350746631;528544513443922311;514592749409020361;133513377140000000]; pos0 [192813156899935901;511899814482451894;55576620437518621;288930298500000000]];
  [pos0 [118273781799442478;247252339365443852;845403176257598376;778602311300000000]; pos0 [634177748990509180;756805859875011478;55343010459428501;986577570400000000]; pos0 [238399413607824024;598169801518940311;378357889751140034;483442077400000000]];
  [pos0 [250174638237307934;745349959766068696;755422928577906314;521547771900000000]; pos0 [66877627453983709;841069153969679818;8444544350463121;683113958150000000]; pos0 [283634095846402095;941687521657435058;633414292286490333;488748586500000000]];
  [pos0 [150927730965951460;959348553724762570;475248507291338031;733508988400000000]; pos0 [14709357070291010;325454612159594076;442224341115579198;86269178510000000]; pos0 [441504028436967923;685746395028964994;531747648017443103;508445761500000000]];
  [pos0 [786780727234778462;151148247355228395;40348980620411759;429974884500000000]; pos0 [17462228289055275;240149491360001699;650742677519184138;35376613270000000]; pos0 [191556224830010725;675368503070124588;253347165083303460;151329614300000000]];
  [pos0 [130986974420309368;429928555182094225;156149504982923481;817585412000000000]; pos0 [246108528688816834;966693298626450315;91223222677454008;584875910800000000]; pos0 [301522536624541199;442808750484460721;618115551736276437;91405449000000000]];
  [pos0 [7083020138221714;551649714286774832;971913373548357814;365967518152000000]; pos0 [156506171624177083;872633156628754258;247129408387162129;941249150600000000]; pos0 [457693988321998977;229368565075243493;726098113254419745;319864129300000000]];
  [pos0 [685550879523249098;881859432292789885;469258180487446164;573329373400000000]; pos0 [271107108340554366;38146503494270704;244034552640027109;92754331100000000]; pos0 [34909207743603139;572554569417399601;34127549700845119;165155994140000000]];
  [pos0 [15072822481282770;121313530262396485;203085438994928448;888065821270000000]; pos0 [587725318880843404;157247832200024664;912502307527511292;802183374100000000]; pos0 [325858847407158676;758533676877860678;597579491945904251;63654049000000000]];
  [pos0 [863522366029097136;353726474653572752;893923575629160646;610560012500000000]; pos0 [6658044436029420;470794791322011991;16385170830287976;32748611438000000]; pos0 [64996197477739622;342229391476629306;195163917647038531;808951467350000000]];
  [pos0 [314836736482197408;579474438460947307;612098239064647179;983526391500000000]; pos0 [15787874050387779;256351516247484561;260186310442918822;913536312720000000]; pos0 [615616751449441169;796257629687060019;229256392758601037;118111883700000000]];
  [pos0 [63329523476996256;881461643862141758;925205000398854192;769390981620000000]; pos0 [834330926272818999;311996716202931736;223980914599958904;651575035700000000]; pos0 [45002571768451293;306731025880863953;574537459693250996;473145479440000000]];
  [pos0 [487929953477484492;497562343177208682;971550280194915290;420963089600000000]; pos0 [347565167298389196;281918852786221025;8036188914857551;972787589200000000]; pos0 [33061826581078462;71615485560887274;283682262289141935;609084385050000000]];
  [pos0 [458995474433969151;46027753464509830;404952776373910211;261881780700000000]; pos0 [3087120738666054;607539294907347306;274681395022492405;373377710235000000]; pos0 [456815684691575336;64255773819581729;942281351115742831;199619041900000000]];
  [pos0 [67924552507742026;363359909077642930;765785844515350675;241819942280000000]; pos0 [152416233359947724;253224783854626526;668114587371745434;106393813100000000]; pos0 [504461375286771088;668587252404219616;141014775985858200;768782191600000000]];
  [pos0 [52824646736430023;495738599223051835;120414039999702099;46878818610000000]; pos0 [305855210221676292;915601386893825108;828196812717538725;137420479300000000]; pos0 [221709877482807513;994935460838498654;263021799978787550;576554374700000000]];
  [pos0 [417514450709960892;769037239281392002;177436922159413551;452580823300000000]; pos0 [49254689445272301;466625639107664082;485478156492599269;787532722400000000]; pos0 [463012160230648560;296402026828878304;206802519019574750;811933811400000000]];
  [pos0 [762853604928379318;800747089779140142;331297384350836176;302565245600000000]; pos0 [13410372898857300;383545451781607590;599792463670610641;274090530090000000]; pos0 [14590805267173672;183427528534513395;707808499124249127;171811230870000000]];
  [pos0 [597791727256396921;618897345508305225;289044843553049173;580355856100000000]; pos0 [194678684404317309;577396667186676188;25648384843237724;193653820900000000]; pos0 [16779900584459483;247794832631748270;413754344837639269;586354431950000000]];
  [pos0 [611139851895813056;162846384570692871;685978508026854864;74821508400000000]; pos0 [283768666360377653;958340798854738501;513742014687206743;951155423800000000]; pos0 [47379527171536303;202146540755646979;600827360243298251;45419248530000000]];
  [pos0 [697763547184506968;992950391288818126;464114544169059167;654341800600000000]; pos0 [39942768874550839;823868683606248135;470496698646128969;223857907430000000]; pos0 [151575038856888818;497353060700563652;47918093243932508;71741749400000000]];
  [pos0 [16731249799202297;521628495954191163;898324380839146808;665645806920000000]; pos0 [954143837414389717;491905955976923052;26699553068819438;700436683300000000]; pos0 [12475008468160635;647361189756564633;254896456137094983;263739330220000000]];
  [pos0 [67260047155405644;913807408904278817;534185954068459068;117053830560000000]; pos0 [432295380116175308;165823417003509865;359722386600962078;244585811500000000]; pos0 [454479981814466443;434893318875023257;809155805015911975;802661635300000000]];
  [pos0 [83380323998111409;336337557260912449;546923905540238723;918831907680000000]; pos0 [461049453321815286;801382465316200350;548540155045857784;119347244600000000]; pos0 [10375214127963558;980538678294662755;605764079172331974;592475504270000000]];
  [pos0 [68345632433006905;966628787975467657;818519251799922278;853622425240000000]; pos0 [91603873335729988;476503092858552838;380345114262040059;525180565070000000]; pos0 [694464134531037902;314358240392288467;920835125636309838;387621969100000000]];
  [pos0 [833320536753805475;619889334988002036;696478626411528644;105260403600000000]; pos0 [37885091127165455;110215445223377612;599363372037919918;593111546980000000]; pos0 [19168003535111089;237994843097895068;214766564787073356;641738671490000000]];
  [pos0 [14196799515355202;158582501554661776;556897693425574632;902779889320000000]; pos0 [14897633255220532;224591822205932792;629938719685854840;959784086450000000]; pos0 [170438705682020944;154527418770162759;441740624608744547;502869953600000000]];
  [pos0 [639783312766877849;956968834208723693;401297699901665996;356232714200000000]; pos0 [65476240321349676;577877753833473551;888726588853993841;416754792910000000]; pos0 [25694746080606271;401875417375660112;928014223003351413;906531140750000000]];
  [pos0 [183138559018900884;623872221202464644;84492410405428269;62854350600000000]; pos0 [170388192819457211;694572591830373499;988971780511204431;154452803800000000]; pos0 [54153419430446761;455853240793373526;988863925414520173;864204563800000000]];
  [pos0 [57764509497515226;981790807627921036;732814205445692072;388811109670000000]; pos0 [850461260331836429;705938227691364216;619295783183931416;612515378800000000]; pos0 [83510623820359150;503787096344076291;946202422289798827;647055149320000000]];
  [pos0 [163804783132675386;131279120803932653;22157551109535721;840258302000000000]; pos0 [495398281908986937;244626075675910118;616595034083998177;596009475600000000]; pos0 [296029305680693149;714079274494053729;763020836392941358;377344075700000000]];
  [pos0 [408254945878951578;299304255420398147;261824493326040193;285087316300000000]; pos0 [268956905423411745;763179867157217560;337970479385428831;842840493000000000]; pos0 [10914440553544537;887210787289343434;606514548099559065;502308730170000000]];
  [pos0 [3592680258378689;878178047583055066;154767315762020287;763348356609000000]; pos0 [691697897465012114;353891778583184140;447303159939793687;246670059700000000]; pos0 [288180898564124757;499057250185998815;911532330132184407;568554853300000000]];
  [pos0 [15106438414344353;82481404802574460;598056326737603768;760610049900000000]; pos0 [440582290909016368;683186914818237884;703724442180600039;927972128600000000]; pos0 [254529903756578871;50842823102601235;38402466487933088;953680024900000000]];
  [pos0 [572657569827252385;543640888205723708;59993466182472975;215654375600000000]; pos0 [168518901705262928;665896316327799009;430203665552035908;449175540100000000]; pos0 [75518042663814793;487826835703910242;121820016078853057;919081840430000000]];
  [pos0 [55220076871998341;750324817218130662;688986025433965028;804290259850000000]; pos0 [382964463859889959;323055354070472241;526907529051659510;141268061600000000]; pos0 [86503426228362231;271893910175179627;505014320156046382;56397448490000000]];
  [pos0 [267066165289863401;987476755768346642;252567729670009258;600513832900000000]; pos0 [227652663540171994;34873818621498507;3753875886582851;531677720900000000]; pos0 [140756004590144037;308181127222942455;240767465230500740;430055615700000000]];
  [pos0 [44501920150574314;815442145208173340;528791257768400980;907512921540000000]; pos0 [11279068788990645;420352934231766183;926700952119535176;178592454680000000]; pos0 [638702808533566974;82605228873863147;131806970627780815;748095211700000000]];
  [pos0 [173057226080369497;357962720971414635;668141780522012097;714210908600000000]; pos0 [335987055715490120;27052205117021376;686523309982899441;402941113400000000]; pos0 [8717372424814726;575324811581848383;462372575011760338;82547324151000000]];
  [pos0 [354936533488468371;819041415919954817;287206611706068276;818746901000000000]; pos0 [72200779067592700;677961509852262864;551686870002504679;646741091790000000]; pos0 [561483144783607837;867166611786878439;197250118202090644;752050960100000000]];
  [pos0 [9784582749263887;996720691826601335;198779396397787855;68033690872000000]; pos0 [140555187887621768;240665031354380248;630275424145214465;901257329200000000]; pos0 [153060335238458724;290021663681247821;178812594501013017;125584130900000000]];
  [pos0 [152472592054580886;507353878232755282;540129983928469618;39055120000000000]; pos0 [428834238004343981;738739102773700474;895613941642987604;199835382500000000]; pos0 [72529631930412119;919438701713645210;901760642359472898;615967288300000000]];
  [pos0 [147074966700983486;219996456126693013;705647039292712928;624684126300000000]; pos0 [86132751088651837;38651508535706115;557385227071321191;92098984900000000]; pos0 [8704392624971726;391104141248483872;574414794518524165;658132258643000000]];
  [pos0 [116808899240538174;746018092095340740;899883297664312215;363222510400000000]; pos0 [719209316054546160;552726828641171612;282797298899613732;391665398900000000]; pos0 [15207494572021302;78050873154709133;534335661416559753;658465329220000000]];
  [pos0 [47081886214621941;54788261035806208;732972033808999222;244961651770000000]; pos0 [224318477563890179;895906517763722986;214051212906769476;822382973700000000]; pos0 [372384890219036384;928282800304798703;321140279007332499;626446094800000000]];
  [pos0 [72263038161476776;440532789233568463;18691489372217267;823799619800000000]; pos0 [381791690120510916;355100552312368768;280792476981136393;35666730500000000]; pos0 [285447750164888736;385262690732752984;247141501399021140;810700064500000000]];
  [pos0 [76123993331569360;17669485614063318;887876554467656788;252265488860000000]; pos0 [292369622028178125;8112124285230386;663646380298463012;473660545100000000]; pos0 [422842244143563166;279283403871109737;340677073552115550;137850713300000000]];
  [pos0 [16216717044886631;812557972679839696;95383897226472690;339290732480000000]; pos0 [11059315886591997;14105871437923417;825795551773968290;38072012780000000]; pos0 [802415666853998187;967303847753090515;542806613613762741;945125385700000000]];
  [pos0 [440250911280900591;79890906833536573;622600909632514715;591326044600000000]; pos0 [366615608072458155;215984187860806013;61062192871613493;116811793600000000]; pos0 [127871137824188708;887059246685580615;451083395024981317;339019218500000000]];
  [pos0 [71286266120381144;669052249029899460;396340295157838840;233388208340000000]; pos0 [235694614561415032;487058599882182394;543378151186394337;653892672000000000]; pos0 [70293896870977932;921951385791325414;191949543061222144;758137344450000000]];
  [pos0 [608450531837964829;308362315461597849;897580296056784676;537880233500000000]; pos0 [7803451688882433;97859750254163672;142295388019627846;759619259613000000]; pos0 [303022260961209529;607243262523554878;242271906421743594;22134487100000000]];
  [pos0 [257090227312293648;962305497262177789;616534156524079851;191771794800000000]; pos0 [123018037924438978;933996404661662812;309037120711123168;762098091300000000]; pos0 [103769788398730921;322760216474274859;254645135002246281;846542960200000000]];
  [pos0 [568963239937670372;656993500978157923;128703257132362840;22298986600000000]; pos0 [62557779307655944;822125225861774679;830779455196908732;423062599560000000]; pos0 [140517253384778255;519050800423913082;728517569575112775;336223643700000000]];
  [pos0 [13526672655981129;449667988114623636;129055594529472298;989848888040000000]; pos0 [50569978799030690;29337675359593807;12661740050449182;765379298100000000]; pos0 [547200887102365574;288675838995084549;409524470653850729;459685526000000000]];
  [pos0 [147564258317210877;993782316516089671;426573009525243595;942541189400000000]; pos0 [16010160866568069;15743049131186508;815436472668700120;282521555260000000]; pos0 [14907271743856231;295207453404904840;510337904830281272;459201976940000000]];
  [pos0 [416403046786745207;310708276240480241;404156258620300015;722994302000000000]; pos0 [239403892766078281;957856645532481348;332869757907829948;701900996200000000]; pos0 [67376604518700827;731169697094822268;810095048483706420;819386913410000000]];
  [pos0 [127441766783902882;914488189972404504;660322018637460535;210973766700000000]; pos0 [164360739899502272;304828568856029673;634070336418294736;836054381200000000]; pos0 [696882115020375280;442443361237101493;943984433661899405;601865730000000000]];
  [pos0 [14299177079478834;791181808790283644;551562588586400583;675286059690000000]; pos0 [204118964131330617;314542432011542073;508667599932266698;759372069900000000]; pos0 [561989133154957048;727890553144191492;629583931540472977;837906017300000000]];
  [pos0 [6679331971214992;867865190872908389;593523779663928811;803607017380000000]; pos0 [839452727414980634;854617539546724052;207747794865863868;940395190700000000]; pos0 [138856729282478212;544937610466251369;997016485811506282;640644431300000000]];
  [pos0 [11853673921463742;814300782447627464;875367905334302826;751471817460000000]; pos0 [60943617372524855;972364523432157780;524206996368676806;938273189810000000]; pos0 [77688247454180434;956792151728109276;536149703339495515;690925807470000000]];
  [pos0 [131381875666171782;806568672720548215;182175713026165499;216685296000000000]; pos0 [47942366253483423;671854300983688511;422498149942060562;591487522660000000]; pos0 [132850550535448987;73141976445103960;826854202826500979;931773904500000000]];
  [pos0 [207318936257554210;394919609460750936;541043332995733831;734022334400000000]; pos0 [13657567880839975;907965779807433308;542996191328368854;128482885490000000]; pos0 [317393967653630140;911358548982959840;926909290634065608;63871213000000000]];
  [pos0 [44692974057130840;564112309408847669;325865568136903495;157398614510000000]; pos0 [96323707773950193;659873972997385723;152409603133040615;271593593580000000]; pos0 [421971335697062661;347859125682488513;357923026878659369;824384666700000000]];
  [pos0 [950394045473277098;401739161717109943;155175516028332186;349031879700000000]; pos0 [18287867039351306;956480345423279100;790714500375797278;716024479770000000]; pos0 [15768560592676010;302980334787181492;563294595105203894;123598355460000000]];
  [pos0 [298604046338263025;507945193438762056;269259642723793425;513135999000000000]; pos0 [400692683902996962;151815916318278956;717082731074785078;700336383400000000]; pos0 [48613365407046913;109869493935213105;601648506712645412;927906787770000000]];
  [pos0 [196184705356562245;344451749305956450;115622844630081222;544934322500000000]; pos0 [156066073793492012;899736678470322315;851196927686143218;813052871800000000]; pos0 [226649247239295610;2941684191036750;582997051851046025;994836046400000000]];
  [pos0 [387865745409271721;95826713933657220;828906876433339821;572164869800000000]; pos0 [126198163682025161;204519964895386094;118310357379119192;864460588100000000]; pos0 [432362078900677802;23619818671193193;144129187342616397;696630382400000000]];
  [pos0 [367776669723850980;752040076253515868;832657344250709941;778954938200000000]; pos0 [47387632743092871;499574177460280596;549435201188598331;771079869700000000]; pos0 [408398713472295154;448946074320224233;905203729820541530;632841391200000000]];
  [pos0 [600274476951903121;48314513984303107;662372720117652105;220098751700000000]; pos0 [51271337026970781;386111591819378021;779073403765708730;156144294080000000]; pos0 [291073944810858805;585308968004152655;936606059702339458;512198415500000000]];
  [pos0 [324964878256641231;977251563766663262;299905733916684545;710035567100000000]; pos0 [496062473298375541;600294302376924596;638504580925609243;918660259800000000]; pos0 [49474837802775958;921491699788670754;720306774317598785;66058628370000000]];
  [pos0 [397529810029199723;980572512497958434;461874408225386193;106456932100000000]; pos0 [146878819096206943;597803346501149761;413127842962542169;511997131600000000]; pos0 [319639433443662965;46645045937810076;729569592340341547;480981482000000000]];
  [pos0 [379128390812256371;264100239566684724;622746446319062445;861814330400000000]; pos0 [133683338714220882;112247974302561926;676258516445616498;680956466700000000]; pos0 [149119316794597780;526324923384889099;257277203060703912;966078725700000000]];
  [pos0 [363204026040616493;351403119851172873;546536237658927203;629037357500000000]; pos0 [17021641909631888;159989926172515090;293891488269319991;135600737980000000]; pos0 [286093885720735634;913772595173074999;830810510188543289;987810852300000000]];
  [pos0 [160445390022461277;229516767393944503;393263487401837459;319342044200000000]; pos0 [567209384777097505;355268439612997260;85395603277562724;749426042500000000]; pos0 [174296618364989064;993565057171336495;690598055170653365;235622311500000000]];
  [pos0 [607848956105280383;14225054958920723;155215664666534684;35713982500000000]; pos0 [208957372990741262;826931372767113943;716203679065315359;634659308700000000]; pos0 [145536719388049187;786634209584251262;273542273347867787;735992376000000000]];
  [pos0 [61563793653371887;618704319142867349;386724032098491009;583801935620000000]; pos0 [209972831772742735;571824125574839425;333905045430057402;648111186000000000]; pos0 [589580038624343470;120341747501733404;804457319424241147;760210195700000000]];
  [pos0 [653924618312488285;746230989692198928;983645850810933135;222203410400000000]; pos0 [3151296200617055;96026034101468899;749633324971632128;658699030420000000]; pos0 [182515137657053518;364817198735852290;47988865304016364;139781903600000000]];
  [pos0 [366833916056413402;441840639229677910;32882598085091338;512135484600000000]; pos0 [256631589913143028;497745938272418808;22375190596232745;545254089500000000]; pos0 [170273772099584600;593324648973957127;563891918157433172;745180190200000000]];
  [pos0 [424826866393546131;243276523504810936;375983676374474499;346786720800000000]; pos0 [159960962189763893;549154928473669144;779025959001875145;99507046400000000]; pos0 [21366101218695438;197198042837448196;50622245513234493;774043982000000000]];
  [pos0 [432338164168133489;142731479743052903;556203166295563806;151934288800000000]; pos0 [321199064352290046;675787545090656195;910836618538144918;146135670700000000]; pos0 [232397065126035202;140291172749529383;287513554940753238;669184839500000000]];
  [pos0 [80609098629607449;548959555622020236;639588409154555259;262514429690000000]; pos0 [12804509115111630;494231699234116154;918363139942033064;589215322650000000]; pos0 [496029906992493021;546583713150271061;929068014113515347;501899488800000000]];
  [pos0 [15321625412751426;876722058232607779;957385940650573079;25334602510000000]; pos0 [97931174371306077;688728361664005698;847150066393932408;330312569710000000]; pos0 [626499370088491878;879763054341824411;241819523563109759;122177782300000000]];
  [pos0 [441424390826805804;703328507479665395;723612815130496508;8316259100000000]; pos0 [6081176083933556;757960333917827761;938560640698406816;292758240788000000]; pos0 [358259089907287099;192171739262644407;432095877605759985;547037061700000000]];
  [pos0 [768632056152400909;538242026019163775;824007558289651182;489488928600000000]; pos0 [12619063315698992;135431983250638311;431543248408441991;337446829090000000]; pos0 [75251124584942445;222429374678183086;273278164761047374;612618390410000000]];
  [pos0 [290005964627246939;316451715519119161;956664056528483576;123687946200000000]; pos0 [39643436530069975;440721496568942665;604472365617436576;691640767460000000]; pos0 [4913353935034458;42047405862644098;16189039081822899;495602142389000000]];
  [pos0 [130353053345418226;821855496071776425;357804380468277496;569026246600000000]; pos0 [59966852183533709;151719399658486888;811798778071660515;70870333860000000]; pos0 [260082446719027136;30397819723741563;202769476312410735;989438298600000000]];
  [pos0 [608404136003983427;328301095809662618;302379160410112697;558737594500000000]; pos0 [113262730316099158;800979458133896095;143818172432966350;398422938700000000]; pos0 [175160936954960010;799232139831489653;270756144430755129;715758104300000000]];
  [pos0 [269929460374097233;184551684806646235;479738270707775431;3687600600000000]; pos0 [165715436720492842;31500524439096423;941489911524526364;313169351100000000]; pos0 [388641964594719449;634680397262561833;978605725605534945;13550746600000000]];
  [pos0 [43826006144867326;129522112624900111;294426812286355329;707255910590000000]; pos0 [64333145894880218;418059833940405435;745490911013538232;703943302510000000]; pos0 [270535875177456392;740543907021288343;138643814780782588;355454230800000000]];
  [pos0 [285641605768602339;309486334236976095;799626417643918547;875647539300000000]; pos0 [75900273814808960;930192886845269813;909169724431356572;348223840680000000]; pos0 [188074198410696136;633891947753204449;399429902718649745;117157250100000000]];
  [pos0 [49470364040475688;432357735171766351;242923104246198690;680540315030000000]; pos0 [408324657216408096;122515165574934413;706751942321874660;578809832700000000]; pos0 [536260713492343838;291727490894595744;59974943763946067;607904247200000000]];
  [pos0 [638869953458446097;960335438825535336;887097962294563433;205584902000000000]; pos0 [17027530502073378;521603620369298127;699695766524132830;514507505560000000]; pos0 [79514782822473171;783575970831932425;841050720948962708;177952672440000000]];
  [pos0 [153396144219818343;781723748446364340;508608650760314419;237610910400000000]; pos0 [205592142883794413;596184786745632785;302041645453502140;523642295600000000]; pos0 [10640937251668028;493476817291678477;521932982384592247;204481943160000000]];
  [pos0 [297049837053919553;798592513308402030;555752072386944687;349991403500000000]; pos0 [287478119450574969;162789608862685913;811712465956164279;995369827000000000]; pos0 [285682553534546213;977119651467826562;993545541925600167;941905986500000000]];
  [pos0 [576911949799076201;682070739007608643;603071015066675844;538364819600000000]; pos0 [217254903774800274;416060398395574913;524037055728318562;943883050400000000]; pos0 [87876119786996496;283137527925507329;895784474973168396;201643734850000000]];
  [pos0 [164124851870212382;415552497613681715;212234014006434498;988921173700000000]; pos0 [255003765246530270;736650536740714671;346375200956077829;909418206900000000]; pos0 [414041272988844739;910208971217272656;158397544993489426;721345122800000000]];
  [pos0 [132245867821659686;127023663179443648;437933936940700111;188621078200000000]; pos0 [322085365301087511;555034230271211490;858569992874404054;650957656100000000]; pos0 [170434454499742031;719852864010041173;673707269822254779;299509597500000000]];
  [pos0 [423078384614809469;172644146490424918;785324342465238842;697353234700000000]; pos0 [44221260066233825;965821044514750287;428017917095025478;692193791360000000]; pos0 [137840043063397805;133323055466657011;849310727613811298;304971964100000000]];
  [pos0 [51251151937678940;405196803058937962;965350155602675762;827354450750000000]; pos0 [147420125776899990;268989436417932176;126221023353134295;435011456900000000]; pos0 [753820559280043897;662804384678982171;540365933284306632;830008253800000000]];
  [pos0 [32105611457046249;644746679493273787;318088241747816144;927949211750000000]; pos0 [357706741698658537;308466191909618669;14706455289760302;751933038000000000]; pos0 [477370032822321776;396696557687989939;546758991846032127;295461556300000000]];
  [pos0 [5458684509067707;979691991111013912;416306880147072615;632111399231000000]; pos0 [13880150790878989;48681956782201885;704504793045602599;970745553210000000]; pos0 [672295404407127323;329533777402231245;500743469749979087;587060966400000000]];
  [pos0 [458726361587510783;127586074186183109;381111593368583417;390262659000000000]; pos0 [447649567867443122;763780456102497147;782154398895539815;31606307800000000]; pos0 [50027079742452274;960711082947668772;635624973032488919;658553006150000000]];
  [pos0 [143997203138462665;102984837862498338;433699014612081092;879477239900000000]; pos0 [114088421534772054;470394551926621324;291875894065095651;191608493200000000]; pos0 [147444315127833854;773912094122851859;417935674182480405;534710021100000000]];
  [pos0 [156305735769927674;597173668130837786;881875979578796626;821745158200000000]; pos0 [149810021447511656;926020680632755176;251142074716288905;521307480200000000]; pos0 [390768556705542399;643957793195439055;481618083796928600;17962732700000000]];
  [pos0 [140823772821837613;925161683100072725;88184255128746231;537517660300000000]; pos0 [236539343376352725;913700388000844427;204383207321236195;582503106700000000]; pos0 [129835196014417505;591381395107319287;219205575808104668;64501515700000000]];
  [pos0 [267400090984724157;109422316417312877;494149175114836066;478317777400000000]; pos0 [12097730825978997;65758829426762235;30690139823728522;6422487160000000]; pos0 [430354339604345711;183267615480009692;36806472077078864;447984394100000000]];
  [pos0 [12683865274326671;146464776973534089;477307930569853589;965469801130000000]; pos0 [918818521739579488;73791806418300316;958767812818198048;897877663000000000]; pos0 [56146172183422617;905581404702526182;948372533789472197;715209069450000000]];
  [pos0 [62060888047592052;596072572531410556;955468905211514653;277092301210000000]; pos0 [470997698035196742;813225234140302475;424091342159627705;872459676300000000]; pos0 [143476293664313983;968113861320423416;109958528166930097;545263100800000000]];
  [pos0 [706247604395522472;742272982809365784;711246637470677708;783169205300000000]; pos0 [161445288994229001;733041847893572485;816821547979381967;848828643400000000]; pos0 [129093505594580136;854662053587129304;971167317288589692;941697293600000000]]],
 [pos0 [2872059451611216;936923524123485829;706954653600614902;628186153280000000];
  pos0 [4358723992927642;359438589560335173;887023375345024442;289198248212000000];
  pos0 [1594144432970875;233604343172108350;203445987321306106;241159757749000000];
  pos0 [5679080177824058;190778569584890183;749382774820424756;106397098950000000];
  pos0 [6410460511354727;953668734459697992;48481417381104184;367023842145000000];
  pos0 [1626694982120542;789069474470699407;969139695030205389;446386589025000000];
  pos0 [5100481261331615;133381782709488000;217095213470243554;713914722344000000];
  pos0 [4809818595746665;857534685665411100;193291389855787287;911600396838000000];
  pos0 [2473396744591584;689651936860483816;89765361186558504;87219902137000000];
  pos0 [3288337911549313;481848854206610308;24936639579658841;729212573659000000];
  pos0 [1171592162151048;68104433840262090;495225897336281065;428811322475000000];
  pos0 [2451315055249140;777046270366637112;684642961626306837;848232961127000000];
  pos0 [3914868116017337;700556105089191079;968906369606808040;987934954154000000];
  pos0 [5208978965417211;803686455300131368;294714845685776203;659650998558000000];
  pos0 [6538523509222127;540606968252556724;602982421393428281;947702908108000000];
  pos0 [2642806042972791;500147348361270029;928761037806446952;614963356792000000];
  pos0 [713929264889628;655536123396567045;907001758269111311;586040726048900000];
  pos0 [2191463494579676;949242203308997691;519565047828974300;728692042013000000];
  pos0 [5001733398529394;195190355185885947;600657067570252164;500147742225000000];
  pos0 [2476004107292321;516597326812918106;832001865919924710;80783442065000000];
  pos0 [3179169015729208;178507571669711580;427409237119722840;341164318661000000];
  pos0 [291228358494243;326654615266843763;725180434185756556;61298283846200000];
  pos0 [1888246698949667;963919469822232053;156063501861394648;2075369476000000];
  pos0 [7552186231209929;394723469886469834;5170502820109190;764662546646000000];
  pos0 [2141090473604738;195037588462779205;827770808061610505;69850334797000000];
  pos0 [2401799128311987;485830274060291492;75889766666170080;332831584957000000];
  pos0 [1529221351314696;115129133011532816;911370014758246423;871272389383000000];
  pos0 [2079563932370655;229031171345014079;759314951263251941;790161542148000000];
  pos0 [722764977949046;108981171927006728;305472527731214620;920712183259400000];
  pos0 [2516455338249036;688028448142087079;688438299745276412;387340129798000000];
  pos0 [5344320153362385;779040411122619715;642897364453666662;255273022664000000];
  pos0 [425180942874177;933524211346873478;294832572010915680;791506974010300000];
  pos0 [2010298433674769;875327743439800379;482064036517111461;974201749027000000];
  pos0 [541552761776512;306355932748276535;382147752100468480;478983193231900000];
  pos0 [413915043058241;98467013232438360;943016480342011449;448927785795100000];
  pos0 [3812014481958078;531500080499882916;298050578994714317;836962612866000000];
  pos0 [431302012243288;312480356674805503;203084864803461685;230792702656100000];
  pos0 [8104378744314446;64676156557385707;315868112155243550;486852237092000000];
  pos0 [1164316418334189;108153317748975709;55426163494779562;298113841571000000];
  pos0 [4944498594461365;886225641315992906;523280095618970203;116453748495000000];
  pos0 [5616823608714730;121171691761194447;163592082432090468;650370863347000000];
  pos0 [8427234234465046;280847708230702285;715226985907504227;250292699066000000];
  pos0 [2945682150659510;616282915558506914;90278672566376799;61084830575000000];
  pos0 [907196742677091;200828846565643192;888777236562857622;854844780462900000];
  pos0 [3303824272293298;888161041416026769;845689134721682741;836589198584000000];
  pos0 [4060246140298171;456558436998410587;220175342094692925;620892208717000000];
  pos0 [8361975043479351;411889259508146224;163469847131660376;809793980135000000];
  pos0 [1562845135043346;29874299595959562;577264065105090030;311599181182000000];
  pos0 [524317543272489;830579218966098768;199010410975303663;990020986977000000];
  pos0 [369815293225510;802985176346684958;562324763227744876;998884728424900000];
  pos0 [10352869160581795;860102915017932310;882128001576488736;297950673310000000];
  pos0 [2888337523921141;78902169528015692;355614988614454054;894652222969000000];
  pos0 [747664337121564;252269590179057790;940522149701268184;709320000466000000];
  pos0 [704152608876262;714865112798123419;211698375271519199;491826344053300000];
  pos0 [8244221575506866;687659456674465374;154798724058837827;352604676978000000];
  pos0 [2429670731275056;113978272651164206;498192448084969808;564747088622000000];
  pos0 [7887063065511253;231868027655724173;712863563919615447;80110734326000000];
  pos0 [2328954860720971;665351314683050935;856002994819826062;944401664129000000];
  pos0 [1965667423197245;694908572545185143;234366572716799239;304309507862000000];
  pos0 [6284744790577945;620901093205097638;180877053528186927;123813473000000000];
  pos0 [2589405532846723;692827894721572863;865640832432688739;341078497005000000];
  pos0 [5848827450654102;26122064450038121;184463231181237247;187249657968000000];
  pos0 [3157951770162865;785532211242819766;850250919771639643;701471619308000000];
  pos0 [4592290205297181;429484773870526179;814696808332330053;492556166027000000];
  pos0 [645596765343321;325467296679361958;765228672653481315;393855609772700000];
  pos0 [1162550055779088;689126525107835366;421867211172848960;951302402567000000];
  pos0 [7209526355993858;877508873798502136;979165476467961909;517114515289000000];
  pos0 [3324670479193772;23076501489397176;248231014871072894;876500921899000000];
  pos0 [5771241289568123;953776315957125684;143210747155718666;265387346891000000];
  pos0 [11094661207104805;399204002868233221;771056962460987556;105328030130000000];
  pos0 [4036517310835869;116744163106827357;971216687623251023;186899520913000000];
  pos0 [1005445491591222;861329793020613947;99507081783087395;500883989931000000];
  pos0 [7971592298865192;626253024451130780;40728629336237904;400248906337000000];
  pos0 [2411744987472076;416376175306827729;46654904449444506;595986038144000000];
  pos0 [806190512071372;362195694345433081;427482933540551245;428066815577400000];
  pos0 [1885852348392203;90480042408185687;581918902320613293;579788121218000000];
  pos0 [834963520806505;136143761081922282;886398869626056534;473423994928400000];
  pos0 [1465820026620068;900731761934115836;884763332985904205;711146744531000000];
  pos0 [1378822501171739;997457813445814773;462592289960551081;251110872000000];
  pos0 [1257578373766960;913561772020287045;455005111346542452;143781391342000000];
  pos0 [3499523156682044;987095047019131491;117333155206699209;185427491414000000];
  pos0 [1875520632862347;31240325140155521;574185807007897531;987081487655000000];
  pos0 [2839981466623601;654705625663066123;866309688622823608;375860086578000000];
  pos0 [1676176729092151;258039242180960775;958518650380427876;45070404306000000];
  pos0 [626019782690682;795801715695953678;384339041247682805;793156737714800000];
  pos0 [2903724805933885;122927752787791979;311910182120632848;173953512976000000];
  pos0 [1203060731035911;269099751155264847;825348850490815371;756530385721000000];
  pos0 [1587216172892478;420513264556974985;316492524500334356;933573670210000000];
  pos0 [2725724196189008;751682307696570307;337315173327835567;321174801049000000];
  pos0 [1370160564393640;297825658630009344;864348992540307274;714500732999000000];
  pos0 [4989299225838532;904986470586268933;419625347331024835;957398282364000000];
  pos0 [2957392231993726;789536436298281585;593277059139891779;621427952609000000];
  pos0 [616912083707944;712868005158811160;741699077846132345;235702413063500000];
  pos0 [718088109626745;560370570449609795;270567402787286771;8530567167600000];
  pos0 [494455933452229;291963502238959594;48781780706032612;944699891763600000];
  pos0 [2075839035741360;294223087767034978;518421759321134965;85068254546000000];
  pos0 [6952497543545402;506566282506314697;347140871198909994;475109015784000000];
  pos0 [5405067845229880;22022806238061325;916934423194822499;334000751520000000];
  pos0 [1645757589109701;945091686543495562;143577508834823530;907506825570000000];
  pos0 [4130276915822178;838415137611500205;605366550731116423;115992111088000000];
  pos0 [2778417573868022;554802500162811606;162763717724769329;387074796070000000];
  pos0 [329657558164801;842363772284594676;210802439510089533;172401588508100000];
  pos0 [2662132127189970;907243502090226627;116329893970043911;495692790391000000];
  pos0 [3777965370941721;277506274164005707;231369698941380414;199029387049000000];
  pos0 [1369452123302554;574352247648348996;673021084366379302;827625994888000000];
  pos0 [1274696804303298;317498935764851824;576693313456490608;373559923474000000];
  pos0 [9545955519674171;510033907340919908;654400193438153047;90226064043000000];
  pos0 [2263472317943210;773001235945243043;263749552872522622;698004151044000000];
  pos0 [1926059432669593;215917599704797984;635650568821024180;783028646188000000];
  pos0 [8724093164095422;423359825811722243;868727649853555739;70218096206000000];
  pos0 [3167305850970473;113123112103819832;63397045598016419;261604956528000000];
  pos0 [3488151799504968;420074424350660357;383710079463017644;802920498843000000];
  pos0 [2201086678625037;453512853023987220;474371861078069374;309467086771000000];
  pos0 [3798207430579716;612116206942412490;238164047956398622;306271072857000000];
  pos0 [2119146506334762;667858413316394194;225916420881997860;103916361856000000];
  pos0 [1074094166726095;143785214893220574;263028635699860493;485323821641000000];
  pos0 [539250862382039;187470121774527993;369384771652081963;957018155933300000];
  pos0 [6167125823185703;527700211474977230;156850225549052439;306626584219000000];
  pos0 [5068658980240279;812904380123315548;804615528532098784;301086027739000000];
  pos0 [475565343990755;996888055495295860;786865820625329814;345259532663800000];
  pos0 [681828983693198;869042378378112433;190139141759216161;282918287222400000];
  pos0 [650692947559271;685450433102004556;329568474384964109;544157908819000000];
  pos0 [3792227492854478;228872460232097552;156060767168364789;172300702218000000];
  pos0 [687199412536318;844780066966973047;921832555489440216;644758421922600000];
  pos0 [3801007555727999;458148483461060474;603933854644910144;513788856211000000];
  pos0 [2451091752397885;447131189197425112;489648439805153095;8482635667000000];
  pos0 [2363133404651103;865418725158297447;340813472201085797;17429825682000000];
  pos0 [3087015466943540;839885794325407875;653234810764212655;226434669994000000];
  pos0 [4741582371309264;652271567669980802;465710578625759755;937462017054000000];
  pos0 [2875168379413933;405341421201947014;488431275079168226;480533943161000000];
  pos0 [3228765255922797;723681605393879598;657620155532711555;647248759655000000];
  pos0 [1269231754543740;124945865230218801;558368449763947995;681119246991000000];
  pos0 [955294976027680;220266829392092282;496318854142170136;860588357229000000];
  pos0 [2773451885166569;316675831199266114;58774055802930603;154738603258000000];
  pos0 [1446893478197051;558417139591241559;255368399567826364;383427033168000000];
  pos0 [6905913788976312;551713377438522935;309850882029622619;474446605249000000];
  pos0 [4622922464818269;611634359501782013;664671494159318362;570060514192000000];
  pos0 [8535590979053779;3636513804075355;771527050596522548;245334906508000000];
  pos0 [1101315616431748;800920990885945071;295187898390603230;244701566405000000];
  pos0 [3238862497994167;382690326552591513;59776334796525898;620485663313000000];
  pos0 [729786640768537;763099817226789115;380395456125007912;640785898967300000];
  pos0 [1318640796270380;185078941119288581;514362092734134932;768476799603000000];
  pos0 [5290639029559638;192280905101316530;368439095122235007;751473857295000000];
  pos0 [2294225070183168;216394233351884052;86935341132412201;183110847795000000];
  pos0 [1301363750210865;664742476770631228;408191786923518502;237505148220000000];
  pos0 [5129641660478698;225613133618941377;849394564355585411;532551162588000000];
  pos0 [1427130592602782;163853725287519361;431968492608255051;270845234460000000];
  pos0 [3942214099160150;395660435293803011;758973001338960454;252582871267000000];
  pos0 [1561882806556214;149686160067378008;187131517849293618;714890929120000000];
  pos0 [4036156541747763;502743428769316306;673979838095811010;679532457174000000];
  pos0 [2712432571779287;948767692922413282;517940648966120755;876110020951000000];
  pos0 [2298610805461449;63150697529161127;278744014182847442;893671048514000000];
  pos0 [940204495381340;689828524072854519;181999982388563338;84432718512900000];
  pos0 [2350518031032876;745962024891279466;666497614340443150;237512804855000000];
  pos0 [8675125716204987;145978796988925031;516116155591344969;487404878108000000];
  pos0 [463118207429861;724561125086821187;911459441700762392;115436506129600000];
  pos0 [968381553122935;763781238376609405;121618351458668908;553637060303700000];
  pos0 [504828852424175;442281821807398442;691479557175305450;230930080239700000];
  pos0 [1061275086373763;300215195836724279;11263972629931756;441906354783000000];
  pos0 [2817844306290422;879670156885623989;425988724680082910;44499242485000000];
  pos0 [10314507651609735;797727452924338621;578542152477818837;950402751610000000];
  pos0 [1039642153842381;589631395504910517;686217119935569354;314030081526000000];
  pos0 [2344654490518320;351725921771340347;340970822805974970;415663665595000000];
  pos0 [767423024512814;626428196350010303;800812173819557240;248341314270200000];
  pos0 [898381349510596;175091812713103535;196233893035913778;175791632209400000];
  pos0 [1570688387531082;799836545363036936;786967480374969028;301406482467000000];
  pos0 [298935350080251;199643125963294588;178782969526009500;575492017958400000];
  pos0 [7822692173668848;935298008541942252;21651250283767110;717842423042000000];
  pos0 [3891091824487213;968311299336924387;266184064618845327;508776527315000000];
  pos0 [6153046066843930;387912379379535816;657154512257341364;183262955205000000];
  pos0 [2094811305802378;533721003673156682;472407694068169537;262293778926000000];
  pos0 [1042157027689545;689537959667133518;210650040845612912;242228449679000000];
  pos0 [1416955507756163;121296936031835503;659938356047355270;525775677444000000];
  pos0 [765358811942287;720436733295893457;151786382885348441;417485164432000000];
  pos0 [1697319630304319;660256633587986693;182060275989557040;177937382562000000];
  pos0 [3229071386514664;818338544525433292;532874933116140363;895376431061000000];
  pos0 [8971874946501769;645834479379212209;204411196558998279;571479054161000000];
  pos0 [1712557617264919;258748319435366811;902575323507497027;661017802785000000];
  pos0 [2011973871730121;864275926869037676;836283048715811094;580047676883000000];
  pos0 [2470443482158834;757097178322077526;942612335816859862;177443194804000000];
  pos0 [2222348829640999;898692442529622851;28435482881389995;83629329588000000];
  pos0 [7111707685318050;373663030015788122;175153088923844903;690077672159000000];
  pos0 [2336371107769955;223865636074586780;860137614377179289;117394612118000000];
  pos0 [542929584268203;907462328022323858;656597169445893608;28553728219400000];
  pos0 [7972743858233752;758477111890118333;671630486098747477;808752766734000000];
  pos0 [2507228287410719;169966454171776083;464514359219609429;173638039047000000];
  pos0 [1128294484437958;126995288625528960;13084578356457211;765537019847000000];
  pos0 [2574309857214145;152035279506294831;423359700220874731;655539363858000000];
  pos0 [640870552537884;957062024120574225;113817613307731526;538778126634200000];
  pos0 [2406277109423532;905330202330759458;133243786378542335;273948615010000000];
  pos0 [2302363592551740;973517229189706823;316547480949522816;24183800435000000];
  pos0 [3162746070025897;723085941721340169;689662560465576091;53233209017000000];
  pos0 [1162924889592519;608971647475875342;528980273185298564;710168096188000000];
  pos0 [6915205797360864;825939403767306383;266919283146303904;925681702615000000];
  pos0 [6133342234506380;217305326042599036;827794825783673509;702021751412000000];
  pos0 [2338880806943595;132770730559519281;676391494365567679;394315023057000000];
  pos0 [1101148492445343;475862226272727504;354691644903532530;85975375572000000];
  pos0 [3973609229789495;226028077281520677;704672455844673405;701651165134000000];
  pos0 [4127364040716271;320501510055709030;592923514334464781;579773960296000000];
  pos0 [3851505921501638;560325345598037439;290052041921521873;555861941559000000];
  pos0 [330186711815849;368338166868102091;227751949972062511;42175112937700000];
  pos0 [4198913326870556;615046820592905377;18897996544948188;505865086091000000];
  pos0 [2250754128249657;787295734227087510;645840581368351650;525400750365000000];
  pos0 [5180297410927923;454136937392491874;264030740299936706;665307291121000000];
  pos0 [1146198111687503;832057486444447773;870270401870399947;695185899177000000];
  pos0 [956491491212787;253791079629953177;441879311349583476;145452414463300000];
  pos0 [2987676310574477;605178351830707988;129523079718774856;481062196208000000];
  pos0 [5441465610912922;786322301196042596;470166030834085073;805740324861000000];
  pos0 [908564043345279;584327708956451622;161040428437302514;188635056978400000];
  pos0 [4972728056697298;610383093345092946;983624959786537356;249401847192000000];
  pos0 [3164117317936241;906675384296022511;969667364751366623;748393940411000000];
  pos0 [592688065627486;885464978701887602;569377218666777062;167516906745000000];
  pos0 [4348135064668344;896694195973357144;245181718791300212;280464886675000000];
  pos0 [4388510661394446;680806544612039805;742141779591486167;423012647775000000];
  pos0 [5231944387393155;242797033418709515;892744656128780570;421425869329000000];
  pos0 [9056287357069843;206964386502104653;302700699761471341;594246956315000000];
  pos0 [1596883277403917;31243541014169845;933317843363580160;414244936207000000];
  pos0 [2333017860394086;294209554744602954;45482486461585545;222108522302000000];
  pos0 [2344810608009623;368077642369183174;735459634671523744;314895191868000000];
  pos0 [1561590109746253;261414596243827260;319973216172654316;356428038490000000];
  pos0 [7810190359330929;991767074441555268;655033055255189228;550385117000000000];
  pos0 [1617556367591868;923392876984861666;961071902052991925;522732549501000000];
  pos0 [2328590018870545;471794201373398615;776452425778148314;831932791984000000];
  pos0 [6323821251390441;682308344689100160;76332403677899395;409913473032000000];
  pos0 [8155776858139940;797091708748275659;17828415849036279;4516804945000000];
  pos0 [7106947914972356;870518484025944760;383890498084713057;389299726058000000];
  pos0 [809281051776209;91653390548054090;578905837695865032;492859375603400000];
  pos0 [6523171491456557;18673880560916673;221910073383036886;962798930496000000];
  pos0 [4647795741681687;830355875490936494;527581904845734397;544480225802000000];
  pos0 [1650567490343984;755450186551321327;678439925670793378;196650701101000000];
  pos0 [6269158247542694;861674618693205635;889951448447201098;199495839828000000];
  pos0 [6526818222160471;869842828596797051;936646537127500328;427388666704000000];
  pos0 [2048338526845650;311568614539756568;605565194216572471;974964206579000000];
  pos0 [1066389772436326;725078960267193709;338064454341978035;585106863503000000];
  pos0 [8805629911819510;303796874154044877;823446777439886843;771046446682000000];
  pos0 [2247512259254915;47432801703946387;761948967900067750;201498039606000000];
  pos0 [3251435801264693;195373404316651592;664369917100826995;211660666897000000];
  pos0 [476892895034618;465806645695434266;324951305646142903;841335606165200000];
  pos0 [1274073146459314;393251941130181487;887290467593032984;367450970482000000];
  pos0 [3012142307869945;768536990749835846;39925575415877500;448008051959000000];
  pos0 [3576672638316933;326078069400402004;511378952828549552;267660036918000000];
  pos0 [5011658629272546;228653279097810580;489913010487231539;222471919911000000];
  pos0 [442691615476225;435930846533501635;414082724163505086;204722836319400000];
  pos0 [7225022186462908;469355190565069901;366311420894599205;346871458092000000];
  pos0 [9658021301488447;210941646536411260;357351170532257886;825605823105000000];
  pos0 [5696614031948223;317079459656171083;706687617832130422;372084911738000000];
  pos0 [5843293691034590;47634491852464907;948131890877330315;189673044437000000];
  pos0 [3885324034722815;434167706340361670;925410978377207220;863738904769000000];
  pos0 [5711400143948423;72035923999598814;317088400431277451;169954292556000000];
  pos0 [8174059489384490;303825993168869342;875076580519535465;955626173300000000];
  pos0 [8874012018956441;609627975933151778;880804457000060126;616193913074000000];
  pos0 [4315508256098161;554990743779973487;586275880957722673;481713131356000000];
  pos0 [7951342078076757;171974124290643177;412599442241590188;747903480805000000];
  pos0 [4560799182739955;997211803706358770;69627388032126237;667846162919000000];
  pos0 [5993033060196541;20822097123932124;525173307415391489;764664289596000000];
  pos0 [1376655636243031;108201236929247818;287770845770623669;620187568069000000];
  pos0 [10102990348569236;996122778712432819;748097305080697800;687161597110000000];
  pos0 [2334476046520829;340519773368979503;896976560222362600;565718595744000000];
  pos0 [4342544268609077;350207765421661499;44867045056248901;565982590617000000];
  pos0 [2075275258461139;626383596452431900;886740834982834032;243640289069000000];
  pos0 [2559527931392636;149027364450133445;641135971375997423;929986247475000000];
  pos0 [2316611935234274;749224123827172064;875865349986513397;600284800128000000];
  pos0 [1688427205264581;329993150986757428;438945463139466200;17317154176000000];
  pos0 [754586378551724;956396301244560138;365512250923586301;314334797043700000];
  pos0 [6317466131307462;572058486441891382;155589023401131227;886622065602000000];
  pos0 [6161450321526425;97611808139552429;139761027510839072;744566280211000000];
  pos0 [7239670647919535;353472951789434122;748393938529830444;768442156437000000];
  pos0 [4230381079332578;719640772953315805;662989705274157620;380615982123000000];
  pos0 [4419635018646849;202102878925833748;503658283472574325;1700978627000000];
  pos0 [1247489386771595;396643197744215312;107167141608259611;601076155698000000];
  pos0 [3052035378626341;925575621117606543;806675460350284626;387096765756000000];
  pos0 [2511373826151209;297750778101657684;383771066449594710;658764490714000000];
  pos0 [10764737482287283;807749855326320202;638816417617777199;604000877320000000];
  pos0 [5476544253146303;772555025569222338;594769610751774517;209804373925000000];
  pos0 [10168509701155605;368957718155000022;290137741548496414;599934552990000000];
  pos0 [8311919268431013;907124857860529506;899879037529359274;220606231796000000];
  pos0 [6305047376796156;416577598691189126;687571142943741583;463136837823000000];
  pos0 [3528670597824708;883176112743688330;255043262570798016;252414996546000000];
  pos0 [4355322649519814;518946115607430444;973061587880998651;918338266457000000];
  pos0 [570962707436521;942889017363712599;612610197042515324;428541725801400000];
  pos0 [3840677573964840;819398524767059791;8199098643977850;372716117153000000];
  pos0 [6089541890980723;81921667768422432;802992030043909007;776949849076000000];
  pos0 [9018122860162392;266555855286706207;553949975095471482;881906490975000000];
  pos0 [7776058996742692;67502774265176467;427214637342213393;341580241657000000];
  pos0 [3527377908890686;969286604357884344;352826091588791690;492867937343000000];
  pos0 [363678220120235;819192656214409206;161128090431513015;882227701659700000];
  pos0 [6665444447481129;810444075311572136;590372566699500356;996798248855000000];
  pos0 [1159355607708698;52500468383827933;184492481222906833;617685074683000000]]).
(** JaskowiecSukumar2020.cpp:6170-7522, order 18. *)
Definition JS_Tet_18 : raw_rule := (
 [[pos0 [168327426576230642;35512604545171314;795398385887915576;290278658800000000]; pos0 [717146718881628895;870588054178469817;816541973986256599;453009234100000000]; pos0 [102422529080043612;586440280041470667;338227121204814522;152692106100000000]];
  [pos0 [52660385093312126;456614798470350363;802083349991525265;850144528280000000]; pos0 [54287633164191171;516839586453722350;268658557109233185;25412498570000000]; pos0 [528878932873177521;832725254795369779;967248109158719897;266711842700000000]];
  [pos0 [268017988611938459;485282059519188176;920317706882494712;464515180600000000]; pos0 [33153628494025308;927680198445554467;946332225605731818;63647365080000000]; pos0 [427171854399529484;147603104958809433;556468779857333334;693767991900000000]];
  [pos0 [11652028821949169;820194577169014836;545815585331153580;385890288170000000]; pos0 [577850574122274553;893484907355561287;623900157998255225;939144814300000000]; pos0 [397692901476602483;431474315727065130;304365157997213991;104602408700000000]];
  [pos0 [142672423736805468;446721036966623397;377325821779976982;175181664200000000]; pos0 [836471806116870501;685784530944318606;151375067131585424;133673155600000000]; pos0 [19437208036090891;925465696615159754;434962302770750408;431014037120000000]];
  [pos0 [374747451011739166;224634423174794184;447630249552196439;301516105500000000]; pos0 [45069963953947770;229753487103022929;108219633916398349;545752391900000000]; pos0 [45651814238844638;947292092437367461;302183219501738685;890084090090000000]];
  [pos0 [125941589596672992;718823234062827771;667940714058020529;825076728000000000]; pos0 [236498348360189677;732787563281441593;742230877617908803;25618044500000000]; pos0 [447696380538326985;650646060659492185;983028153586145601;21276638200000000]];
  [pos0 [43914687847063962;170869609756931953;931498910312726968;841506972840000000]; pos0 [468473401176737474;857754841635105269;24359933701129139;934707792300000000]; pos0 [33820733021172236;525231828015555267;380139521571520676;446525843560000000]];
  [pos0 [275914994838541600;31592022767357640;989394239273438078;539875708200000000]; pos0 [441460547792380677;635572595035693580;444455798328216584;734302462600000000]; pos0 [4959984622689418;363689855119921882;960819822061100465;727874634924000000]];
  [pos0 [44487944973312363;215750796760164460;231591222466671677;29587615950000000]; pos0 [184375970423822838;244449864413556879;876764374148974661;238248094200000000]; pos0 [712358773724780576;221778572065851168;609421497426591253;600433617100000000]];
  [pos0 [152107455393351054;610467541832519183;648135354737960119;405100247100000000]; pos0 [32766609906607;240777000290685480;259692958779003162;221941051979700000]; pos0 [698402327043996649;267474584082898898;833180267140612844;602674971300000000]];
  [pos0 [528376141120038051;291665492198464019;738940990874975368;356905482600000000]; pos0 [179665509206558036;790615911565396747;543327541068186297;10780382800000000]; pos0 [15556529346078576;608596319052520637;720606830936513602;390931896220000000]];
  [pos0 [155891492532416736;861672183499053154;141927225498335694;347884001500000000]; pos0 [283373009907371246;89662419106311831;620763222383211983;517240529700000000]; pos0 [4771231257693399;446016621342652095;186567033416078663;591661015872000000]];
  [pos0 [506381067403886982;270774280051083848;204294933924425018;404621845100000000]; pos0 [182553455737592182;421610217022477935;716790592762672153;944095784100000000]; pos0 [233447193828897559;266841742584641593;835733580941916609;199742746400000000]];
  [pos0 [357690586045706943;937677360113678674;183182224396164847;889142071900000000]; pos0 [323865611797479923;204778468352902910;467293283084623879;924142183800000000]; pos0 [27238496304980448;419771818444974157;601488088856806950;755109390270000000]];
  [pos0 [584142091485666524;420932913232657659;719333328658398653;767912017600000000]; pos0 [2540704978946981;105665973937844211;711846295320105597;509511972391000000]; pos0 [139899261763278898;690903341117520374;269615048946826397;882344637000000000]];
  [pos0 [46515939710184307;119082925968771008;42039217520768378;595239451960000000]; pos0 [582227499784625681;105883342869571475;315770440240848779;557604276200000000]; pos0 [3884539661620314;5273584669415761;784627336084096570;980394792396000000]];
  [pos0 [12933901191035857;104133316825577351;367872033598040155;714623615980000000]; pos0 [16160294846665790;515599832081283146;276610478143243688;916346632400000000]; pos0 [645688230139757657;332038276480879195;408518877177290040;17870802200000000]];
  [pos0 [259818778726211853;436063414216746484;222852095821839687;107334866900000000]; pos0 [19835697823511465;559550104680547905;965950702846682193;993545730410000000]; pos0 [564953030292415192;561876577335183203;895156409558895878;857795189900000000]];
  [pos0 [673362589155763162;839136467165972319;717173673568012290;250815525300000000]; pos0 [142011585545287894;393208976872570563;510096382948558488;78986563000000000]; pos0 [67143012362703266;909755955918883017;759902998204688916;205578898580000000]];
  [pos0 [33413825712774935;738534553310393702;148535015159219943;273280109960000000]; pos0 [19534089098785163;13065427170483431;625493532750103411;927257241000000000]; pos0 [917520709552014887;932697789637327347;939675539295290579;531136044500000000]];
  [pos0 [141255334879187308;878915704872508307;132973906473027046;479452614500000000]; pos0 [121127194867731838;796689389481115816;594382642905801164;647965008000000000]; pos0 [492002005889886758;187123611794531639;434297337183776703;330722478800000000]];
  [pos0 [10319389325631669;268896631400427367;173946120609918292;337274718370000000]; pos0 [267394513501983738;850740856979906093;4618685180363342;380656754300000000]; pos0 [290235143079241318;39344832488616846;744876331106572786;228591686200000000]];
  [pos0 [442721235428560257;657596003569041243;978594455796721679;997020769900000000]; pos0 [94642348669124609;186711899755364452;616059412021163600;345282575690000000]; pos0 [422383483482799941;307314088094782625;387406012968170117;581722142600000000]];
  [pos0 [766651437607169540;570889936435482705;884700760212282023;628413159700000000]; pos0 [148462306644621922;894617528973116966;916315680863262035;76287598200000000]; pos0 [74559965778903629;495400311559081879;391627346661930270;678172534440000000]];
  [pos0 [243988697889450701;685755682574317406;921872410351560086;305602417300000000]; pos0 [464821712029274660;666261380305016113;798903934030544002;731124591200000000]; pos0 [44132258466003232;411709363430791003;123713320817298035;348501925440000000]];
  [pos0 [1003637367565592;143524286066656015;68237164798063245;53163446833000000]; pos0 [954547119803461901;393412491801018270;856816667357849105;824504117100000000]; pos0 [38671522320451237;641069558797003469;513225099883051944;362541676090000000]];
  [pos0 [148850505185741120;898553159349789104;372921799986289092;364294591100000000]; pos0 [300210504409701873;684587686739861633;652294966123360463;76075238900000000]; pos0 [114916865668291129;155565879948026152;257484211209152686;425834970400000000]];
  [pos0 [10936144262973273;962317303157703940;186593782144493604;359797486790000000]; pos0 [144969986137602948;982165327257949349;653566956577521960;285463896600000000]; pos0 [399832111676597792;615145608650618325;365473867059599329;533536487000000000]];
  [pos0 [337888131417524988;486716942333955704;881054991110914576;748297278100000000]; pos0 [6860519623986630;246193341606750605;535125559581925600;92102720480000000]; pos0 [86671183130116214;805201181953051989;876235600046372292;61368337690000000]];
  [pos0 [12010767382133127;120040658816670906;96465674716962980;226796548460000000]; pos0 [410740260595326111;910485186257415472;229829654628009774;102486124600000000]; pos0 [290442697260639264;252064111269515002;657014813104097136;676831024200000000]];
  [pos0 [60358803156852987;989250603948306542;259391532703127026;333357986680000000]; pos0 [133159737633527949;687760961196844577;207025429326286989;450804958800000000]; pos0 [428495871192098356;259356033721428423;39108637515275186;672618218500000000]];
  [pos0 [678804507991996997;351025582927478931;545239540176561961;536218601900000000]; pos0 [94838132333515279;751031842541055812;490106241854353627;442665022880000000]; pos0 [26960038565208821;856774781464324470;850941958984602537;643949500710000000]];
  [pos0 [115802126299735749;88543275522193198;24729222977076622;616218598400000000]; pos0 [757222101533323976;512476806643201273;28960662930625989;412579026400000000]; pos0 [7560215954183777;299525918099569373;231606198638200553;696156042042000000]];
  [pos0 [194771633568726893;308459733196483573;256568888095856963;471135675200000000]; pos0 [80895514624282461;114585768778077462;97894592566194442;95036954870000000]; pos0 [575970906251759121;99128817230046468;621741956610491051;603526932800000000]];
  [pos0 [173332295192809601;703717993602370064;712165664556835578;353542523900000000]; pos0 [592375743853880360;182194066546376089;161343966701623500;548447602700000000]; pos0 [217028722002291088;636419360069714824;476374225891087762;439894965100000000]];
  [pos0 [76203096910936051;422249818698461135;741606789946611671;203934778410000000]; pos0 [12027003112916232;891334541525484892;665943994038796464;15656439190000000]; pos0 [506812217604708150;29688372853064723;391626143771391638;740655948700000000]];
  [pos0 [193861316523796316;266515642845433176;579253781338589319;445706735000000000]; pos0 [33089206860642;194525890158386820;77967960714086940;212029344359790000]; pos0 [7143991256849199;289300943335686675;425863963826144380;686815678330000000]];
  [pos0 [788210314519827988;277806242505781974;412965821597479742;160769367800000000]; pos0 [58226487921019075;412420908832647494;783013287618247408;328140550560000000]; pos0 [137363797193091920;450270100607346929;512277104339553661;222854993500000000]];
  [pos0 [369768679534565079;176119527682066305;193443884339101066;210797503300000000]; pos0 [435436007953777255;187698579378219983;8022805049550039;74252585800000000]; pos0 [150410905340969978;293199122234064512;40692019815966989;600305215800000000]];
  [pos0 [201481306227782872;140861295046692480;755787276386383995;241460718800000000]; pos0 [384808419639078704;921129481646653253;901685356166657850;122771946700000000]; pos0 [10729965193250784;887116701030432467;995179360592328783;790547369350000000]];
  [pos0 [230682995491206792;980674140327335929;300857787760580288;415509632600000000]; pos0 [724187335607528928;756928642789576322;285294807528184347;219438377700000000]; pos0 [31087250979539249;360287939583120362;200193466006789433;218328755910000000]];
  [pos0 [409302692586788328;41474059762706596;606434230419261737;32396003800000000]; pos0 [141650593229614373;843216002742408847;753068359518593976;381603431100000000]; pos0 [347733600187480092;238632575020053879;51772054565918674;208805109500000000]];
  [pos0 [10283753335868738;342086251791062787;646575303625145969;301432899660000000]; pos0 [262931545119965971;638044936181592901;8719252188210266;559011131000000000]; pos0 [567385458102818685;137096008665426783;33335811730559289;874333654000000000]];
  [pos0 [67626371550067848;594764713041929312;155508242967651335;325795368160000000]; pos0 [237651964890504625;271007951520519349;55984125934246243;208545294800000000]; pos0 [585992983842985400;18156828099109816;781417139845743027;994368331800000000]];
  [pos0 [310636506609670465;215779694094290419;812853043668863785;83024641700000000]; pos0 [99037250920952047;836367752717739099;824895201353162587;192254833480000000]; pos0 [13130546527980266;800261200706061253;556852216204406689;519203185990000000]];
  [pos0 [274880422336579583;245435743471079541;803268460435339933;870799231600000000]; pos0 [208252728148921058;934858041529767935;758795677778192053;349949971600000000]; pos0 [212813202560234400;489645599409972302;416797054261634812;947458346100000000]];
  [pos0 [29765502303776619;23217797713734071;858461557610351350;514915857240000000]; pos0 [45278507940618270;45344628068024826;83171510161728830;114572386320000000]; pos0 [96615010070094793;337300691559888907;257066963541229108;712335364220000000]];
  [pos0 [15998139609037102;686642024755756574;606919903281114660;676032441850000000]; pos0 [720037823045812289;298000143583198207;992089615471779706;873066680000000000]; pos0 [252931906466071273;637231116829877357;179839132180508892;492314951800000000]];
  [pos0 [365334468887871967;46173872595183576;699984338383707651;573807385900000000]; pos0 [221696529771243318;292992065759023085;36667689022341377;178367423600000000]; pos0 [242340709900277510;895473264585406494;980990893113451827;659240420000000000]];
  [pos0 [583550217973163173;517783048751479946;335428111267358954;924408647500000000]; pos0 [341732355167028325;816173063479706013;225964430106242900;162677168700000000]; pos0 [41938499955836092;626690079565117474;109118603199700342;452501896110000000]];
  [pos0 [475276243862275943;682321557784562424;24346703686512257;546181000900000000]; pos0 [109578290477688726;425202751500181616;502891149713391834;469054043800000000]; pos0 [177216197008709027;222915220624347178;601061624913826522;664758408000000000]];
  [pos0 [397139301952151225;397505937996594379;448231574053574021;170063926200000000]; pos0 [221660451577475547;421142721093773985;808680991042831869;196511515700000000]; pos0 [126050187016956926;80845885201022690;474431180231241429;517771000900000000]];
  [pos0 [289666712063686935;966863220992097626;298406892970861283;135591947800000000]; pos0 [325033472934283577;682372472912299105;48413881506320426;694108930400000000]; pos0 [296921502468916342;186268643904318301;106814091676848053;404263679100000000]];
  [pos0 [10273119285138746;40364257070711157;728070094459087443;258362812960000000]; pos0 [460052170629052510;849473886985500909;291268693592390653;81919657200000000]; pos0 [9452644947057997;253480975819405564;231215614909195084;107158161036000000]];
  [pos0 [2581783143252839;801126203488812810;631505940656146001;692519510443000000]; pos0 [15777515818771960;536215351430398759;600624411846975663;62737907620000000]; pos0 [41993941616635468;274602770391803122;553529381432658552;759502917470000000]];
  [pos0 [255775291249858208;921516041147279053;660231373791082470;414556254100000000]; pos0 [184551163954990746;447080498278246343;711708597891192691;587402071100000000]; pos0 [28557119841474011;253101171240314346;83644540430288889;625206865740000000]];
  [pos0 [239450929570013423;421922214130113529;511431635924917491;752754972200000000]; pos0 [65988994078162047;399612605361144600;590844972364875373;333535992630000000]; pos0 [633340146415856447;610651024248987752;336552548013397407;873747216100000000]];
  [pos0 [8949497346622354;134102747234526429;599385803976148884;375651255476000000]; pos0 [215807161486051570;754340082317289979;736655890249467268;327383600200000000]; pos0 [73539272765080411;517090676660058112;231858953940472781;267778151340000000]];
  [pos0 [902743225321579710;152846662824014753;799520817022402972;928659747200000000]; pos0 [10304787340911081;767037625689461428;23998655335311029;821615076130000000]; pos0 [8436171906512358;213963113573752503;40243389864570097;619659207471000000]];
  [pos0 [7317316423184885;777418021749973007;152438160212922112;112060602583000000]; pos0 [16513400456990011;68815334413369374;640728793354448796;676268608870000000]; pos0 [352298272129753766;972327318433923899;538916448219073618;815150370200000000]];
  [pos0 [219493768523306533;132947855323998170;754084985845404603;184231606900000000]; pos0 [71499785127286770;977964386291751696;708129039338890628;443368473250000000]; pos0 [49498054695759167;404151348468831493;495620211641178654;911003302830000000]];
  [pos0 [358971510926767894;524264128509950692;810524104796553859;808120084800000000]; pos0 [369501137654261293;550983522003204628;56293523773404681;365367925100000000]; pos0 [135900033409455428;992249489504225675;219091258353575670;483067236100000000]];
  [pos0 [50037659212568346;359554290982076921;556425012059547350;67233940990000000]; pos0 [433804014504117970;849929219692399806;212271696004336758;153643414900000000]; pos0 [509091596632047734;830107312959231684;894524787264225961;924819207600000000]];
  [pos0 [497179259868371540;905988330749490347;575482648604386176;722346707000000000]; pos0 [1037017675873364;333439893807826220;242858207905972111;634626915656000000]; pos0 [422172532305369570;176340161277412297;425146267255163933;64463515700000000]];
  [pos0 [503624121080054036;274439698938585755;431246389064734176;732878308800000000]; pos0 [421021575679855488;411377684718063604;262384245739156167;772937039900000000]; pos0 [9379465154791228;294725164441849239;284545788629766821;607163132951000000]];
  [pos0 [518252409016744952;639964925582056408;43547894442110099;15515478500000000]; pos0 [157282880494883396;988564609539355319;783850713214678268;492099602200000000]; pos0 [302611260302453046;507843922233921200;34665139640043297;432612388000000000]];
  [pos0 [216763318442401038;974106863997980804;485606871931347379;887252382200000000]; pos0 [284876136781719375;360160987921826210;916804378657562158;931860638700000000]; pos0 [443609353553682549;83723248197730627;146518650468921553;730160141300000000]];
  [pos0 [373989154002897768;894416006620100549;994385522896468736;400900587700000000]; pos0 [108752760324210132;322022687895548277;832207544378810827;461405725100000000]; pos0 [160689286759823293;192925293663282035;500464060131641856;957150817200000000]];
  [pos0 [157912934119387534;930245319864477324;186745107454180667;812708972100000000]; pos0 [310238262732313773;206605535926067294;864373069338255409;734556426000000000]; pos0 [203040971945548920;436119165012723913;886286612304577112;754868108100000000]];
  [pos0 [14407579326195853;390225628239902221;931653597309657209;921134715700000000]; pos0 [320782440243431393;42023896220816461;775160496733123766;12367989900000000]; pos0 [592252253828893481;454326928729965836;636978280982381927;429684205400000000]];
  [pos0 [175706117570491404;405970328803631794;613907287762305943;137688692300000000]; pos0 [339084345317556701;100528331250922964;526452832521263175;852474125400000000]; pos0 [343415430993921860;142584368673030368;829787323235431957;686260650400000000]];
  [pos0 [70418126685758393;136301596054434485;298177705341805682;355862881160000000]; pos0 [863164461547898794;407924845948189697;419490169335488512;441213749500000000]; pos0 [61260772852160015;319185153588232426;625954558926566397;988886695810000000]];
  [pos0 [198960946870695729;734075427268704650;709328120265241488;775257164600000000]; pos0 [70682186637782289;922584503453999835;97509141930305081;343121906450000000]; pos0 [718787126552946195;24424416470330335;481942869265583784;334089835600000000]];
  [pos0 [410337460945058142;455890393268664820;810636064950929152;240695664800000000]; pos0 [560769570291156430;714913623259925246;855538642779516797;816509074900000000]; pos0 [14841922035614822;548418115528876207;235237281698165387;317145253360000000]];
  [pos0 [51030472315400178;547889196043119368;774614361601948711;51897619950000000]; pos0 [778626083407824649;346981255539839012;142245733704030894;346587384100000000]; pos0 [93779101956440771;627912902579241930;571740959415918339;928588743680000000]];
  [pos0 [662287574313395288;96334043269312944;421970219462984977;66351326500000000]; pos0 [153108585719235081;492251925464092537;755723069838884266;955350154400000000]; pos0 [141162433577892181;379559627334918364;463379636101333723;905823549000000000]];
  [pos0 [883046963802936637;801988627607480090;432123735537378717;487416086700000000]; pos0 [63051548137261164;974938045010604449;37687733062263317;748669624670000000]; pos0 [44648922806401278;537596032648905660;881206831579444819;485300466850000000]];
  [pos0 [150047937003757017;453636134910986021;143771495029473763;662269873400000000]; pos0 [42121939449849477;915040704826882812;22021346351964098;340494404160000000]; pos0 [234432817020628830;32166325642502824;330423423437879680;164797112800000000]];
  [pos0 [142948148229041590;871001725570272483;747434069609285869;498923469300000000]; pos0 [452860740631041319;231263956557464751;342161654417667722;142888887100000000]; pos0 [67078785762647711;195387494071689714;961925310219433988;10869331620000000]];
  [pos0 [26128424389366955;910077645754081032;74893588599148355;117463858470000000]; pos0 [34394236321564795;380200461761147951;643158890625805267;45940282780000000]; pos0 [18558442128037773;509805118898338208;696826774852432290;551522520640000000]];
  [pos0 [87398363182478932;989490431155012129;961419212986213550;996440891300000000]; pos0 [450756848175611687;402486771235393474;823539923792601242;556662583300000000]; pos0 [365201032482377042;753380834498224767;66220258237298165;11788590200000000]];
  [pos0 [130535211841940684;578390000136222787;92589794450548485;565184839800000000]; pos0 [246191807051777194;366765968874102058;90213635790640461;682993565500000000]; pos0 [585740975893651661;46300770769853330;532185032678350316;938646120600000000]];
  [pos0 [255494195486178467;866879989257685746;722227785950662384;263398798000000000]; pos0 [55552255204124020;353559174995870857;741056659151322330;766530478610000000]; pos0 [128995187731316098;478663173897964708;603435766275840765;107894668000000000]];
  [pos0 [69383992856696655;177696558520867338;23322753362454341;137153199940000000]; pos0 [217664890221395759;863049382724447827;339994449248282210;931746627100000000]; pos0 [12309943244374595;595664191067876280;767638437247426783;358914278400000000]];
  [pos0 [150064053291683097;724338883368418210;157691638300650772;977602466000000000]; pos0 [587228775247439489;299996850961726262;490378869375968646;58862133100000000]; pos0 [13485994317201812;239426571831316531;83800205213589082;995688661130000000]];
  [pos0 [113325696391260729;443394660371986857;10601812096225811;89104615900000000]; pos0 [860900834724426203;58287470796163942;185011122340301911;842925332000000000]; pos0 [94699207579283;266831371719545367;719032159758241024;980156864546700000]];
  [pos0 [706515770000762368;447042225314710194;306927168198978345;182503981800000000]; pos0 [207360988088217504;599965079833002952;167958289440485161;115739961600000000]; pos0 [43547493572857855;897188520661855759;217588042927040872;572254792040000000]];
  [pos0 [346205238745592624;993424830577966105;151568839185488093;157438300800000000]; pos0 [73430705483962316;836973263523665928;920228716765859320;162909647500000000]; pos0 [569305940916264253;726901440879679785;325364202529504439;599784722200000000]];
  [pos0 [46344846527860282;141487273681991976;938405879278080743;648094917380000000]; pos0 [56678912764563914;101118609706085990;236294491917424888;577718079190000000]; pos0 [672473193610916059;967192379051260961;879749323870250774;278659490300000000]];
  [pos0 [12659745076472929;813288532369754566;842326231371845110;851840239150000000]; pos0 [309255037575228246;302849673065841564;365061894217776092;530575801200000000]; pos0 [14559765104016337;825675616113029655;497508498631369716;114886523160000000]];
  [pos0 [378751255184620785;72033435542997913;744159896338513103;862644473900000000]; pos0 [450479562316028769;731399530585988596;50428842365114222;354601357400000000]; pos0 [12683660895122460;689931858014875372;441982352261925636;500418466150000000]];
  [pos0 [245320165493575797;850418859829180144;334527851391518485;30776698600000000]; pos0 [345387464467140238;735419031270870809;643126792463107930;910794187500000000]; pos0 [226018353656116299;855883154471870634;105879985842228958;269354326600000000]];
  [pos0 [678040652470472878;707211951059468936;210552305461165495;381965302300000000]; pos0 [40363393335875508;143099971470334709;123903979767587770;505904790590000000]; pos0 [273399171604711248;527694229407468261;705984323250160460;72941474200000000]];
  [pos0 [364916315540622940;901242468777377060;742147635942140929;80785141300000000]; pos0 [172731107633911148;545828869277230772;545872981399015488;86263580700000000]; pos0 [454265877100591536;787127009506658120;742478751425518869;411530825300000000]];
  [pos0 [9661195000577170;802869955536109024;600169981585586588;712810729370000000]; pos0 [462896284229825587;172142956734847459;915667441413550607;784097325500000000]; pos0 [449658094232984219;671545011767096267;519335517287243321;758081217300000000]];
  [pos0 [11177646255809039;376448930260346861;934923853574553214;804717045940000000]; pos0 [304957923757572819;467114895595831434;869386942614916725;917586173100000000]; pos0 [672778708292658422;992865288039806355;900778974665413904;2772700400000000]];
  [pos0 [25879510844280334;988436292908273737;623192149370005805;977008093710000000]; pos0 [108421492764594389;355055754386309827;955962875559689320;610606662000000000]; pos0 [37050763614359930;703868411697552555;502363268721553930;517448295800000000]];
  [pos0 [185789645833519908;251144778836067259;628421318085754590;111333716900000000]; pos0 [12233708342047101;696510455953924034;312939600140513635;598119555430000000]; pos0 [128391081742742197;439932440489947495;642269366983749079;227003452500000000]];
  [pos0 [479125054614146526;845682941888718513;431945445442908544;826102196400000000]; pos0 [27625579924623;478253728913346656;845572794039289399;692576708010750000]; pos0 [277833305811885109;654901176153912604;604732620727946781;810214564300000000]];
  [pos0 [711492315987445360;84338420364788644;892898090884878249;297224945100000000]; pos0 [8778040346671093;68274422968527980;777691695838471037;672113021884000000]; pos0 [139066856020719755;149863832237846029;153862278130631843;645525276100000000]];
  [pos0 [276436110032564762;310126834376351171;171071860048110726;157532012600000000]; pos0 [146866280201384404;584433131241026866;459108829461135899;332516733500000000]; pos0 [522796464265335159;569440761638653438;682008038179878350;372515988800000000]];
  [pos0 [411768332184732906;297168226166045811;712032452271851682;28170517100000000]; pos0 [35622193429455752;772940384013038002;754090705652624434;117554023680000000]; pos0 [334055461957788408;143882545859935397;959001568307485554;205092906600000000]];
  [pos0 [4962739317542861;504975457715110327;828909806689647276;828177614333000000]; pos0 [213876012501274520;981794187062429376;540275032025754337;196619808400000000]; pos0 [731524397130524165;334066066093185836;744210225600774664;138904747500000000]];
  [pos0 [477825700372032240;312277917373927932;983344899299155321;168678169400000000]; pos0 [44091742542054721;779093167075715473;432367487166844916;703955759480000000]; pos0 [8025391835259794;43552004060086937;676007804434652949;530356419005000000]];
  [pos0 [545953830825838847;518861642299595804;713725274645039435;657098037200000000]; pos0 [243152576564213892;619765198652581986;797070990226890342;316636033200000000]; pos0 [195532542866689390;545617361925031544;6398371716735633;597225239600000000]];
  [pos0 [12996793393834721;768736386025371880;352294255246087970;405815328360000000]; pos0 [55934728184609708;985876308360934758;336393667390114031;878539966880000000]; pos0 [459771003059231654;516454614382853351;507679066736154986;562814571300000000]];
  [pos0 [80883813643443428;22304569758219328;133345313345494987;756497365440000000]; pos0 [113285789053581926;162850818638309497;697624094472102831;788540790400000000]; pos0 [659827593949932844;804203456319347427;127448330121521874;534134702600000000]];
  [pos0 [434522098250999378;451638503664843097;996846872670002204;696293208300000000]; pos0 [5660459712299900;664041380942990381;759640243773280096;442695717542000000]; pos0 [14379588379239198;82633714564213691;830630672516379319;53730319690000000]];
  [pos0 [400359096576367637;825664660220159934;156675656704765107;54122287200000000]; pos0 [481871657549839644;717947492500251804;249292004785805459;888541697200000000]; pos0 [65460764451244781;339068734090395769;33885952133312265;28140358400000000]];
  [pos0 [149187140146566120;95529960562752660;900155460964820809;388052673900000000]; pos0 [153405592913169793;958906867675457115;813281442418355368;615438311000000000]; pos0 [113990725227975220;987991927396570213;829782843310203332;248351155800000000]];
  [pos0 [126956247685371670;280195084085845580;368508967680817440;944515976200000000]; pos0 [124141999755123989;271752780540337653;275993892531843009;278206295300000000]; pos0 [696498960034721918;528264480920290257;174634566660240833;950000879800000000]];
  [pos0 [158431208202543293;755817766507152868;882248516108093717;79663431600000000]; pos0 [12449005190312873;284808363105099969;660017276863560362;974277656030000000]; pos0 [817744879701938397;517720953799388009;540038486768921780;531348543600000000]];
  [pos0 [12251446498594589;94455026502428209;767715201935930986;205410922250000000]; pos0 [56599052666466853;870818187493123327;836753608329578629;966759721050000000]; pos0 [920668856650374406;875812048113466018;691251087691847163;963950014800000000]];
  [pos0 [892136271356441778;958690657733762810;975337166736526922;857549866600000000]; pos0 [14554155993921879;108519644090961617;200310074168672032;927705832700000000]; pos0 [50362986148226204;902077314469715236;43416294875313588;168165918280000000]];
  [pos0 [34311918204919771;372771129551198287;17036760087793479;321787397090000000]; pos0 [536201478973109601;773541469714940759;375600907051444083;237600792300000000]; pos0 [284402366957280049;561479933991900205;882644201978960655;208723508000000000]];
  [pos0 [131582913751787650;454081376118359892;734327895740158340;913351234200000000]; pos0 [594655979353221109;642869402629469697;575007944434731685;252231194400000000]; pos0 [72521569123420618;693034405715263979;252491565421538389;305317795700000000]];
  [pos0 [254754490632471755;49533335012819019;598712429226688114;225092580000000000]; pos0 [304207014661932908;521676903885139054;272665178299129126;325540020400000000]; pos0 [430572822044699279;135126794969869340;67808287436743480;787976219400000000]];
  [pos0 [286911081787123301;700987899507919829;137512640405916005;632476039400000000]; pos0 [101574840952811607;159517454893269676;97693247554696046;724555761900000000]; pos0 [294617052338978772;989686566627146727;862650028106421618;513455409400000000]];
  [pos0 [10488701029885060;58488446595625766;879713274542408573;929430219430000000]; pos0 [680886986040034636;423604809426287445;986859343458396598;606557456200000000]; pos0 [15483654910255839;824837768994710501;448688957810629761;206373927990000000]];
  [pos0 [962358189608377661;871694736451987205;655559570368948579;116890365000000000]; pos0 [10282627742635447;866523831624421575;566942986771658579;235052818940000000]; pos0 [14129614964717686;273646414645868386;924148498164920712;28824837050000000]];
  [pos0 [76970105207848404;566877073919874939;688627050011960104;552371628160000000]; pos0 [65320878715963123;274366478361406991;675271367604200071;835278237980000000]; pos0 [360480809374867385;364679597915980475;142995625118193804;481888381900000000]];
  [pos0 [2179806124291513;195531936727748418;22181033461490463;236212868038000000]; pos0 [6005112381287467;961684837506225445;446939961155763765;255463619882000000]; pos0 [977522810975591753;495095025438233358;167285569089977713;998346407200000000]];
  [pos0 [157179690493428923;490212825382657961;966710457172196309;873731161100000000]; pos0 [116554641050521214;348697249812918036;409019139481372231;638665161300000000]; pos0 [345541486469497681;114424110996945334;367618700687770462;238284470900000000]];
  [pos0 [3035872333356313;326697856938008636;57431600378662508;309685631394000000]; pos0 [937186096669039892;792925505500248846;477683029895066181;748015899400000000]; pos0 [7850222803032614;615028376779705138;477070113560546614;370191521973000000]];
  [pos0 [14274300416599733;262100704993649287;924945909602344385;281862527120000000]; pos0 [146625124422493696;892850738800675336;968799649579784204;340129685300000000]; pos0 [709761137815572963;315612179162042819;794746449942448498;300707426100000000]];
  [pos0 [15911346753083196;636083216458911941;47308190675424530;688433821370000000]; pos0 [6178510998908397;243971200738539090;79877736555034447;657189445606000000]; pos0 [891492227032685841;581234264884369198;14644180757843478;275576549700000000]];
  [pos0 [4886249957931560;293262600963586008;332497029765835959;382493518269000000]; pos0 [40216785972776566;546123490247097581;573952953105796147;690925635310000000]; pos0 [206943344141546148;385723216109958396;602316560588517682;303145708500000000]];
  [pos0 [185219288674471927;868236050193697731;298676143079740721;282794467600000000]; pos0 [146584907663329374;917517689056699634;423928542155312756;468296145200000000]; pos0 [4035315490436406;871544851330870279;482536373144300889;653645897049000000]];
  [pos0 [217866083632413412;197830856683721738;446745121020359699;184610302000000000]; pos0 [173936139968773760;806088001225827463;54976409068411264;40929618800000000]; pos0 [596787528222404815;492272158201829583;875297334762755690;700706463000000000]];
  [pos0 [132828470593216556;113611705439780419;782921099012962552;954172861400000000]; pos0 [427502919341181771;578853122868341274;474010876179771500;746426150800000000]; pos0 [416008411486715200;17636577349187989;564918843591546813;498243398600000000]];
  [pos0 [523241832753016230;849130452275455568;405548280141469881;402239197800000000]; pos0 [40081530022485348;978488477435953359;657440102318354460;772885085110000000]; pos0 [117420510168630916;656716269713130281;241447896458650337;584240571900000000]];
  [pos0 [468255253403564976;208747492897032677;594894077945298140;565338473100000000]; pos0 [372029617543664800;679331052497884616;552123711986004438;733406276800000000]; pos0 [53640487539541045;995710103718527087;236577299019738805;795515691200000000]];
  [pos0 [701604524200103106;385743230210498762;583844818406870960;382134020100000000]; pos0 [273472744392452841;997725641277862518;777276521618890013;173956491300000000]; pos0 [20108685784700033;742912542328992140;97629080815592110;618444688400000000]];
  [pos0 [800295664644893642;745929689488860117;633529196940272661;864151189900000000]; pos0 [81193325179745511;405451756785203687;83724533822306218;903322412810000000]; pos0 [62136927664243074;766698651668906124;417673930370317930;787090500810000000]];
  [pos0 [137721898182919441;637756522410933083;500076599522294294;216963389800000000]; pos0 [12118143718764447;29652401421298459;96486873237512969;502810230630000000]; pos0 [48604342110925435;341634104749508739;487589818958773040;481410998790000000]];
  [pos0 [432626818175626330;650274264195348333;368142986900408797;977560714400000000]; pos0 [392392275592719961;357432819294250647;17677814262494754;135826366300000000]; pos0 [168162876879936191;782385130298642992;763894226393528935;824405880800000000]];
  [pos0 [171315765950379568;64375725928733935;372080630464849518;655666616100000000]; pos0 [174208904008549896;560894953972235439;270800833342647093;113192928600000000]; pos0 [543081599838899066;715663049710379353;753941146464063427;50938269600000000]];
  [pos0 [8882322218387445;74228807439007085;292859751288089894;560643981535000000]; pos0 [56990050501182852;835505434289137993;417170201585691088;781905561750000000]; pos0 [757168635403256889;503548923953535262;124475782436587396;935434269200000000]];
  [pos0 [8108230698535449;912780977864767128;331481135713330220;384527828123000000]; pos0 [806232757150672672;543066117868306214;798135170322803358;214273730800000000]; pos0 [149166601781309802;754921362404501067;240781792463751861;131816164500000000]];
  [pos0 [253017032153384018;274445493170994750;816526530352517554;60077033400000000]; pos0 [9204467371103880;855420719094132071;200758802917170805;28032935823000000]; pos0 [213331965727054077;747913369589229736;185749224575536233;244863433900000000]];
  [pos0 [573644708373310672;308776996315130538;668726539647447743;761039188100000000]; pos0 [255519016090519986;233413233429951568;909404609574246291;126388899800000000]; pos0 [92218516301443582;977151843784432223;237721574905285522;2100660100000000]];
  [pos0 [399192484119816212;859584156105370021;26193863667948879;525806864000000000]; pos0 [110145767104462330;927107669216996770;508605221157523753;668040806900000000]; pos0 [285441735313119518;499702265242328673;913023571689409610;78049824000000000]];
  [pos0 [11168866713464689;155235061204509436;465888620458607452;942420895350000000]; pos0 [418027672198623898;168933640390462782;487706510067095449;518818895700000000]; pos0 [172970131587473989;320470937629719625;896579593913817240;212993291800000000]];
  [pos0 [89968378584553385;427241186623116741;395396118262325433;114536775010000000]; pos0 [5873568057112973;416806589019022996;896738256239849149;690294808350000000]; pos0 [851001715170037171;631276885873678694;255892503989763670;338065844500000000]];
  [pos0 [817211810736391996;712102884968509425;967780540397010644;347570325700000000]; pos0 [11514856582045122;499114558448364557;821505601645913501;487002333780000000]; pos0 [120163809121664434;238622532576081335;62614108553302125;541977500400000000]];
  [pos0 [11425545772531066;744362918066860728;839700969066044168;165069349550000000]; pos0 [573941465756304710;574467559167298996;345169086614416404;778948747500000000]; pos0 [170595479820483750;300574353544550067;334971295480861581;800695321100000000]];
  [pos0 [700499015549350004;408353126605965419;568888518903602044;542292401500000000]; pos0 [39458457155669983;182935569665439154;498086909116553616;396021717840000000]; pos0 [11852366280207092;238726434613905355;282352798725027424;330607829200000000]];
  [pos0 [64919080763856392;363145368978493239;711906608004762650;604727011600000000]; pos0 [7774683033064761;820598558084230373;452354119205355565;147846086290000000]; pos0 [659436907619125528;909269864625801946;90946495365249725;921403374200000000]];
  [pos0 [12823032197731333;733759545921273726;941884248693170558;975126376730000000]; pos0 [983478540205711984;146786357041667999;728642455324463969;39958176000000000]; pos0 [105327967406859;619590684397381254;194255133974231495;581621826054000000]];
  [pos0 [78366345374043841;308688562399373665;54079591628355716;327561648000000000]; pos0 [11042947347410779;933607204950077279;269307946004156365;559803773480000000]; pos0 [131107065207512266;212469545854390349;223474258929667239;934816519500000000]];
  [pos0 [533797414568398395;59168729648650442;601444117997543078;619724896400000000]; pos0 [71679104638317098;686113680282804874;367094280572758171;153009835100000000]; pos0 [285351275630853588;235534408140735293;829315423104838273;498060070300000000]];
  [pos0 [13671091994236353;406387622956131152;901800222177525235;593327352420000000]; pos0 [164984071625116004;989680300498044571;2378759946241315;384599700800000000]; pos0 [481332529494977852;541688492289969104;156756392286084467;443966955800000000]];
  [pos0 [619024055471524166;419668369112506443;575931141997064702;975199049700000000]; pos0 [264461351221241986;521372942214893936;231466477257672811;116941562600000000]; pos0 [18213057906040462;439132243741870438;590743651608447579;126798188340000000]];
  [pos0 [274489398533912976;135704434186329999;633229775284364238;913626049000000000]; pos0 [45062057104139063;799684489325750678;431905027946476487;30000373190000000]; pos0 [261604481736918078;370062885334958439;741476153176464689;172301511100000000]];
  [pos0 [70551624274462940;715837840801215698;8142778332043932;475438204280000000]; pos0 [616747003013696697;553930775880944683;487873054936173221;69793482400000000]; pos0 [167965773933444149;784557487479339039;966749688354577254;221787267000000000]];
  [pos0 [39578714990596486;936517449399202419;594281785902534334;336322006190000000]; pos0 [113385353925402697;110564094721983405;12918106964361771;507175274700000000]; pos0 [823075672633242278;247800227592464992;341847377797137339;661669753500000000]];
  [pos0 [59842152799216886;684596310634410386;785835063724790259;1749509040000000]; pos0 [582445621811297624;935636432811766222;994693732324523680;459643082700000000]; pos0 [51350208138563706;19645102966683705;165804766207309392;495284968890000000]];
  [pos0 [83194652176204903;590818470687093235;489209379665472479;324717905760000000]; pos0 [700997296004956522;156393907813065834;694154911273261737;137406916500000000]; pos0 [208783194687863998;928794842261554090;516536393084676561;869139730500000000]];
  [pos0 [7654234306419429;606078519798148765;60084178699661194;62664598638000000]; pos0 [413697329265384116;731772492870363506;299014420051966159;983843690100000000]; pos0 [406198614233646491;981742192939566376;314461822865134442;694765771900000000]];
  [pos0 [112981025618347362;676961375990718402;789518345976317475;382226982800000000]; pos0 [802655632914404424;423451775176635516;629231402566201452;126672410700000000]; pos0 [41028057410999241;800927942079068122;444894608393510068;507795790050000000]];
  [pos0 [422594638394396447;571017173529203442;55145812161995196;965229262600000000]; pos0 [29085506768522473;225127345609249819;358467090916146352;693729944190000000]; pos0 [416795217652158091;921777545326474790;167472249498763094;935251097500000000]];
  [pos0 [16548817416919238;198762810319388069;503598447289632380;52903850660000000]; pos0 [192866362539553017;52573047895709316;247628316366894939;56668152500000000]; pos0 [184421760519785113;604053228679439815;155201005219916200;830674911800000000]];
  [pos0 [385975611149636771;724084747492461322;325388328491622624;340696586800000000]; pos0 [202268576418749542;139597834206992295;825250626537682695;799299884000000000]; pos0 [55399417616228751;412898535352378841;42129960891643992;361185351730000000]];
  [pos0 [129449926395936455;258236705286388738;635453090370313764;353984617300000000]; pos0 [483449167240711720;666997329043201273;10156383389809359;360488196900000000]; pos0 [237372271537263279;712159883932311076;818568608226767646;148037619300000000]];
  [pos0 [127277048564673274;321820930625912498;90252973274511791;217901705400000000]; pos0 [40969801794600259;660232953746445702;317231900458757532;429473951640000000]; pos0 [728778546470157491;612296512717640893;740699952541966563;400488229400000000]];
  [pos0 [239052723675670480;596288687884952347;769694991571958535;942778205900000000]; pos0 [115204585221942870;670072192198011937;873039376756143219;769934563300000000]; pos0 [187160765950682155;826733303968327629;928198520382963691;434110909400000000]];
  [pos0 [62541643799999289;924935668729532967;755701624783660176;65420747510000000]; pos0 [314765896238843899;155561728354925294;699784787301543690;804390425100000000]; pos0 [226103005748052331;208900752653566726;525712297405753785;177441873300000000]];
  [pos0 [450920514395530478;727928261374768350;94640036637044371;954063708600000000]; pos0 [12683064910094383;423590419889632992;705268910358781477;77262797330000000]; pos0 [522383910761204820;832908948526729370;107799024510134647;146366316900000000]];
  [pos0 [13426882867039706;901666521256585813;807842968815835063;752179734620000000]; pos0 [697377658246618718;27222454227022551;971984673758661937;762454231300000000]; pos0 [70823835716631304;866286609591440021;956653226615169902;21596724320000000]];
  [pos0 [212212065220762413;763104066850454355;601949210091845312;263733682500000000]; pos0 [725051984364096011;225391287130203240;505065048310516329;203729789700000000]; pos0 [9011720412176058;635392155757175959;48795450540788997;419093337676000000]];
  [pos0 [271375466400523731;190364370569595422;121791701415846851;368541099800000000]; pos0 [136028793840664960;119437482574687366;488554458238281451;632408144300000000]; pos0 [77573887860071585;866177248993920160;849339927869898301;686474186210000000]];
  [pos0 [70418045251119429;56437781798550769;347442572342562381;414979336200000000]; pos0 [235375790998092270;145760646890661665;659254989992658634;177405259100000000]; pos0 [141642415355983613;542367574949161161;400784945237589556;206850400500000000]];
  [pos0 [6380350291803261;42237572383881261;669413217152111750;375713860045000000]; pos0 [73448398821262057;311605345159101273;493927827637621950;324334380900000000]; pos0 [3401198036759959;219029503977673908;573962926151479104;966900090395000000]];
  [pos0 [38645531675890049;12720764410848849;6530740702521043;405901634510000000]; pos0 [68635329230366115;940064872372348066;117282568222879343;818805040540000000]; pos0 [809260073794683214;488467541978429494;175491650244414564;74721446200000000]];
  [pos0 [185326632217872649;92809461336174614;304413492551532052;43606609300000000]; pos0 [48562908131234387;431522619325057532;710546905726323358;997278566570000000]; pos0 [346519994830128637;380855904910573117;463370984525175498;188626048600000000]];
  [pos0 [7700222007518068;161361858981400396;126875376689346832;783831268549000000]; pos0 [558826472470295785;653854755726749231;853152432526661728;414885428900000000]; pos0 [18441772401785395;277070212918010812;508697869706576747;523742666660000000]];
  [pos0 [54899172956871676;87655193884322336;902445117967323760;432018295030000000]; pos0 [496025934246045938;381555475460015839;604385209534504915;69320008900000000]; pos0 [148545427779016500;634005146812317563;308518810201069620;499832016100000000]];
  [pos0 [314129930043272852;652396776347340495;627434832617558256;907933452500000000]; pos0 [44954428057343237;71004300351149535;618982680193426153;564203359970000000]; pos0 [1298806960194584;242368969703380693;499361901977293472;907805518249000000]];
  [pos0 [2940576572629289;251172038042082462;18937988109053711;33262900214000000]; pos0 [561108949791397389;612099403025475880;802454745139990663;80038444800000000]; pos0 [274769908208190690;457457921588143071;519832038011341729;809256771300000000]];
  [pos0 [266163019037071083;158208768565858427;311848907226378526;963838658700000000]; pos0 [204199905218086954;58153854513456453;168368561347488384;692303207300000000]; pos0 [389865193041615553;850912741547379991;853866470057207463;641397480400000000]];
  [pos0 [116524141002622251;812681000525089992;818691561497659607;431576919800000000]; pos0 [566074951534173133;163393625194493087;592561286149878077;281925676300000000]; pos0 [259695077026651180;912142132315748396;26159909206176674;459660453300000000]];
  [pos0 [260916810757292122;814929438257858689;206574659978358540;425592252100000000]; pos0 [97888550534301241;484714207549928676;788191924864838777;471519716170000000]; pos0 [423821648759478941;606665459350943868;236903035073194700;871524025300000000]];
  [pos0 [345874121177723527;134529487294096896;10107875213790416;820223028000000000]; pos0 [574705647291595217;295543902540012376;789529301652119704;116046144100000000]; pos0 [13570701716582370;370576703780239066;490803665385710180;79196494600000000]];
  [pos0 [690267751679142756;365567056396243869;486176652323169946;36264299900000000]; pos0 [272247262634171336;281334624896993655;829241827962305530;181675725100000000]; pos0 [242548436025091;243584934361329207;461883965761763091;706935135201800000]];
  [pos0 [669089042725563932;641893596249022485;542607511095883494;960773031600000000]; pos0 [53990480049130012;708979816218276188;623945606236642685;151351683890000000]; pos0 [86929374469064226;60491691438653389;314032290150994600;896259376590000000]];
  [pos0 [99517667562299250;863253967125960154;717017929868874642;771713507660000000]; pos0 [219006750844180120;145348323776413172;165010787018396697;406374761000000000]; pos0 [355884408509873917;782314344812304946;119752343856575052;11526935100000000]];
  [pos0 [9909907353461673;478886543504826340;322275703821302393;317718206210000000]; pos0 [385254770827689869;766933411949888159;912258935633183600;843270280300000000]; pos0 [65384621902314846;676657743629283440;692008645486592840;178991217870000000]];
  [pos0 [51646255184015258;634551142925528005;362282048861105158;330045140710000000]; pos0 [38623103711420013;415529094484559046;460207474887211967;297473667800000000]; pos0 [222048720088357345;579692265134919127;728582152904801690;282350274700000000]];
  [pos0 [893326341189010492;611886902125803336;551762867805971781;281905846300000000]; pos0 [57190182591017572;864608258804117069;238472793819620031;346998055020000000]; pos0 [10235309979595638;354698882394944168;199979448256518743;341182188060000000]];
  [pos0 [901603730688865691;151119398321293102;447052511468563348;243507246200000000]; pos0 [12287423839605186;611434165536575755;182366872450239121;772737356930000000]; pos0 [81724693073810756;19440846925691545;212898929702856507;625162319200000000]];
  [pos0 [96461692923110485;569952429693674485;120831779283720448;290544425340000000]; pos0 [353797531892854022;704465602662820615;719010051784179919;967987404800000000]; pos0 [325151735695467729;221272612947029860;858852531147799008;694663562600000000]];
  [pos0 [523710552348366932;466089432422460442;945555890131746729;402421175300000000]; pos0 [55051577445006405;458490438479798248;345484309043662730;125348188930000000]; pos0 [417148947665807000;677213324904636657;807619314639278982;364282855900000000]];
  [pos0 [239633379204122121;632714451450829181;344763565530467724;311554522300000000]; pos0 [15723954198457662;639582879657606878;73297651379233682;734636552720000000]; pos0 [54877886929922257;616070856324622707;84664995582093022;996196378660000000]];
  [pos0 [98606262963656361;509652258547411448;481396696522376;59397126930000000]; pos0 [49756340924823247;891022838185719532;971209596732679878;627612512810000000]; pos0 [821000801544566006;480934616183484907;771129690215098892;68528341500000000]];
  [pos0 [302777817975679573;455009888922156656;41635481107671401;125913662600000000]; pos0 [240727927840481087;941343294045019425;504492485450839826;337418762400000000]; pos0 [6357753495312102;688273617509553996;264408018239578550;966085596910000000]];
  [pos0 [299720515481991370;677955489772364172;200236355159682503;405678794800000000]; pos0 [6830285346986225;596733893302229817;454475523193188700;71273532064000000]; pos0 [333459854040159137;956307504208284392;881229673297840482;860022622600000000]];
  [pos0 [361158368720922221;839214531048707023;580564930234351362;395362024300000000]; pos0 [728176792155152;607727998995147497;604392505485109023;29231478539700000]; pos0 [438596404633866880;456648977896510093;375515776259523997;307620678800000000]];
  [pos0 [10996549898186015;63353785357170086;211208126529708893;16937627250000000]; pos0 [8538759997829111;682025878391036562;845863222663003036;246166372316000000]; pos0 [783239624933935223;493893724470425757;2497784908030577;126113160500000000]];
  [pos0 [132448097965656732;9281829609991189;844911400505403524;709629062400000000]; pos0 [434849376698454783;870921180677063538;246430837520136039;598691450200000000]; pos0 [158749439341959664;423636418341958488;126158064654650387;597048282900000000]];
  [pos0 [124214509203658689;746800120247285395;284958848524622227;606347299300000000]; pos0 [63030399667412569;691277193339317892;413012728571344980;141873108380000000]; pos0 [117926363517565049;718751689857954779;377683601207902668;93111689500000000]];
  [pos0 [365648616954679777;147513659338365864;17081628511615390;533974015600000000]; pos0 [34896486677813817;937455263392242535;88008521968779325;519665464380000000]; pos0 [538863095010514000;225227732507927897;878965725081593668;156655461600000000]];
  [pos0 [128471155605854241;351918462351894141;492083331238889296;483623585600000000]; pos0 [129190027929674712;377889851667417820;953872396267961079;576278453500000000]; pos0 [34840843258859076;166858265371585453;400120705206197836;602347619390000000]];
  [pos0 [52982641149789271;685982831334169362;235932569501462683;194386751570000000]; pos0 [264198408383064076;793071753379545338;841716786517784046;985220776300000000]; pos0 [668399510625762580;213095072230325196;479376923297786755;165195830100000000]];
  [pos0 [61235206707334284;628584929778475163;565111311940012823;63518976160000000]; pos0 [376203941610604194;268364574267927743;760960656430471253;65010965900000000]; pos0 [6843749904378936;221863534452522603;471067336967526330;562842308975000000]];
  [pos0 [13659556315247589;572178720173459654;747015622066805018;852263991460000000]; pos0 [811467471081615463;782838146925079718;56148801935006038;715794935200000000]; pos0 [10922512506964335;320848340577578862;653988129704428019;616404185620000000]];
  [pos0 [264240758808283380;568156192844679649;590777488200670060;620726278500000000]; pos0 [350118492018474981;930929305883397412;204371409642828555;871044595700000000]; pos0 [116727749114844937;67273795481879036;584706730376893558;175331099400000000]];
  [pos0 [697002371274051880;712663136249508461;624733839596054782;739848298100000000]; pos0 [57861897449714720;661418156955111550;953168517066947590;861242021250000000]; pos0 [159580763170802907;308448406217113378;4407876025428044;288248978700000000]];
  [pos0 [237995489783022434;640407829258763068;71035919405258456;202438049200000000]; pos0 [603972942734599048;611320132840476353;746793273670993652;103671766400000000]; pos0 [11004717882721292;78658245162351045;601633352142677803;440867914060000000]];
  [pos0 [610820916685734919;42321318361154703;769474015887727589;843044291400000000]; pos0 [10743326052458516;230368890391547033;575541172739070674;72234260790000000]; pos0 [11400193256059842;736740302482494554;54869058070934979;548897898520000000]];
  [pos0 [786583739022444484;7965711335048411;581478804137866571;337372442500000000]; pos0 [43656047790539575;945054724017561244;140980612155197278;194300368700000000]; pos0 [64315369913591851;537745190581588916;117455266674716793;417569729880000000]];
  [pos0 [402397623386957750;443559155080262544;232756827540073923;898362837000000000]; pos0 [283398353279884946;550494689322474953;831076572248949496;731908763200000000]; pos0 [6314026462342483;372665223000538531;107709659328062559;253856380845000000]];
  [pos0 [46114508250765725;884910544897483044;526018979542264827;960895769690000000]; pos0 [670454464828520745;921083039918309003;255927567946421423;742196805900000000]; pos0 [225692511582393698;3699809058374654;244197225792283665;385576460000000000]];
  [pos0 [287495857602959716;76620691365474611;293369427507362151;864363430300000000]; pos0 [700165309263598405;373897412843386781;388436298195469805;963889311300000000]; pos0 [3562659837436353;584555460822116852;786308437660690690;910715740002000000]];
  [pos0 [941647421335906636;371452930751855115;260490190467437261;849673781500000000]; pos0 [56120409511926213;383686834230278672;276764356249367270;237178931910000000]; pos0 [2138097995175756;564044753449576662;674786858945745835;529546567771000000]];
  [pos0 [144413163651844499;110252080883697474;370305135144723577;959620371100000000]; pos0 [85999164486282206;371616155347155284;597348819275769797;245607803110000000]; pos0 [228237572490158709;534821126079425053;537884661653584294;518694759400000000]];
  [pos0 [112487993497885698;765484297792454600;256128176369319041;315347686400000000]; pos0 [363287122178774214;472645709532397385;906812748233175261;183368577800000000]; pos0 [37742358267721418;638582174727904695;849253444946904303;583115969510000000]];
  [pos0 [65549434254951392;61545519446039764;340703097838163002;381318066040000000]; pos0 [106446838103404680;827750154045565969;625421041766373417;986134881000000000]; pos0 [549372607813403730;493999282517711336;165021671563471833;91873319500000000]];
  [pos0 [674827984322065258;25432505778959526;943641257265998270;956716109600000000]; pos0 [135908989899781873;178246930137871716;969408646024422726;847877557300000000]; pos0 [189230651695843998;952827323183038338;983771238064176305;711883534800000000]];
  [pos0 [5740626648285173;85442348963786534;571241444206011929;505430149222000000]; pos0 [30919127974100397;573661223822328418;512777961608867545;446487885380000000]; pos0 [881672382918256632;961807058851072001;171595285659945303;104781673400000000]];
  [pos0 [538389863692097425;46325312024813503;814316028076814310;664408315200000000]; pos0 [225830594043633383;170824857531957202;343569273376162168;57772794800000000]; pos0 [53324384685584712;648154116152118981;239175743337175618;265734476220000000]];
  [pos0 [623855858454398855;672882091244317198;634062187724827;517080833400000000]; pos0 [272582471071393496;51250047168775502;168353443014416837;739297993100000000]; pos0 [95189337048191472;350307745214712949;521352267632331889;823163046570000000]];
  [pos0 [786099075486209091;878287969385858626;816724595021075293;967553332900000000]; pos0 [9009356158990222;396787175689714520;941268105049195897;960207330406000000]; pos0 [194236814521333137;601821952373654018;733220803119187884;318948549600000000]];
  [pos0 [246352707639598042;142842301422329889;800360703528005885;433585079800000000]; pos0 [311623039866288035;835717200228680593;427016722637188673;948013031800000000]; pos0 [45741063556443216;47918757247601528;894559524654387566;407189482750000000]];
  [pos0 [7981170597137183;792227400260056644;973949329477622980;887276882585000000]; pos0 [431744294592671055;153504274747217851;470809958538046494;601235353000000000]; pos0 [543053745044990747;504402383728396048;206626388842659847;649770430100000000]];
  [pos0 [396351705696944682;657633607641652189;507240375683839145;177000689400000000]; pos0 [308185814917269912;676566238475316572;516743705255164347;751010357000000000]; pos0 [230225569539358932;849966735690297914;992388234141247241;831151354400000000]];
  [pos0 [146064306854025070;339782403658668280;592738503903306982;686106369100000000]; pos0 [46370338321440888;103852247954205456;270786759626319937;186888413660000000]; pos0 [474325923134432100;56316908647704736;264548783439360037;416104507100000000]];
  [pos0 [6454163571783102;744504476031574409;911817037190072007;805517319091000000]; pos0 [833460941901583346;439944376299814652;33602869630456633;259630239100000000]; pos0 [56116667601355812;955903716028187501;125415892392303072;799526617220000000]];
  [pos0 [66978052408078243;351798349898997483;513500242983668408;683609771710000000]; pos0 [777706465136168744;858796358935032676;510554307295715263;653456973300000000]; pos0 [132186703757024089;278930742745724923;898718146425079744;913120843200000000]];
  [pos0 [539588105250030855;817502648691000332;21747154067593148;900469037800000000]; pos0 [31364719998961612;738431482837572257;665922149503164470;509992650250000000]; pos0 [381255148865096805;330269502956333883;469936535072394266;240278776500000000]];
  [pos0 [84688642892075912;870911439050660593;75307045736994040;302989455300000000]; pos0 [53292394827012439;517316903668564519;700051974320048265;612419052520000000]; pos0 [47946896562815258;574060889759627941;220384445827301439;118300542820000000]];
  [pos0 [57392687529218779;387757549308332919;723158770586348657;75732575230000000]; pos0 [15926959319262553;621760534223500368;475709311390190450;415587332720000000]; pos0 [787521721155679222;320293394655247862;825503799519860912;522730195700000000]];
  [pos0 [522936607858447846;149135303483523322;688973333042363565;768562826900000000]; pos0 [131635797272857028;972510239649948138;887526252249495683;808325150800000000]; pos0 [343742340038500812;792994617065162550;328694867033845952;402504606800000000]];
  [pos0 [419875132257882083;280854350516895071;870957798350731551;785934975800000000]; pos0 [197344848050270;255329948238335361;85613759271972997;61411276349300000]; pos0 [178090778317574018;307821490366690020;32440347858138803;797759990100000000]];
  [pos0 [209572229695270081;268214718741238497;473571170219565959;598415952900000000]; pos0 [13786909965872249;986803423208735410;898423646220035701;818102856120000000]; pos0 [715988880991965464;728723982153852671;22049352382328755;624476258600000000]];
  [pos0 [244183648017044586;470541323956535468;414063925697308361;865567739400000000]; pos0 [637417288362298340;79444572036484540;182298688906745488;548406135100000000]; pos0 [60163934834228606;324694057942472437;689572849495315832;37178021130000000]];
  [pos0 [40821630768818414;119530681604087003;63647711963038513;995796928350000000]; pos0 [928768645508567092;319243977061496358;828651046498193358;865561318200000000]; pos0 [15416172814169815;790011897182196222;209722671092118769;988199496920000000]];
  [pos0 [63709021428166310;798343287298545096;52963947018215144;150106888340000000]; pos0 [704382971595758459;692158628745501815;486760530111256475;424434061400000000]; pos0 [12657742763593970;456324225254802839;485549194487996877;377572766400000000]];
  [pos0 [61815871463472796;377401315043557875;90930358668006882;728030401950000000]; pos0 [608114092353780350;579521865672512163;102516541619859700;215436317800000000]; pos0 [120801562613773417;682062165815613522;838946508892089614;945193271600000000]];
  [pos0 [180383666863195912;700570144233827307;44055733357206367;428206917300000000]; pos0 [487976199999384092;439420133383250357;203632639417958556;688779823200000000]; pos0 [330806191774522218;189897188656276065;858000231066176221;752337801100000000]];
  [pos0 [341262989031738079;637906575122943262;204479203185576930;191401119700000000]; pos0 [2418100210343175;937382354797034760;62398869170071782;77711791135000000]; pos0 [583831302220203734;913412305355319533;213313396891257853;852014275500000000]];
  [pos0 [626910003463445761;511809662216947532;126342223462675296;320766673300000000]; pos0 [84381939858959224;475199603341930629;962994767936349972;950829740500000000]; pos0 [255328591176832443;196658363433982069;738485535828032332;581268216900000000]];
  [pos0 [13359476980529652;136131484839027594;859956746622164595;579201011900000000]; pos0 [296654601337316141;722275704440252803;576660837742638312;219668385500000000]; pos0 [150713430512814217;214162961783515001;497667553655952680;787408933100000000]];
  [pos0 [415088333246278755;994667974661631555;752053114566986021;977654227500000000]; pos0 [31915709080406311;591237429170590199;829096921081069985;971294415530000000]; pos0 [237097382590883753;295083572708169048;751367167365753754;569475449000000000]];
  [pos0 [502015672478777745;105784883681079005;66981393562994285;276499654000000000]; pos0 [319554278685774224;918608495403206227;706919807212483118;539883434000000000]; pos0 [131175066414903273;269425995599010504;535322095853349455;306234048100000000]];
  [pos0 [327123238903591926;134818658475533420;570356523074651487;543172395600000000]; pos0 [597410153018253850;906851611316021770;232767172564411164;608597716300000000]; pos0 [65717372183308981;530531576340269346;80756764993785853;826940581480000000]];
  [pos0 [59821377673556868;743855478212771758;141553256017280759;830940000990000000]; pos0 [740169623292334940;194009835996052926;461786604637597691;749091382300000000]; pos0 [55425048267912357;5579160554954163;634355870344457648;241492073040000000]];
  [pos0 [826724562371964729;584333467228337770;715660332023636407;368880185700000000]; pos0 [147839649597884272;260161856999305465;242341051981800419;278633584700000000]; pos0 [12372497155040644;84507683047065978;696668598529638587;937817233630000000]];
  [pos0 [603479709653882455;889885754622981669;245528389234480460;570706500300000000]; pos0 [88420687853971293;706239289099755680;730575052977558649;771677085950000000]; pos0 [136053524895185;611255924228710546;167488999524434775;695216348133100000]];
  [pos0 [147260772439344673;476625745597246862;432053786820574402;971909380100000000]; pos0 [190840911230296120;996533266159207916;602372779169117681;181298572600000000]; pos0 [225962990549238087;391775498271523717;974218784602010419;33293639100000000]];
  [pos0 [157641043712408335;769343273911438587;290585699913268439;890989104500000000]; pos0 [11190781757350805;349584020467893200;529736695758643445;27282963150000000]; pos0 [366634722677996558;702130785235288434;747609805236616647;347316250300000000]];
  [pos0 [425502003589030022;22587364436316217;675677617474015825;830788638200000000]; pos0 [134711263673880230;644923465931912110;771856132560220895;633059138300000000]; pos0 [12724399703946253;960915195124479298;234410050572725528;765816515290000000]];
  [pos0 [5348802204701800;338410437153482469;769079830860313779;581019660650000000]; pos0 [636697024186921988;681480126260424183;180768204579487520;79960262500000000]; pos0 [292776084435744346;189015014398832568;150089229051453082;879097961900000000]];
  [pos0 [289822635237119135;190505888800080988;135154137265143219;330210979900000000]; pos0 [544947279035077321;226313507673970358;444296319024341959;439570021600000000]; pos0 [156422179745066952;336898169427358972;352069747289788727;823622990800000000]];
  [pos0 [70706467208255146;671874689367280704;551040983134037039;571324020800000000]; pos0 [95732169908578338;813107587263270022;584670834428406536;121652680870000000]; pos0 [5746440096747628;585204273567851468;363788315600995261;698781542797000000]];
  [pos0 [35624861109080571;620233311097318567;346680965538083325;635502877050000000]; pos0 [277983325632980365;322722116819539495;808967179839444683;662369797000000000]; pos0 [389003820226275984;291182443457765597;716721619926048673;786717027900000000]];
  [pos0 [70318970950897375;581625091408102198;958030866827973911;926344297140000000]; pos0 [575726752757348364;966219249316749509;461813400515122153;191066898300000000]; pos0 [341739232530742483;464157662132493953;698767548056034507;68643750200000000]];
  [pos0 [173014389880660249;605130893261833411;179773437046007513;674826241700000000]; pos0 [47116578484052646;2587391173842274;477519454411323207;156650588360000000]; pos0 [9881902703518698;93679295524168746;878906695234695836;475238409700000000]];
  [pos0 [52625641474089531;500050852076062591;100559948172835462;708892877980000000]; pos0 [200137910689443332;442500800812446407;887803633954240015;278178494500000000]; pos0 [528630163520230511;131067326674189894;847104243327900957;34248140000000000]];
  [pos0 [675845630420284016;660201077692573343;668398087381395400;608689669300000000]; pos0 [12872494108652068;51187007092514375;258447486053582907;666808110300000000]; pos0 [53706499535420084;644344375329980873;967487461468260663;387067229500000000]];
  [pos0 [7274475551749325;964219777529851298;116235417455756811;453160622121000000]; pos0 [73640445256852340;848025835679640250;323219984949711937;28663321680000000]; pos0 [598123995357221518;758502747288761626;211287843412116387;110973320000000000]];
  [pos0 [17987772435769848;365866524528145451;985402503319862249;899669307160000000]; pos0 [77984847289827147;353427875436769501;188875819558304760;858771708580000000]; pos0 [305128832243288965;91685766866403705;498438951422264705;638699227900000000]];
  [pos0 [43400837748915215;844164827395297040;145858481014332264;106259852620000000]; pos0 [863514595335912054;634674560751830354;246980176797205171;55142097400000000]; pos0 [14126769658419636;713196259984848524;921218409062705608;346423000520000000]];
  [pos0 [44608222243590946;614461155158413778;696667856854600333;408115021770000000]; pos0 [3498603625876361;140645873598596308;120126078622974714;110266781716000000]; pos0 [49866257562038829;629960125760484354;545963380769195754;281611465140000000]];
  [pos0 [39339589280689640;171721174608260546;994299284590515280;376005781570000000]; pos0 [525346323610906973;843880460377760638;832206484918309041;944424304000000000]; pos0 [380031632755855194;323675006541793443;948835695372339844;648148323100000000]];
  [pos0 [162419721113834169;519580939350882063;877859002837143080;853756389200000000]; pos0 [296208873594538881;810409846507760008;28831247765590859;972251825500000000]; pos0 [273816270389437271;648194060878831757;165016643598340927;872380897300000000]];
  [pos0 [23148709330301460;577324227041390007;606404427359681693;589144394820000000]; pos0 [2221887413861601;803148814253056436;576796244776772420;732942259264000000]; pos0 [235195669785587394;789904911519016759;441755184467562047;756631858100000000]];
  [pos0 [183560744635202088;78043321938167657;619401715715334587;279085073600000000]; pos0 [2301712673102496;50984621965020621;496321135703424122;837831672697000000]; pos0 [517720819731538018;576523054415724232;989902051155531738;533681406100000000]];
  [pos0 [54233639436744177;23592788844121403;915813375203244938;432636323840000000]; pos0 [13193316538104689;40637696252848959;950121996801983598;898490894780000000]; pos0 [366177282944107044;303659396981692272;652623346783494589;748651937200000000]];
  [pos0 [18895231828584011;265666017269979510;199112445273702160;554305848500000000]; pos0 [888333456767247059;61940535087920517;68502047021334773;203561435600000000]; pos0 [60309105864358262;523430036542188739;602816422105513387;923675955110000000]];
  [pos0 [670694315024293233;601982903764145495;421865393212237363;374868190700000000]; pos0 [161744373316566335;894336560249501952;892478086145007599;786241912200000000]; pos0 [7510289777648905;107725055140549315;935950068500901816;490725111585000000]];
  [pos0 [357713950218809782;52275173559444620;750483306300972158;21579052300000000]; pos0 [222485677179680710;627512375886807020;385851105670143579;993136169200000000]; pos0 [371170467891759951;433002970709934152;941363446470614128;888516891800000000]];
  [pos0 [568593406449980323;331873270789606486;838049462665090764;73182664100000000]; pos0 [35946258976541230;780449676232326047;946051759552637448;646374824300000000]; pos0 [194548406682319009;325400783746514932;293297342031611111;90923794000000000]];
  [pos0 [396837258770237341;445386249505624258;795570516220561449;280173438500000000]; pos0 [334403406690940140;973649464522551351;324820293517796831;781418796100000000]; pos0 [55949256402400893;635781151553587355;932790547754012652;584699769340000000]];
  [pos0 [13127314768636286;90969189410313904;793081061464942982;789469691660000000]; pos0 [711819391781584427;994704992825946940;906583158237782623;812396314500000000]; pos0 [154563663263158539;302108642323944159;45256976029333518;729305214900000000]];
  [pos0 [115263524558099311;151450235368230968;384935935230712511;993266802100000000]; pos0 [487390902721501079;327237801800385006;43588365688383010;699528016100000000]; pos0 [11185970632324003;644775449284677288;845264774758633742;597016445570000000]];
  [pos0 [483290354257746937;140678310825824531;544057741548459754;166317387600000000]; pos0 [436647840542625959;49056483925884900;755340385426131135;529640834800000000]; pos0 [70682645955583364;402761175240037465;506093214231017032;191821944870000000]];
  [pos0 [14112871287196883;852747431978317536;103055376191343165;403515386400000000]; pos0 [7892641896378739;128389046827247216;953931175232761756;825588289202000000]; pos0 [508531589895017474;630375007149968982;6004450097518727;13341705300000000]];
  [pos0 [411064027361769333;497269632051255944;142533548963934871;584664647800000000]; pos0 [279390074459853823;56259674107315647;47399896019855200;383130951200000000]; pos0 [299170234830176444;769529171119644922;919996329369262176;433374121900000000]];
  [pos0 [148839054164103567;284541245187041903;188584713235462357;981292349600000000]; pos0 [236589151245708929;134324212071848894;233459181713275633;113258107300000000]; pos0 [46185449284819820;377430430926259427;328674023793832193;731154733490000000]];
  [pos0 [404070731890193249;3457114920735607;946316723459923124;632407621800000000]; pos0 [96097641401598548;948503280750421906;421659891287530371;619870557860000000]; pos0 [74108196613903014;457782679607909124;488021145677212910;987099103880000000]];
  [pos0 [505171252214719564;905303501040475165;678110597265730738;825491844300000000]; pos0 [12060884025819966;496861747719037502;432295795573811982;759333321040000000]; pos0 [62852869900183949;934310488878828709;239008507000653457;854820567350000000]];
  [pos0 [535402453492537362;184179016526062591;551880449150483236;534392336800000000]; pos0 [125808919683594017;5790819193808423;853216417792609794;18683746500000000]; pos0 [78416397731810622;416640505793718076;126519497206567847;411421761450000000]];
  [pos0 [292627377393392091;718984900033772118;365540634024938108;359297522100000000]; pos0 [508440877056068703;605630779604821571;186755621105688700;924426320000000000]; pos0 [65608174435419468;303498839866271651;855157148081594971;752946131170000000]];
  [pos0 [84207003715026883;536221593037449206;148918632109083591;939935950090000000]; pos0 [15614124340852153;433454659641890370;645713498457840807;853932313390000000]; pos0 [7807710392639943;749422109283906709;803659050249990501;826632676244000000]];
  [pos0 [257717805932800454;354681041417215083;41292208597848126;550007114500000000]; pos0 [217177560925305481;836238487294696998;480400034964115862;575702979200000000]; pos0 [116367367788899361;737270016099059849;378411724798783646;317073853200000000]];
  [pos0 [52275242237750712;522121553009201867;304756678935554370;297094440810000000]; pos0 [287302252080997641;182573042679505158;214437441182037765;821974273200000000]; pos0 [56763105656760140;557743862395298103;485581881877827138;533325851870000000]];
  [pos0 [131818065245138539;103581971967977164;626070597335601354;772345799200000000]; pos0 [315307866860135603;104294879328432582;894989897151966512;673885959600000000]; pos0 [549046470644559314;897842098557100014;387345935169429186;881320095300000000]];
  [pos0 [584043215390999;325707227855163542;951566657629047425;216942546708700000]; pos0 [98416373590423996;772806387450259104;913395585017874550;881670873350000000]; pos0 [848051290317394753;518813049000350535;431807223974605261;357845743300000000]];
  [pos0 [3001952483197130;994935354847488046;837568134535289365;679280769555000000]; pos0 [272260081373342657;168554892536079994;779921348927931240;141277356600000000]; pos0 [447862748293068857;501256143953066131;652353705379127740;240831329100000000]];
  [pos0 [124216013266858689;54865222259436869;70134125874277856;23218307000000000]; pos0 [324642848214631370;40173759451161111;647827841612263294;894472251000000000]; pos0 [457138800772560525;8824478893181152;101082190850437102;228677763900000000]];
  [pos0 [684056329453657712;894396933790947212;437151085006908151;906250535400000000]; pos0 [13763450420836425;570366395406821685;903826363704914988;86854628000000000]; pos0 [244281111107419771;128363534138785889;118991491700085109;806202331700000000]];
  [pos0 [12891095034043706;205522463594214288;837957761581996736;146258598240000000]; pos0 [168023411559674309;899316691654133241;872308137621023644;453637738300000000]; pos0 [812585453837844230;73858527950195406;961507211757795275;635747537000000000]];
  [pos0 [376895037514505073;957605855350298917;579890464698298045;59375963800000000]; pos0 [31657693715368060;595169347484268883;279756520229704403;851096702390000000]; pos0 [142808983033163355;560998595754136866;167123538159992288;355540412600000000]];
  [pos0 [159055768709955226;328844280849809480;410644830317468473;574226349600000000]; pos0 [675192732361751410;675023813411838427;270489857357811792;60158795300000000]; pos0 [46879973096847173;263650375182228144;649093429035284648;249682033100000000]];
  [pos0 [132117836699088475;627750750157193454;180356538075898943;360984573200000000]; pos0 [32683385462579729;315083199387120969;33083796857905535;73970186860000000]; pos0 [614428477538054496;770824048734211376;437836539223317739;983046762000000000]];
  [pos0 [621881543166438094;951538866018683530;403330525876978684;713520413000000000]; pos0 [5237971396018672;306004269202870089;967117107708175428;891981777488000000]; pos0 [359734587248676974;134250635218255534;295209487124410753;863524742800000000]];
  [pos0 [17422409194796201;164643085607568114;49489424682503307;466191791740000000]; pos0 [858441121563187702;305221274768529637;514435217388898073;542193084200000000]; pos0 [124012460241800660;633206226104918679;751791380299440877;327971671600000000]];
  [pos0 [203729755462238;488360245770850562;124559742343591152;909136036331100000]; pos0 [85521458884564922;490455942878485155;345178707794029079;671078251090000000]; pos0 [64724045808695647;493318160164821498;262047716398997107;871308677290000000]];
  [pos0 [13188662667169294;783687635302840377;859957508030111402;353194097630000000]; pos0 [177683611752460505;711700153593170476;249404803870200227;279865403800000000]; pos0 [12297866562991677;160716361719499289;608724651699830624;798926303180000000]];
  [pos0 [576155272386535576;249906426529791495;445669436345311832;456939277700000000]; pos0 [122866981271795210;360304291014350760;206733624903720916;155095067400000000]; pos0 [157982024437510346;972389237228502177;2357822693219579;263679103200000000]];
  [pos0 [13300119530532667;957567465294097776;452622444597417741;554851846470000000]; pos0 [1593389354212091;290520920122262307;195144252151466194;580110180288000000]; pos0 [78767232092308;1001468456072054;361695540108679390;618133519404670000]];
  [pos0 [553701302546023782;352584030832547300;230325274086807240;246155344300000000]; pos0 [66180894489628419;554360500935750005;979791334167170296;155917247060000000]; pos0 [35383456273689710;828399671119750732;149412760708742464;307900833620000000]];
  [pos0 [509422049777433648;645125250639143666;745969202140597271;876904830900000000]; pos0 [306922422701062355;755477254333466856;750407338207392179;565420527300000000]; pos0 [7213070308095837;611946656375691573;201255319187399612;436099554368000000]];
  [pos0 [59284876024006471;449645532906287832;451132481946015362;589413970920000000]; pos0 [400169975898264271;300825959939864365;619468291814829619;448113180400000000]; pos0 [105268935057526029;262382786615766390;470905450141647451;457918111100000000]];
  [pos0 [574943386561450298;529468173981839077;227262776996937249;826514624500000000]; pos0 [11673360440829062;521826093306509159;500337161238190354;716518708220000000]; pos0 [279277675828391688;460635165890425610;730906019339369595;27816224500000000]];
  [pos0 [199051134685653308;707020011416418174;176053363334472263;440962958300000000]; pos0 [434611873637487536;171793250097712710;228656851304616044;740402799000000000]; pos0 [309472668151503581;414435372965928979;421042021120909406;730484905000000000]];
  [pos0 [243661492914719863;220788458094225077;511690894147191219;781392288400000000]; pos0 [480517643338208788;520571678726374632;876202829985755261;679612984700000000]; pos0 [191531942803729942;690652969619185848;591310842797280509;715192385700000000]];
  [pos0 [10434595565525994;743098079212615460;402712345502817293;755208309910000000]; pos0 [541551088187755528;500104176632127549;813988503891695906;760868988700000000]; pos0 [79456430607007022;70388564908830587;585135868553769708;207457796090000000]];
  [pos0 [297013179966183731;274221884493300983;585192543848403636;901764667900000000]; pos0 [14262387280338883;22833396739480234;96628210648101083;4937074310000000]; pos0 [16248060131886383;982152834707160737;993703756260287598;25910552360000000]];
  [pos0 [255298202412340702;754470376473081648;413614672375929388;423645570800000000]; pos0 [565558301747862027;146598252433189718;224936565465968584;508107532200000000]; pos0 [128213663480951900;363520085909087115;467550729124842055;51696716600000000]];
  [pos0 [556389119678721815;288605697664758348;598135490568211802;533668205300000000]; pos0 [421982517009624833;649814641432572093;832039988478024625;64535449900000000]; pos0 [11298405457766848;757491411331775145;419461644296688793;616723131740000000]];
  [pos0 [57330285106568855;143022897253071309;13415184809118828;321955216700000000]; pos0 [6196141746368588;991433459829058632;521945828005391393;129711338433000000]; pos0 [936180560040636829;198579840065989774;339309936985192626;505032938700000000]];
  [pos0 [5474058163658866;538844167407443228;419444213447347619;366341431634000000]; pos0 [147010743898816980;266163012832279882;538087515936509706;938384853300000000]; pos0 [268905999854334432;135069134048376286;150999488753431608;262093169700000000]];
  [pos0 [10904884085903033;669795694400288728;514252245625753708;297271712660000000]; pos0 [111954885902160441;738784787352762808;479203763097398609;373622444200000000]; pos0 [147812445507627739;855842358338229821;165375582308516682;271387185600000000]];
  [pos0 [295292990858874856;656884654888090736;537791068550745486;362586412200000000]; pos0 [14146176108647117;285244944734241854;15925408317126145;781608065000000000]; pos0 [678290459588675040;186112889013733677;722232871790062603;935856465600000000]];
  [pos0 [810141813107699763;650198569659914710;392757116273794193;731317937200000000]; pos0 [9672915521003086;107918822065606883;392956242150183985;769713404903000000]; pos0 [46782968796482550;74400477555881475;119637235111023859;793595373400000000]];
  [pos0 [50911997154946688;153447675857879844;838931694013505855;110601305870000000]; pos0 [101770272870038646;871566319148483262;252908498026586416;554652827400000000]; pos0 [149532667081707537;77822232080108311;106823895911921033;300854170200000000]];
  [pos0 [73085203606625583;897653196721619979;730954537396889088;394954710790000000]; pos0 [124315295227157414;768313509830390862;868543637839294994;116696756100000000]; pos0 [221096574383008590;37452746317100232;195112950507434470;151592344500000000]];
  [pos0 [51069565637978292;121117538426851671;91062215317210500;45927260140000000]; pos0 [178305944380342181;129728259205528316;474942211958140348;147072495900000000]; pos0 [292479583764817525;91301857610425787;803337014686803786;346619284600000000]];
  [pos0 [76880577770840034;755586632985997512;837634465577267747;986790301570000000]; pos0 [59392994060427036;463729719882436408;942706756207419627;826733699810000000]; pos0 [863571044609331056;596014964704093426;284802667153313844;537152166400000000]];
  [pos0 [44943509353923331;615631764140810641;829109480108057177;301146307200000000]; pos0 [357777335074311538;71056089487121031;320657549768135031;942006001800000000]; pos0 [438010366555892162;928164757647410732;149231860973225734;578212948500000000]];
  [pos0 [293526959041508052;32830327042815413;649800771247834162;860026537600000000]; pos0 [412772798650639220;684966929096840942;405592571010610247;275891689000000000]; pos0 [276380281649487398;462434453701811758;980686514077099955;940778071200000000]];
  [pos0 [11036127199009781;760716579414195041;451242103565401913;928275643060000000]; pos0 [10895126138380240;413479349859723159;621909533326267682;36326421260000000]; pos0 [124802587392709376;373106433761169605;971588167240890367;26603498000000000]];
  [pos0 [484994873815360811;779192450132187263;752079636605660853;569232351600000000]; pos0 [235054675063700536;708306374417808802;671595765413829432;289319920500000000]; pos0 [139850222368011844;765206930395070840;679938094923592749;630816074500000000]];
  [pos0 [778777497148131169;927886677044712782;671590203148919010;56398541700000000]; pos0 [136348373915551697;281895929021627608;935718276336188996;466310663000000000]; pos0 [12081259178435406;89647166777294806;166490016184020078;169302207180000000]];
  [pos0 [56413154998587422;464240727676347028;357075288757747754;206652225090000000]; pos0 [153906290630574422;12977536392159089;978278044145714388;706309069600000000]; pos0 [75506581314436164;569073063426726573;821802597346052965;835753089710000000]];
  [pos0 [59051590125176499;869866831868762693;214545982413257317;270196193700000000]; pos0 [369009042842888871;603509938092628486;371346232042491605;151497777900000000]; pos0 [523096342855101870;539644676862642283;933758681283877235;102331955800000000]];
  [pos0 [135139164509720885;363064735243017539;799652089894121149;682890971800000000]; pos0 [658353495850879861;637592184924803332;371774828915066188;535605530500000000]; pos0 [131080485562816211;989172878048830668;943529354320185351;389145911700000000]];
  [pos0 [805191928007713039;325008539405671267;981680087640721053;411953576200000000]; pos0 [53947515072742434;797394014072130327;54743633309307172;229215326920000000]; pos0 [12338928114377012;314412670990147867;434947620150632448;557239399770000000]];
  [pos0 [195080026471301350;577353720692996527;246989364646627627;368869505000000000]; pos0 [508649454231429194;156593857027376759;24287900674402965;600291311500000000]; pos0 [130395204286971027;585039364242922525;844938896870471188;722816189600000000]];
  [pos0 [13119356074955364;711378274864113318;345612236136469462;411809080670000000]; pos0 [143258849046076891;470465393728396486;993238170224737343;375419434900000000]; pos0 [605559724802785852;798288858458376438;285531341662794343;734685738700000000]];
  [pos0 [332288642594962319;559076984317777860;366246025741898138;87499566800000000]; pos0 [86556243435324015;147732945887794255;816631540174558136;323889014080000000]; pos0 [457946549909261707;200670910378482484;562585238522528593;54943306000000000]];
  [pos0 [784201234822313756;218255870075402203;736432863309584808;970997298300000000]; pos0 [7421212231249031;747416317837133908;608517584958376878;789045640484000000]; pos0 [6982577788332991;942250047139947147;665888793147180925;292303965314000000]];
  [pos0 [215101909404380543;673543376754935512;93078670097214473;245510965100000000]; pos0 [194365871909627962;662846447743448293;313091327022923695;757693113200000000]; pos0 [339141459223534869;492446716516969208;774264753002593086;539843705900000000]];
  [pos0 [100706374779145510;170152480923010197;969387292983189883;464049571600000000]; pos0 [155990994089059572;985694536187424838;151131358552732434;495168715900000000]; pos0 [737350412727743907;152666156199108216;336973673472849507;372273229500000000]];
  [pos0 [57364820901015844;546986124588754596;454406065131320268;615961353050000000]; pos0 [435510402542200471;701864842129717680;322600239537928053;202133054600000000]; pos0 [258538816194240926;544071692967134191;355299374624487694;358532988900000000]];
  [pos0 [114585643195990620;451040290904738054;306238039233531787;995215998300000000]; pos0 [8017505085353451;831053399910641042;630571291202842504;293818192831000000]; pos0 [245082003927639332;215717603157731906;702059749250800290;46383727000000000]]],
 [pos0 [2243538639278397;876721850776445444;320917583325668974;232643046039000000];
  pos0 [3152762520087737;125852201279519018;297943488118750170;854184106703000000];
  pos0 [5494201543012681;799573003048336193;705184435237851384;747613722905000000];
  pos0 [903193547372144;16543698337127977;538314296205947409;15435629897000000];
  pos0 [323503861889843;225215202702164326;57490657005503614;989278672754900000];
  pos0 [3227267555001175;498201185286229615;611800981085543604;804999838289000000];
  pos0 [7248310727428282;966539370728728344;395201835894622340;353784683447000000];
  pos0 [2327352145975614;761048023426066392;210362475692196239;181166722298000000];
  pos0 [1809899276496269;906149489752194440;44152227496390731;801892855470000000];
  pos0 [2718781333234786;804168397545439538;786305931649671502;969099701455000000];
  pos0 [869331537385521;442608896857692968;115483139992791216;204416544791900000];
  pos0 [3319458696985569;207567523969867115;172495319299922894;287617570024000000];
  pos0 [1548010654622153;791683073159423256;504559361501395977;165146768802000000];
  pos0 [6611243267164813;983073922333528882;557244510568404601;694066099780000000];
  pos0 [2860931023631523;118842718940583597;335198203281456178;637059596837000000];
  pos0 [1210871179108164;37116427942825044;173394727765679389;216831705746000000];
  pos0 [847694935840160;531676995806862270;330836349862969075;215845074781100000];
  pos0 [1090430007558471;84951165980661209;437346725581203345;113181454322000000];
  pos0 [4102999599319657;451988354944095353;860734898478735761;194803345970000000];
  pos0 [4668086805414122;656917770519744446;965829743340797720;53165569035000000];
  pos0 [666660128718123;610541645532850223;984034918406466674;547945553429500000];
  pos0 [7252227897936232;682042163755079222;304220649928295040;507751020434000000];
  pos0 [3153511717273864;2496170023114847;813267824483153591;412848400693000000];
  pos0 [4433522492403445;296394793035839066;592017833281939948;784447395178000000];
  pos0 [1431571695572909;961465111541083458;208693589816185499;506996834533000000];
  pos0 [5504468617623612;943072464109237938;365916055590712853;187549530581000000];
  pos0 [90122305502265;782338497726901837;395334203645769498;349207464538740000];
  pos0 [7800379208284770;438325052154020028;206818135340021104;80313732094000000];
  pos0 [2164739139918845;361273811385772568;4097491716122433;388581154284000000];
  pos0 [1583422577516778;413123348560420935;257913187732232706;105073395415000000];
  pos0 [3263676192269655;793994511336042316;784374616470702791;132219074965000000];
  pos0 [4788788796012572;572779741730135924;316462313752373118;971893022300000000];
  pos0 [2463872257029119;556729155102034335;541463653384720818;282156373256000000];
  pos0 [1354421943687365;456211267113288037;48324578241020262;418738249614000000];
  pos0 [5242398757022854;569458452445552732;83979875593239185;572120326451000000];
  pos0 [3220970916967568;120515106838349734;91595531346520621;288274580420000000];
  pos0 [2211833833250518;823704456943150645;102059005088288577;928555083636000000];
  pos0 [181843132364709;650641407414062487;326276053455416160;537658204155800000];
  pos0 [1881689746127302;597079128169763954;392785908876473896;662479662353000000];
  pos0 [4080466236363526;62458618916330096;935110222985315264;451720882906000000];
  pos0 [2318954149133790;432060763449453438;185748387393824850;501120359822000000];
  pos0 [1115601411207886;438865802744434801;130972702077767772;122339102257000000];
  pos0 [5646860027277702;564091207499654779;394359782810134502;548719688892000000];
  pos0 [2369176153938054;544279767336643976;894682540068888276;4452630378000000];
  pos0 [4947204387439134;775116536562445173;30758571547415420;16924932195000000];
  pos0 [2129977922881121;823620258291441415;291255108192699584;880406014840000000];
  pos0 [9687790827188033;592019591799930243;402297224743823445;544822997244000000];
  pos0 [1718055691805735;36380745652740834;125145959285068381;902478219126000000];
  pos0 [943309778355765;958641507541724664;562168124118825243;486369477315900000];
  pos0 [9923030310910219;182411097266540195;599190087198550673;676662476706000000];
  pos0 [2269230709397179;942753351249491453;856693660561007622;994507377677000000];
  pos0 [5947675698822548;338487427500141685;179145295787430223;742718123351000000];
  pos0 [8628429978683923;338749645804958086;927067216201284768;160760641199000000];
  pos0 [6029075203231221;548603342476359715;252491988471169220;507698125611000000];
  pos0 [572259814242112;942317983182270132;947234980751736368;397784800231400000];
  pos0 [196010255833567;716264708341624553;502590779576541701;628779977271300000];
  pos0 [3530800521318158;448812370174424595;493491461641451000;207715072924000000];
  pos0 [3817227453466264;229660887706212119;493544312283535550;366407160218000000];
  pos0 [1738309776553043;579786203695686457;558474401895534205;209647806068000000];
  pos0 [342215925285217;836125578848769257;527786001799891198;786649700566200000];
  pos0 [775758894708096;978201438163791788;434796791517838720;908017467436200000];
  pos0 [3685741197213769;921683599835236261;712925023300798092;29980803188000000];
  pos0 [8835283459660659;261676249970734094;618361883426339858;770166069955000000];
  pos0 [1312545431114469;431427991509178127;58125948315619445;318648843210000000];
  pos0 [859440662540583;167378836617265983;621148947088780468;569206320167000000];
  pos0 [1821658417384747;329339353378406427;623950673727651364;771756888085000000];
  pos0 [2959346505401071;675119978087066139;936050293286052277;951529017627000000];
  pos0 [5699547841989481;349405609470414084;801947870398582775;442854821858000000];
  pos0 [7694798338796779;820763665120580137;745730424373584099;19199117913000000];
  pos0 [6156930184921675;517726777035906336;221340851867595777;715176592864000000];
  pos0 [2178671156009655;819448921918040489;671292115665556129;453727554419000000];
  pos0 [6979598847506803;84139730003398518;87376438539882584;773999966960000000];
  pos0 [588587852232554;578198178974074533;656043148922388182;11362969053900000];
  pos0 [1892214308327549;513739042562086121;289327092371669136;242908122401000000];
  pos0 [1091156072629953;863174545087371074;772807222621203872;474737868739000000];
  pos0 [2377527137392173;627786509020659569;883996848605972686;751667230295000000];
  pos0 [4683351102299813;557209970559729817;324055515679510587;247808984615000000];
  pos0 [703273451721665;254473795649622109;19595916419117923;429503635161000000];
  pos0 [3623102829744814;395361279921884800;969827960952694194;641567011648000000];
  pos0 [6293275048348728;880899285540086828;804026506918203308;669705207973000000];
  pos0 [613631827929141;21443501756112543;539242393150680126;98943223266200000];
  pos0 [4941777055336622;926108919900036019;491618816641054917;570394379373000000];
  pos0 [4204593091815081;347611486532719022;751651482747008747;351671371047000000];
  pos0 [5130583206081992;332648247291898341;816977422984612122;702742963996000000];
  pos0 [2023009862274312;753016593622343591;398261408373031034;907560835551000000];
  pos0 [2907455202339925;700430560932774539;109477831590261022;693930785546000000];
  pos0 [324984128896435;933982334188632424;221957827687811009;904110516938400000];
  pos0 [2380688141813300;205159533013412166;498275769173363905;258331149188000000];
  pos0 [2213663315970313;208094407296778499;99546419426217900;207357715910000000];
  pos0 [2958586887645701;856118831755320462;635372413286100212;640214094136000000];
  pos0 [1037626892269469;183117573197574259;399415534587421387;245413207515000000];
  pos0 [3075662326847410;572333606237264950;125530272473302796;667860833903000000];
  pos0 [9642724919672397;231875780616753338;376267362991961876;382108157743000000];
  pos0 [1054660009164030;456795609320406782;955357695825317757;155464945581000000];
  pos0 [2293555144973095;908668217792274933;979041142408557873;360762044959000000];
  pos0 [1807719753033854;534904875065165663;847575003507181372;711665299829000000];
  pos0 [644262442820675;672004099536894021;598887752928335558;481160688206700000];
  pos0 [1281673898159116;681434945671128073;7281673438132554;998849780187000000];
  pos0 [2141539176727191;43164008441991210;939030803109634262;912411210766000000];
  pos0 [1048026088858913;605357624218090002;925225648389376149;41498061416000000];
  pos0 [1809065624099949;878499179097571453;992143714876367151;412444690188000000];
  pos0 [5597711947236180;804245688268504281;482761768491709957;952907590624000000];
  pos0 [4491124605173814;52861164765955133;71084504748732712;482574339264000000];
  pos0 [812453929935145;257516349549622362;215282326827005309;262230701021000000];
  pos0 [1303362197836365;274693717301482432;488693982648309667;940012696226000000];
  pos0 [2980040257581438;16528308272950104;781410339835956649;987230909313000000];
  pos0 [2089048274641060;942172817060440593;568977122791659903;968342226463000000];
  pos0 [5345874563150710;105286892569317882;71295582161425202;847061234180000000];
  pos0 [633859816231864;159364614267141795;741302323068399778;951046268048500000];
  pos0 [3916908834487924;532677707496620731;620096826762979270;292805762502000000];
  pos0 [6763554271977335;101043335090393879;210009787416166016;638010490902000000];
  pos0 [4332635878644466;449833806087863768;948269723854887739;254672065094000000];
  pos0 [676134665820942;41132586212537899;741007279754912345;658120257908700000];
  pos0 [390237088106000;238260844544722374;162125965267087579;977351182319500000];
  pos0 [736944645257260;587944048738355562;380515969662185832;545918739989100000];
  pos0 [4696294744752758;889139832563821432;850135789517511600;471566421287000000];
  pos0 [4825865975760623;323160446397122081;656900654668005056;991416747169000000];
  pos0 [3067318042066500;616345832567066915;246890678065541746;603118969694000000];
  pos0 [7502069479782500;703097070144534533;6941905479382680;357016535361000000];
  pos0 [862141387801535;838544755043175103;259251759346363238;489103946174300000];
  pos0 [201810333296690;484444278603017351;591275161441011513;122525691375200000];
  pos0 [5450628416282603;182598332642482000;176475413137101471;847208051931000000];
  pos0 [65708864692024;75267742641537005;17967749347921461;466543898207160000];
  pos0 [7766034253768797;763348784087940047;373630266668182899;779293797569000000];
  pos0 [170691439044403;440821792466723107;19094214359978871;334364254344000000];
  pos0 [2318746493438608;498513100519089649;704000826951183720;519215742530000000];
  pos0 [314980782417138;574870207577618349;988650942933258850;541546869564300000];
  pos0 [811597195461066;211762310837257229;755959262091564155;696683953013700000];
  pos0 [1300736662526197;803023349583817997;897765452335601420;179416974426000000];
  pos0 [2786054031804286;27211644982613176;567802550771315170;767371498665000000];
  pos0 [4070719464925106;100387679029961165;581901553053302739;135326751800000000];
  pos0 [4513363175714121;109018716597422456;154915155722091547;187241544562000000];
  pos0 [4646319017514519;175982388052673266;803546739737179733;618267355573000000];
  pos0 [633564313315181;425041128456042905;170730246163300257;774321156536200000];
  pos0 [2369964733688230;893862317979098938;139533045611717442;669471773413000000];
  pos0 [1222213976625129;12686051875303087;248931144255693407;335327781124000000];
  pos0 [1956719920225694;876959733703639643;63914608444954529;790891811885000000];
  pos0 [6904579932844458;704753661761755164;373938196076068125;939070684263000000];
  pos0 [1252524950080328;908286599345952369;71346927044773419;982440668808000000];
  pos0 [950609973748117;739591798915815565;419072940645338572;563588837543400000];
  pos0 [2583140461795589;586748098564730007;396959603041128640;137139075777000000];
  pos0 [4039710607038482;944861012078021620;139812583263851137;436714009730000000];
  pos0 [7955847132884729;989174130389118127;846410827172020286;37451072974000000];
  pos0 [2846433211269694;910663402905605852;455772974731826442;498063477307000000];
  pos0 [731159830541809;125342915077292060;200483772357010470;341154983118100000];
  pos0 [1134870523720443;972238638005635951;382494132487082647;644605271903000000];
  pos0 [2726362721876734;991468842759181019;17294113820435590;303475952763000000];
  pos0 [1046697086487727;273002790772350928;536519421217894756;245313649190000000];
  pos0 [1408170420964925;91924168422125281;390334805497031376;735548783911000000];
  pos0 [26145445841937;231533509200346838;276927115861086227;484627033676090000];
  pos0 [1539275664905196;60255074890956532;764877401843844507;514264439837000000];
  pos0 [6081067733401102;548513134607469719;747636839479986860;710216486133000000];
  pos0 [2016695022599950;807171693122132374;939223800747277525;956603618258000000];
  pos0 [2622204447480185;768192576887273550;370270212483428866;58678964235000000];
  pos0 [5038085326383496;871458695962957286;588886901713084936;627747133842000000];
  pos0 [4596430093734454;785249018159948893;395402087715366267;965070763739000000];
  pos0 [1372737513980610;97279595431441523;91983900686102829;462599949502000000];
  pos0 [4046733831390046;73326895869295463;86986227239524091;420285474815000000];
  pos0 [1225877143282515;351160482059860081;595577444500808698;651294447251000000];
  pos0 [1937722827662346;124337886825519129;172807207276435866;176046099412000000];
  pos0 [2467456888073125;245915201671095228;216695666868182378;988919412348000000];
  pos0 [3939342579571544;188882266955882175;432525177798505592;663594811495000000];
  pos0 [2366330548639692;169327957532487284;820501086321430977;744766796826000000];
  pos0 [6556146376638874;203230945970358126;679731712156075064;71344013817000000];
  pos0 [7659801553597347;522327439730610817;673306390502781716;324107849134000000];
  pos0 [3279500221604578;159349181205919878;565519992408543652;994899745559000000];
  pos0 [6715293201084725;17894701292893249;107093760603738261;283622432160000000];
  pos0 [7894180622828432;527650332616392656;397213464369813315;595965496607000000];
  pos0 [1115178573898693;727540439827381758;268538816407192257;779586972479000000];
  pos0 [2153574088746200;726518693573793664;153434222761693664;381940168449000000];
  pos0 [1228829501272185;321613310168099740;372351617192106777;239996466816000000];
  pos0 [5036832935145405;538375960695084979;571696553280470617;332233827568000000];
  pos0 [6032639389594622;54859974043089584;999139935681161183;655689887133000000];
  pos0 [161031662915265;871461500841554953;923399048800635799;225460086690800000];
  pos0 [2400518667976442;904382315465889253;247356935696985565;441338873065000000];
  pos0 [3145568377257819;41133387891286761;203865490806394614;652636034382000000];
  pos0 [539064475785688;510861107723208626;637713245592799889;28669737818600000];
  pos0 [4585036703692315;478492616213475093;671975165561513391;890571660333000000];
  pos0 [471703463708452;394893467780113753;4149094713420989;940719141660600000];
  pos0 [952935374005531;265694031004118256;526633540111419182;356637469304400000];
  pos0 [9199889868519090;457331312988345205;142345337215017892;215598108890000000];
  pos0 [4536494451644440;582970681165530324;671801115305625572;364520010597000000];
  pos0 [6611092199269854;716114405017185575;399054919462691916;115215684599000000];
  pos0 [2199647167377883;117061683793146136;338718550921034386;102628126415000000];
  pos0 [559438421403518;594992537825339252;13239440666691053;353606343307300000];
  pos0 [3998605202321794;819805548560137089;840357584924896784;779133262547000000];
  pos0 [7206917883523231;481547064260413092;968072833986647941;521488737701000000];
  pos0 [1899577616877680;447124164756214689;769830490247192130;853941074557000000];
  pos0 [3016109236344023;420583851736278906;108065064549676555;351093648387000000];
  pos0 [679589874385572;17732637572311107;308276258619061854;626718870110200000];
  pos0 [285897587328126;997523145455474233;88920533554308742;409177158827400000];
  pos0 [6067704900740562;315804967300301496;511429922599238721;824166897402000000];
  pos0 [1040569440062169;713413711969723688;611718237102968601;519023493819000000];
  pos0 [1321770513131459;319094432083301765;669992343303360344;574875378140000000];
  pos0 [1743298493453371;120845034608934813;981090343861179298;445536233226000000];
  pos0 [1999136113034981;25991569224980703;811023657806027822;814099639051000000];
  pos0 [2385985590832379;652006953257581028;567062603817170592;826410523303000000];
  pos0 [1193558001280536;373969150470210790;409817872796240689;355772966741000000];
  pos0 [518710521131884;750433832773126896;200745313601337871;30678420805900000];
  pos0 [7556921713559140;286752784604629046;492531953067260631;410540048877000000];
  pos0 [4416282659037114;334751585829208018;197044642926434778;461133109834000000];
  pos0 [3144753140924226;196671415039500352;849548287757847504;763444754157000000];
  pos0 [3123578645482498;483631184378441898;889694770718133315;256405514060000000];
  pos0 [1838962700556622;458221448748922315;575580719220668038;385216498789000000];
  pos0 [1371741011512351;886016866202316330;324568530756669297;261189148268000000];
  pos0 [725003595672961;904551687521426974;357565519518839854;862361020221300000];
  pos0 [9979280143512792;172727487198225783;245765488680516494;448994945072000000];
  pos0 [4151309193801297;920157413740678409;942274944287306067;138359211253000000];
  pos0 [2446298857661357;593767942368043681;192645062672204685;749794066208000000];
  pos0 [823918720322865;366609890303280229;429179415563521335;585966234960800000];
  pos0 [1494897399751927;337354445767860190;349195419921202256;733407324550000000];
  pos0 [1735909786054742;895816512330652963;26536376654586336;157941963858000000];
  pos0 [3381254752343965;488178886577315650;632687528793222296;599212873305000000];
  pos0 [289549780694933;282574396439568875;449091309245871842;914313304297100000];
  pos0 [60677962428948;66438565594478931;442597160383751750;455142121094970000];
  pos0 [3953512458260677;887575209457949554;886462315340592959;178326482320000000];
  pos0 [3451106013029757;356519026405755267;378734956263771967;849386256194000000];
  pos0 [3102229788636366;746519776576943776;962977606831896628;799614325862000000];
  pos0 [917893446618261;87278858137054611;810921065112094881;585727913840100000];
  pos0 [400930496534983;78448626448505657;234587784479631345;542697477696900000];
  pos0 [5281484787446606;729503257577709982;788750774174300619;55952303783000000];
  pos0 [1766208869011119;770431975931631997;446724352139858399;985642592343000000];
  pos0 [529719096071847;239352336570928992;88879614852367101;255648043068100000];
  pos0 [6007183203868938;124754685071511104;789652636788090100;458930305942000000];
  pos0 [762115503520695;641273267364535419;170369759440716841;941812073100700000];
  pos0 [6218161812402578;346862058173847155;472460029342295442;973446331181000000];
  pos0 [4938111882028750;180506254399076473;441222531610121622;679293780673000000];
  pos0 [864509262487025;25425001748940456;27243771715941266;11724651911600000];
  pos0 [1885257273372779;18084381152519491;860617596960545681;693922639533000000];
  pos0 [2840224617278061;793810291299454624;51275711098306469;454149941408000000];
  pos0 [2066014916895572;956307014017176809;588721854269335468;571245743360000000];
  pos0 [1699097037723494;877785420581922645;195999970685982498;777818008656000000];
  pos0 [712259735087377;93218968975520940;161030812837816336;68804576132700000];
  pos0 [1084380703050693;243960075723557846;251242033118635326;370507130302000000];
  pos0 [1837917296156066;725107901141553071;27629003942560108;117738146753000000];
  pos0 [3353735952748793;655933936711950458;81656504242037857;719762046107000000];
  pos0 [472937563561710;191145362829839277;174148158898742630;653583532116500000];
  pos0 [1797814412235931;596708531916163636;582069651221475684;232656301126000000];
  pos0 [3030370039396793;925627819913524850;217644446425227821;381184792791000000];
  pos0 [1073981636371553;174815986867018792;692038983609148709;344474843659000000];
  pos0 [888976837205734;82955193973561659;795903220119040600;62952338737000000];
  pos0 [3471672922349037;452807346953698413;88056433969375186;362233365344000000];
  pos0 [2643741521489810;791497808699020161;781275101553593800;596462038234000000];
  pos0 [5052959878721789;834918840722119909;868859949771613172;586030350780000000];
  pos0 [3983912534347848;144780230126771827;2406588972783540;297433888222000000];
  pos0 [1669834876476379;740474672478856978;856833051800339661;243346858520000000];
  pos0 [2948504806262537;286127150292611057;849165000891773778;647243091324000000];
  pos0 [721377608185359;677558264975115676;364459684496436887;884886895609300000];
  pos0 [693101853871915;721433654122272186;852269555436137385;84974544868200000];
  pos0 [8878167007817710;135892606849754198;885357509734400227;226865690140000000];
  pos0 [2933098260392564;605814179876415053;195700522535727104;792174139712000000];
  pos0 [2937307582347090;997262431318803024;132673070672807020;627730266652000000];
  pos0 [1231576015833403;394031804960014747;677881367753464434;38956465496000000];
  pos0 [2101971357182153;924992231366653297;853419438893112152;365945945186000000];
  pos0 [925888218409714;25430165521592949;331369503892194551;322822717532800000];
  pos0 [5384348811132494;628127473703689275;313737838874904188;412715788672000000];
  pos0 [2152148701742819;972560031934115392;357026404146327656;481853662722000000];
  pos0 [1320078843193075;4201135895720721;632697936315918471;920664883931000000];
  pos0 [5106216702827935;796026610046189673;344999672824859905;247419536250000000];
  pos0 [1843082990798216;588465666729865147;360961992730182223;928880076714000000];
  pos0 [1354865343639099;124504112556364293;786262358167468289;721279558443000000];
  pos0 [2618472939159648;75021605117585833;874085713685598881;967921541405000000];
  pos0 [1139862389414863;756856512331782578;951783052815597453;674543666182000000];
  pos0 [430137779216631;946094462519957739;500878118760598211;715471749871400000];
  pos0 [2857302459658518;9396729579279789;843160835354421260;802519531489000000];
  pos0 [5115502832706720;571213281852328844;846288151090696747;727367156855000000];
  pos0 [534383179502320;474478050724283326;614410843851212105;36335725563200000];
  pos0 [1566934821184985;33797802742323618;931678861895856923;326914446749000000];
  pos0 [2071776838502478;505701651488358379;571484057851596393;890901671871000000];
  pos0 [928090094376604;669946862876992361;98164703589834786;787305745698300000];
  pos0 [1563585857466250;684902658988915079;731935216176958761;811456761860000000];
  pos0 [5605017412785016;20310608186911900;251836170160782708;553596677731000000];
  pos0 [4672415404600880;897702140342737450;269505622844575858;635675409654000000];
  pos0 [5737130442421236;386691544931466555;833839738009675125;107239383379000000];
  pos0 [2376544368337984;407844390123148087;943141516029174328;87986014149000000];
  pos0 [2126436300008278;810976662760055251;11566359151624567;142262305616000000];
  pos0 [1785697769181053;497104979988883888;458973431236576417;696636319774000000];
  pos0 [760196872656781;168499085758971394;703411750213940399;136313426943100000];
  pos0 [2849031933722959;829312750229669202;501520596420340643;552243986681000000];
  pos0 [4741037664367374;188200408560232223;306292033915387578;596938011009000000];
  pos0 [5187729950781390;259417714102924340;323175133898371971;349426513190000000];
  pos0 [2182947639289968;863135966562598797;60689480807526751;663208886048000000];
  pos0 [6074878966506628;470174033384122755;840542298229688777;272066937464000000];
  pos0 [6111982690817997;276306537237514879;233743053706546445;921680977702000000];
  pos0 [456449118036604;770804702142317823;681762007057281724;268019589904800000];
  pos0 [7689386314478297;3754801530093533;530188674050719321;56717964315000000];
  pos0 [3692456574436430;912027693509569102;139115244055895778;846324708663000000];
  pos0 [1392654475945979;8535712117914461;754420119057481651;125808719244000000];
  pos0 [449131921686860;673178045653195450;533624447832732721;336727633593400000];
  pos0 [1385301687857629;314635383179516990;386587370493770999;285947533095000000];
  pos0 [4901375579567376;903658016318675486;585272333861729883;494988305971000000];
  pos0 [1972139379250137;826532128615564380;163738238356290098;410212100242000000];
  pos0 [487148287750243;713508803001498366;322563885541078769;686821180906200000];
  pos0 [4138081872556880;661235472275583000;12830502513624127;988192905534000000];
  pos0 [3563065591428539;466092298656712834;86963304823807842;72058623685000000];
  pos0 [4182080530668493;357573096087380543;925106951578766265;318513158195000000];
  pos0 [583220898779525;638696797161056915;769490359621233877;25390637704600000];
  pos0 [279269554387604;873854439364853231;304800798745444670;185577306578700000];
  pos0 [423732278423732;234392016043504739;869585174064461060;455612385842200000];
  pos0 [756345380125434;256031327125158293;817149143831220798;242468795639300000];
  pos0 [6317007457328734;781136615772842766;937913518900514735;300776030146000000];
  pos0 [38404346390465;499080527795999549;664676430806243460;279330868157630000];
  pos0 [3585071998299355;765190188357882405;882858793592266775;346094463995000000];
  pos0 [2016597265465739;315080908314378788;954788529603706941;999764521375000000];
  pos0 [5559052922826551;106633660986865149;222996433561825250;443587418211000000];
  pos0 [2356745205532086;881044261557863132;991187871908573356;473439526064000000];
  pos0 [5344660010479615;662031173931317549;268823943543162538;136146851136000000];
  pos0 [6475628003766006;106094523390166119;498053032297935169;791083166035000000];
  pos0 [2146897557009688;235049780297048760;787751331482631613;960434320959000000];
  pos0 [910273403776991;850339905974194327;823674055475022364;977010111689100000];
  pos0 [3229648829181954;394118787931251898;495422314856469400;744286610669000000];
  pos0 [726609676319831;968931474176139404;81821458481440672;746058711208500000];
  pos0 [115893961068737;470871185416746745;470282926100490235;234691954449900000];
  pos0 [1126105186566237;255517223111755704;550063696157075853;162529777449000000];
  pos0 [1605679670923283;444078307007419635;490964229281802997;659413088943000000];
  pos0 [1025273078460148;281367850438751022;79413849789679301;535410436043000000];
  pos0 [1021174814127189;979049037635835632;561295738890936224;40683268134000000];
  pos0 [2549723549546520;711639461681246179;519014479775477567;85885427958000000];
  pos0 [4537691624526472;552641210024780914;969216336284561591;547462683304000000];
  pos0 [5512750057328084;288471830556888359;979959857607355445;685652810917000000];
  pos0 [355338376586353;350560938570474990;160850022207142575;311124022456200000];
  pos0 [5738477054476798;373617919316617272;92424426848690281;55264366464000000];
  pos0 [4252901281373294;762249650842667243;176282928001403414;590765765740000000];
  pos0 [485415808470446;330687224703431467;849225031752203870;164636474089600000];
  pos0 [6491165610712514;607708054835975391;620874162266929517;581216107390000000];
  pos0 [1490562474842187;334032474653299689;180428209396486926;92018123171000000];
  pos0 [3532154682168133;411057339495408635;613842043848622418;77557578989000000];
  pos0 [3704375681144793;626925774056329256;312971357932198090;47826442091000000];
  pos0 [5641274908756847;701445094943124843;575251063489664144;458895386477000000];
  pos0 [1346147058995723;735374181037232892;946971075716512909;147418962660000000];
  pos0 [7198123515896918;409238429788663033;327807132042799364;466376666699000000];
  pos0 [2151389529383200;168909860977306948;524587658163236135;65559186178000000];
  pos0 [6103285791486630;920378963959573108;833570980141088334;337586701250000000];
  pos0 [365202904257533;256067159103061102;217236357020293980;280693722877700000];
  pos0 [8556852441551942;339458570283929227;807099510275837429;76761322463000000];
  pos0 [1317084602786487;756370180202206416;5385773762697970;803615880560000000];
  pos0 [5299394686730561;289057854916381971;792975949015960431;601591156684000000];
  pos0 [1712274322172314;918861926218841661;639868542624900821;257551095617000000]]).
(** JaskowiecSukumar2020.cpp:7523-9091, order 19. *)
Definition JS_Tet_19 : raw_rule := (
 [[pos0 [85952771502813741;984139370642956722;395805040475254921;266919180550000000]; pos0 [608788005581097961;488296048862369982;573235665842177513;567511389600000000]; pos0 [67560054008036318;415341682420892668;798148939218609677;199501796780000000]];
  [pos0 [109001500113805573;177554975191969018;201219955052070552;768340050000000000]; pos0 [387541075119688002;709054385534967844;466538413685348333;609392186200000000]; pos0 [490870749649779165;185560660455638754;560526485562607026;261007004800000000]];
  [pos0 [249982490447842178;122365631296957152;383849462262313264;165071615400000000]; pos0 [28116587451995312;689768216664659330;139197816651070090;567162124920000000]; pos0 [188464119788229968;480519075835291075;866243761626476951;998566856400000000]];
  [pos0 [118676485684128690;422319558773678327;784987027556906954;119489458100000000]; pos0 [546921573500499813;143545722771434090;910989836865772329;654402601900000000]; pos0 [10394573392214526;648441408910339220;17327495681490627;54999980650000000]];
  [pos0 [366775479151211708;766692289176721670;684228938199524759;746582395400000000]; pos0 [528070358317739853;546726174545040329;217460836073883453;160606664300000000]; pos0 [59861569191486815;568220452456381460;861012067324900908;445022115200000000]];
  [pos0 [109574667028161942;477779273152050599;216210771280403067;777702788800000000]; pos0 [207890524226213391;341837051398752236;276504052893946297;570641333100000000]; pos0 [634900937387456666;812809235199411663;735913656889700300;539823955100000000]];
  [pos0 [107927926519417519;384068959083396726;511170254757921591;852026892600000000]; pos0 [763689000538331210;976101041281079787;728565758132574408;417606193100000000]; pos0 [119372793658179501;485899437844835576;960139540287957509;845559893200000000]];
  [pos0 [98040683164135512;916339859341331171;23659516006113903;938673163490000000]; pos0 [132037410374384402;141629679484750698;251070273843802185;460043670900000000]; pos0 [44628344135958489;530307631828983150;869629518662308817;945226063400000000]];
  [pos0 [249362621590138294;924202668134801639;975093057029925437;333082639000000000]; pos0 [204927871862950932;548250533384561793;785173808906306526;118038917800000000]; pos0 [503572496059730827;823482346040968686;976620316987853009;510546587100000000]];
  [pos0 [253557731339033876;615983305546413703;162838616226444842;554186941900000000]; pos0 [5996306289523334;32734151083972535;564929217382395459;93730623201000000]; pos0 [222379566460222493;18017588759554585;992572328670961096;175442511300000000]];
  [pos0 [114588797224377323;415055001367149711;642828809328393530;5612793600000000]; pos0 [251290051957075787;3830848250334907;696150234749776594;349563294100000000]; pos0 [623665793703363617;15646426044639174;483406154944259576;536729287700000000]];
  [pos0 [5303248558078621;110437030271031274;278291857791531642;155981196985000000]; pos0 [425266707155337552;843143337485327419;593699129976988179;379126714700000000]; pos0 [17395593185257250;724096790958675923;679893579107595068;89529761660000000]];
  [pos0 [553094205406297024;269196253911944704;767514012818881920;641678044000000000]; pos0 [44205373336589154;139032893810957527;260502332863701807;254055971740000000]; pos0 [388912767938617032;449721914615040462;504004290951036318;356832219200000000]];
  [pos0 [8858640528210462;228049709631790424;710992689249661777;856338272966000000]; pos0 [134648377346165651;841378645393993647;373965469428364244;804739199500000000]; pos0 [261418923929732467;441712173934184179;721729824394699427;929164032300000000]];
  [pos0 [204161207165500517;327875707988826123;593274514086509885;66395587000000000]; pos0 [68400100442497924;101987554525366383;407416328114364782;658113287230000000]; pos0 [541439265677494615;541747711871191137;249009822075802429;290262750000000000]];
  [pos0 [353190921476685317;178034529407340329;163282510696349064;185884292600000000]; pos0 [242683697601044478;157058758574746123;36938863506329311;229818536400000000]; pos0 [394148537573272360;702774169816223172;40202728884082307;550195021300000000]];
  [pos0 [130692529571578607;794580627547750705;423310190900895467;527486601500000000]; pos0 [296027594899622274;559877449996756462;75619173372155338;448018518500000000]; pos0 [6891575419428691;55333154678449531;187555176335971512;934569924570000000]];
  [pos0 [80373973193880482;129523472585483790;243804490727943044;884027436440000000]; pos0 [11481551839362458;30698805777951608;613604500085918542;258058294220000000]; pos0 [857673813607162269;150814250325651296;98752290190590187;710294760500000000]];
  [pos0 [392676163524666639;665201628168864804;712661931207713016;72643533800000000]; pos0 [524887437533325792;217486697554598020;533987520844773400;971334333300000000]; pos0 [14345453079270277;872755802606717812;911900183459447437;638865064580000000]];
  [pos0 [46308819891079951;227022303572410541;18404113911492282;667800166030000000]; pos0 [657624560286649866;849258994995841938;237071565191227994;472083610900000000]; pos0 [247823633124782740;63419914439717294;87013943190808665;462537878100000000]];
  [pos0 [250934278707613496;952623989484975660;648777904936007007;194349654900000000]; pos0 [487049453550043972;943380313524721348;976900733256084925;92325590300000000]; pos0 [255143516724543252;176458569458973284;437890240508766905;595794938900000000]];
  [pos0 [111061547054887376;346997153637116712;398164651887037522;916999335000000000]; pos0 [185404959396136098;853701208089681287;651146169707636491;200266478800000000]; pos0 [145175319993401183;632369168556950251;697777796849653803;906473508200000000]];
  [pos0 [66697784655912101;331895189187129429;385025479956511767;833324239550000000]; pos0 [11388008054395193;194868017740131571;502044696210822509;486654626670000000]; pos0 [12915444203241765;405480777537351421;114436528391508878;54956676300000000]];
  [pos0 [580199668135109525;588540655771524657;883159266852266120;249680574500000000]; pos0 [106378361829486555;161299371294525385;909651296946957293;134148345500000000]; pos0 [304145270946395536;220870445148636556;85421425059551868;318543588600000000]];
  [pos0 [245679848735509597;162979178463686111;964145507263607624;189293284600000000]; pos0 [48032477962169637;424346241291889080;60446231800367413;684451123560000000]; pos0 [411411008547369264;893177266815516793;771414129728282437;360230865200000000]];
  [pos0 [8599876339902938;562160901978603516;813263322740714496;848318805616000000]; pos0 [396882497296256935;271465267551169024;88261017277153724;56082585600000000]; pos0 [103939206482455992;455301034476615797;930945220793293521;791788047600000000]];
  [pos0 [9820060043474005;139288229564995662;489063257149685264;894355571766000000]; pos0 [302922783475939733;308279868588861101;129696297573422336;10826279900000000]; pos0 [54140323763699563;863214092362637160;81658253261167876;597086365580000000]];
  [pos0 [7301789777139665;329675961430426517;959809300024397743;680441102531000000]; pos0 [532378959972643814;777772608560124087;210292803845655194;681122827000000000]; pos0 [51625505702836858;721468753331417560;351896573904293684;907417618630000000]];
  [pos0 [20895777568290432;86783277244944644;645993394651511489;273569168450000000]; pos0 [433943278472615795;838842997175655919;21383798937753583;510816616900000000]; pos0 [510244278072161709;379098610475240548;252782281835687758;819987907300000000]];
  [pos0 [8638532936710954;63925599673817759;747276476018717834;625089328205000000]; pos0 [135017862892190386;253742164448876023;101950451328563785;529210631300000000]; pos0 [7359526036820204;367440794529165002;764390885645278361;859323529617000000]];
  [pos0 [439141500444472125;819917922346902777;575813479812256731;313133218300000000]; pos0 [123302615390786209;148316726751002235;711890587581525060;62264759500000000]; pos0 [425489837811007896;624433735875002857;999252056929043972;47146761800000000]];
  [pos0 [48209340138460515;49444035589922903;541322724771517908;202359971390000000]; pos0 [670631185836037194;88420703214621733;471169093213600931;522812756400000000]; pos0 [7354824872404593;704861816045102317;884490313170483501;916405623624000000]];
  [pos0 [15699035740738228;454298833063826994;484872805009321607;953463749570000000]; pos0 [5267546540388222;168384695180745919;885058677219499547;978604155748000000]; pos0 [925346767439792072;180416119784686823;767660836479279152;9092323800000000]];
  [pos0 [41534101951950916;102265816717481489;175366902515255682;664931059660000000]; pos0 [581386302850881623;764772400678350182;651673506280640693;552175261800000000]; pos0 [365880897863361725;211543147540617660;697526545633557460;15986312900000000]];
  [pos0 [842820250778830950;534157727991179485;93889945212870393;301501728200000000]; pos0 [133250231186160031;590970629676844154;428363348151842078;709672609800000000]; pos0 [11736630745628091;80391974463728194;859389488662678;429775870480000000]];
  [pos0 [963259044358116708;778173918252642129;339182235420788361;602806596100000000]; pos0 [10041898879073513;522888096547087162;168836581953862895;455468453720000000]; pos0 [13633451246268246;967105252057274702;581330495785840491;456020790070000000]];
  [pos0 [52239978367857563;638657477896498786;986494019936698229;737472817600000000]; pos0 [341541386809862500;230398551365377050;9536139328805092;840074518700000000]; pos0 [371386863007735614;436985521731771161;585784677022086590;849074606600000000]];
  [pos0 [186501222836357396;52868771007772210;277936678278265093;237113537300000000]; pos0 [793816152323698671;935922075247183168;147167191195501455;228976263500000000]; pos0 [7663816491854051;962629553781794311;490631692990417958;606711881216000000]];
  [pos0 [281077751968794759;374225324792016674;838062507259422409;9439029000000000]; pos0 [440776473719762410;156143916416919831;317767317268389093;528815662600000000]; pos0 [231185768315020609;383803029295906424;766703724515281962;817799560900000000]];
  [pos0 [14759392710706160;163942664204592084;569839525023001819;406962591790000000]; pos0 [7410473401502261;894632951366902565;803852105055654580;17672517794000000]; pos0 [295286482463768805;221088531561559597;683003589458122346;449582294300000000]];
  [pos0 [244533244026885614;568183397498497254;230978566623216219;268159037100000000]; pos0 [609360170976375759;993045008472918331;533588931311884932;4694143600000000]; pos0 [57949339407713635;981606490962600161;155750954457891038;337674811110000000]];
  [pos0 [54801777635817179;113241046341291629;70237186123722079;280770731890000000]; pos0 [580735487825134038;424658004330226779;335871101983068888;664779674700000000]; pos0 [236474092967553327;451435228267815798;778532948695557422;991023645200000000]];
  [pos0 [596173584836471183;667301808331824571;82763890947812264;632587797800000000]; pos0 [157922846775778504;295088738536890136;158550763822682752;853306127200000000]; pos0 [113441359928156206;222045107861066936;407896582180085689;893337877400000000]];
  [pos0 [7469520318630954;269337440867128446;240239253297764852;907304079494000000]; pos0 [272579653287378441;883468050076895773;999993275140652306;669073807600000000]; pos0 [204824160519921565;370798759440369357;439978131170226566;709081407400000000]];
  [pos0 [542183007336865322;227106082580079008;64390156160067617;751391593800000000]; pos0 [373318532038580025;244414817069569198;339163034926419818;305084148900000000]; pos0 [76104529814826982;308533399951673192;811750859528953644;691102299730000000]];
  [pos0 [122462676345493065;625802022219744455;999095171594243318;377018799400000000]; pos0 [39315359141266104;4593701363023054;843261525341229223;825279568780000000]; pos0 [748182569406394128;314041059195909811;773328843092570103;763098499700000000]];
  [pos0 [262949982722638031;271383483451552327;447892114613907188;672544745500000000]; pos0 [60724742634547798;137241042419464438;436358921222957834;487906764100000000]; pos0 [662369017829194858;896456797122711011;349550722279483540;599927826500000000]];
  [pos0 [50278390339896780;555186494399708148;933813493684589854;728884800170000000]; pos0 [134212138130895406;128761832811234012;907750194446608325;793398112500000000]; pos0 [319837800248848871;669159755561573510;668906867940771721;911085095700000000]];
  [pos0 [15440759759026277;834892793162975718;593997123318701454;172048153600000000]; pos0 [114762996675091592;175371152462467240;458421056710441788;243992413900000000]; pos0 [577513800557740933;420588400343001236;593365980882288348;565621625900000000]];
  [pos0 [15229652769725714;579139301116125669;275592891194126603;927140603250000000]; pos0 [10441969106412673;16995909292271262;237680860679825948;295536875150000000]; pos0 [68669071113821324;936505604576466086;292409422256269344;388611957840000000]];
  [pos0 [11742223685397251;387309963835771181;235902276518267913;184353285700000000]; pos0 [14525702280569499;187281743268765511;484067226271074850;967204770520000000]; pos0 [964158361914504033;497810719758546752;663496518271485346;151545202400000000]];
  [pos0 [349945074988039180;892511129761163102;865620874770166446;587467067400000000]; pos0 [433673902599394722;70979981289658771;837134396741366455;212476567000000000]; pos0 [119109752972498387;733635588888430218;763422355253835026;229261614100000000]];
  [pos0 [667142437878326475;315617179591610313;804538383106122827;465861141400000000]; pos0 [255615622857807371;173051894238527340;975324133649689840;601493573200000000]; pos0 [67151377961554711;99083979122845073;827871828544059904;953024240200000000]];
  [pos0 [22748678062186759;925825764131732825;553883910341816692;787148560000000000]; pos0 [54236411838171200;650493310215563984;39011734777126314;235004000050000000]; pos0 [4544371879441360;584233762216894108;877014311213245481;131513658448000000]];
  [pos0 [8471306102124263;794688029097166283;624715376515904820;497834567934000000]; pos0 [283626082216809879;684834163175420612;667653067430479853;875417218400000000]; pos0 [670688004186220362;755752507087600737;979371093127793972;523744059400000000]];
  [pos0 [120046068582943364;724657691089898361;668279807243947582;927930131300000000]; pos0 [211349597849093883;5632025483954050;229205901609258650;379009831000000000]; pos0 [551948216297238213;118161531029400147;158793781936365849;336376144800000000]];
  [pos0 [45592424174947758;245029630172696500;560138888232385719;183327734780000000]; pos0 [782987129694357114;541528044625088904;57311923758232538;226685761600000000]; pos0 [48894243720753024;810292949372082116;904249870958202757;545956674360000000]];
  [pos0 [180202076022883014;566731552669272382;543375079297382334;393769591700000000]; pos0 [134341833041012003;520053774919024626;777317267506732078;705944395300000000]; pos0 [646735609643087423;925894271561010457;847776767917825659;141089610800000000]];
  [pos0 [194724859024076567;600382060993021857;707967734132416060;999524316800000000]; pos0 [716964057887722798;151139602399768230;341015632602793566;329670622900000000]; pos0 [53712576870044640;434768965169477645;316562574963728184;124859879150000000]];
  [pos0 [534486138892718763;645274212084522400;29083108335347184;323295637800000000]; pos0 [47290634645929770;628490529459670402;863366896658554388;744270953970000000]; pos0 [6655520609117573;512616376686712760;849343508980484157;560136582197000000]];
  [pos0 [63021068134108775;37438943239242364;635466024203276041;958716477710000000]; pos0 [154839258394677511;676541269791263909;221645242489257590;71310628800000000]; pos0 [771347763116204007;117898097718715018;123604455377643233;47878071100000000]];
  [pos0 [35290927984233551;723579885578079305;360154950827882788;597412095230000000]; pos0 [12057848310984276;982381300129154331;719456024225264482;920058200870000000]; pos0 [829374240113213081;651822084919685074;145677693959142685;474646143600000000]];
  [pos0 [605164379962281777;375155420267737695;449104146322075872;264759628800000000]; pos0 [70039297254549483;269585470880787784;785993239103800877;766049601990000000]; pos0 [119641114389745105;933966760689274525;18853311800053492;240703176900000000]];
  [pos0 [318581613617942300;13315538313823220;12033566771090825;634861717400000000]; pos0 [300726572020895199;725106520944140928;165434080437359529;144271155300000000]; pos0 [11824498637313340;439715343930180232;801866493233443732;689393544890000000]];
  [pos0 [204452640704917219;581736195482079144;281686067521852372;370748533800000000]; pos0 [120888414922791894;310226657766194944;659097808561640180;11000384500000000]; pos0 [571069500974775936;776249758121066476;103884103194495578;720346439000000000]];
  [pos0 [440162901749994101;889485344377049044;534202173298755236;718196111900000000]; pos0 [536562967808523127;806032923523517261;383166716052398382;518502549800000000]; pos0 [7783755496796969;803889451341402892;739364376918025348;929557972982000000]];
  [pos0 [583128865904998581;692558075904841030;114827776529984694;316509246400000000]; pos0 [391069457335475100;831349876621182606;539887703257925298;899458934700000000]; pos0 [14333948211917564;265122830460557310;660911454238249486;386471000330000000]];
  [pos0 [177854477259015755;41202500287669104;643694638748557763;606590626100000000]; pos0 [429189595741407096;255151232992455704;40298396039047693;694688480400000000]; pos0 [348915141489453482;355863749859625407;775246573408234642;21793057300000000]];
  [pos0 [7040707855058582;36282180974488521;598519999266112648;818497427142000000]; pos0 [124640493330979387;479003976312933169;787615347975465529;184552893600000000]; pos0 [143999097741219657;403133251075739060;609831666693365895;308495487400000000]];
  [pos0 [405276079591255465;744817337703153629;968672195568084130;867819355700000000]; pos0 [75551141290077078;747723917311951222;808920717005642080;756084685480000000]; pos0 [53473378471613756;681904660323629441;380844634295319274;535070290610000000]];
  [pos0 [328556199761166952;755057141737345902;34180653316879086;914601382600000000]; pos0 [238442561346988119;998073799328203224;695179477945384657;188456842300000000]; pos0 [225928516866444119;165992585857462398;371011947756635069;714420469900000000]];
  [pos0 [546832081965978233;239097591758737821;927662967589623874;636601192000000000]; pos0 [34513862650008454;218347716285901886;670007941806164679;379601239190000000]; pos0 [40411908602495484;766287652706885526;443106518299741432;893743020580000000]];
  [pos0 [881351757469028877;413415922143727210;663065030719307491;915712720200000000]; pos0 [62359844677727322;84360299593705100;959025832604768773;85316150050000000]; pos0 [52968816426210434;488604197555861365;691633133404174498;972159728820000000]];
  [pos0 [263802897842174073;854641958562949669;486766407377896336;410484930000000000]; pos0 [427758377135700446;819528080365649966;256411768322157295;325991376900000000]; pos0 [109995588770043722;657477136930538163;888087239844336947;628834439200000000]];
  [pos0 [8159601801430384;997311564578430926;888175604989042493;897982097877000000]; pos0 [692596724846368557;859879624886170114;435055951206305848;735695976100000000]; pos0 [259932505881008781;908436710007231598;539390241488619962;645205437800000000]];
  [pos0 [581443534279779070;632386210959738872;666465546842453116;199327457200000000]; pos0 [4995108034057408;129826579150852619;396151038673688346;707208645581000000]; pos0 [12292150004979987;191065022448499701;872266478827579687;388962981750000000]];
  [pos0 [780181814948134309;272992269660641531;546102237657195492;477977276300000000]; pos0 [143547482686401890;180526173406465837;88626914821608224;127560088200000000]; pos0 [61919769853539337;805749214479320559;811091546789362189;285676659840000000]];
  [pos0 [10457976133829061;965668457385871384;942286256854588791;195464682550000000]; pos0 [257035311511057476;206099107893014416;332654670107041861;960879589600000000]; pos0 [11758296342809208;105369523935036947;567861632235603370;950523186300000000]];
  [pos0 [131662213776338750;478099878533876264;856107236075176674;225012366100000000]; pos0 [34607652679527998;732809900776727276;625882443416440357;262444299980000000]; pos0 [649544677827260188;805204103890463630;557465029212934252;978244593400000000]];
  [pos0 [146542022339159867;880905736190235876;913387085036381395;265732587100000000]; pos0 [11095811639821734;307379247625130826;226397438114422868;10584101980000000]; pos0 [833213788341892619;876024970764246149;864348313467546370;692708232500000000]];
  [pos0 [563783754599732149;492072501338901624;997663184864005118;585685756300000000]; pos0 [7931639852386505;27225860446264147;944184185736356165;380707941918000000]; pos0 [417666118126408583;971163022373938071;643800284014830697;198758571400000000]];
  [pos0 [217597855402709523;442945223662269305;114412319994576350;854321581200000000]; pos0 [10737893792954088;187352192923216410;514759379912841565;261980492750000000]; pos0 [635270068988363127;647542979972501612;842656438440451923;565377019200000000]];
  [pos0 [51400953627561446;964131835717920887;713616703581502557;503638992710000000]; pos0 [126175832051433977;240324625431607094;506487655355138186;417822398200000000]; pos0 [751136235451548857;665733867512728385;344874672399040518;871653134600000000]];
  [pos0 [757965985809252939;47289288052966638;33201398976848340;165321416000000000]; pos0 [124356819029006301;742745683710563163;6928869876965116;966784666100000000]; pos0 [40982825289260126;146921157916495470;613887757325816851;140543775320000000]];
  [pos0 [51157506580201295;392794303104255884;735724238156304909;642253276670000000]; pos0 [158184507895614128;93229321530965363;97251360065049208;107742587500000000]; pos0 [10699644035264438;2036768817339020;492436242322649010;101159727770000000]];
  [pos0 [59502434031434032;515865689630787588;621086031790078977;321986196580000000]; pos0 [11140182070688649;189139991409790439;59480592632381073;931834692970000000]; pos0 [919225364773089530;999049039240103637;156914497884634054;127861711300000000]];
  [pos0 [335299825737577072;415974664386305817;893037414306636175;953444327200000000]; pos0 [529658447778402120;942040969209296874;887258828694652194;449658443000000000]; pos0 [3985269746681355;279446710402249293;887415452173773148;505778482120000000]];
  [pos0 [12783025179979495;533316060507077310;503299256344683535;467632848530000000]; pos0 [266423656245256505;868182167602097379;635766574621965683;571515239900000000]; pos0 [500936284945903455;968930821610556993;22158323099402588;949006553900000000]];
  [pos0 [4642693512687687;122722941120307811;528425163715338150;985077460165000000]; pos0 [698236440258727339;663740415035094520;123951801542717938;628872820100000000]; pos0 [13632646933869349;91002327415514414;249566334107083512;407495155440000000]];
  [pos0 [587878651653735026;350027918327984015;100124184636293210;384952676900000000]; pos0 [268511385307957902;781832479334145223;68333693326137508;908449302000000000]; pos0 [12002554440867026;234121690397015148;847857137209520891;48173083120000000]];
  [pos0 [16281794377353093;331938958847033577;271111322522429813;187295608690000000]; pos0 [869066374987352230;418971086001977593;381252625202790693;71036487000000000]; pos0 [61671048368541033;363895504763867138;867500280476614485;346314828970000000]];
  [pos0 [52804009893274453;223944156048499758;256785347517144835;229627324090000000]; pos0 [43391395613875391;925184269911278820;832613959114527194;834209252180000000]; pos0 [614904302761263603;918557095826938572;335298020252239706;844574092500000000]];
  [pos0 [379817682700832240;718581510289160473;38021933490256785;144681498200000000]; pos0 [179328834655677899;530434389068829524;679937909151413704;390626625500000000]; pos0 [3708744557399153;872473419446613033;538271964247351481;603522090539000000]];
  [pos0 [14414739421225640;809450233890135851;462158687135889871;320445853400000000]; pos0 [560257844247645910;462686119291414016;294636464868257559;677730880800000000]; pos0 [6933673207687182;331041679661827250;853930915781345921;338156070260000000]];
  [pos0 [799530033824880317;40060332910362270;583597494305946146;145993049800000000]; pos0 [60759442803609035;428701549219517732;178579918503161211;983516681710000000]; pos0 [130054307593159093;576588862910954141;980934908505330042;472696583900000000]];
  [pos0 [2210561072545111;195032127293407722;811036313438395520;308949040388000000]; pos0 [562961128005870125;824964572906984875;155726457980381963;164501530300000000]; pos0 [423200902674865028;185643146498712226;982723702543844326;392403710700000000]];
  [pos0 [39515960865001497;11106294741217132;644008910791325416;692008874230000000]; pos0 [10144587474608726;495677852435247507;518734701450683255;856329935990000000]; pos0 [157367700723022336;782338557397224494;586967484374183186;507740805000000000]];
  [pos0 [73819877839664185;375319308310174185;381609527193581323;475843879840000000]; pos0 [96974525451030598;359826403458538168;530938592445264406;411257337050000000]; pos0 [602850367168796737;99935081285863787;711406049362511530;309822462300000000]];
  [pos0 [385088100067920911;540052340859022186;24076892775824348;868913019800000000]; pos0 [174865744338148119;973783183567242428;450029816226029646;671039335500000000]; pos0 [385535679400974798;462849404939432877;823535788894788691;130991807800000000]];
  [pos0 [34626643446393858;562176863942543726;473898655997074030;531468705170000000]; pos0 [803975626299558687;602471284061223349;56945254261564260;462948669500000000]; pos0 [149170572186167695;47883073058732216;810603243587875165;267421412200000000]];
  [pos0 [2191050090599287;50525502796366499;860476608770519844;700530026619000000]; pos0 [792863346332545966;379458616610978801;988448887124271918;78205070000000000]; pos0 [60309325320246927;797411896243199325;755611472766556850;30932082520000000]];
  [pos0 [14778051609459735;800277087059438194;16537846662006792;32039019590000000]; pos0 [387766502087854910;854971578316913753;261234169223506733;297058387200000000]; pos0 [212310211883679564;125052478153390937;434310376290292783;744726373700000000]];
  [pos0 [818267483994528733;664414303470181603;168674551028538377;258092415500000000]; pos0 [8588775014994295;443755894863699646;728428154614435223;39785615595000000]; pos0 [11508686529022717;461069087523421534;872593877672075131;485046009150000000]];
  [pos0 [2506311197411498;907687647518828542;697042384697750177;633842899942000000]; pos0 [547003086825811357;717927598677074428;360089257385221377;542660021900000000]; pos0 [330816844317001648;520291592022397326;975493746913699168;860006545400000000]];
  [pos0 [211056117078105800;232593397113298664;253487908920083212;147256330100000000]; pos0 [545450696061539695;150900339280891217;444308965604775391;797432098100000000]; pos0 [136894415387491880;562297263120446096;332677044459997864;505690900700000000]];
  [pos0 [12251243178274104;954060926733139732;32898074588009258;626317518720000000]; pos0 [79003773300157221;970943725560097646;834900445557936135;503016929240000000]; pos0 [902203601718726464;267888360831986167;363951772841745985;150546215400000000]];
  [pos0 [431453202201159216;735943555576661592;48495361145696909;29977675700000000]; pos0 [13273628872289674;961954191008542293;240982410339918102;545629695240000000]; pos0 [10698741018770052;344374527688417223;304649445268283476;91387019100000000]];
  [pos0 [186478444858753871;635383458360905902;747810725750091033;488784867600000000]; pos0 [475258817988747544;295562609840126744;237548029374565671;255387082000000000]; pos0 [244735363476408856;640253974915559546;650084664855505792;365603596900000000]];
  [pos0 [7268353580998054;450671398853360263;624386454834863308;588676130224000000]; pos0 [175070681471654771;646380880414868031;702097764537721690;999788784200000000]; pos0 [735530237280227885;446737428901836208;372714186565837463;793177881400000000]];
  [pos0 [292838677956603523;313706833309808665;852613238652792614;848084955900000000]; pos0 [977070650863958;259297121924456496;709763120826167456;528506836927100000]; pos0 [19662390513651863;57052682469071986;426091671639562307;526668432690000000]];
  [pos0 [51578627866127761;467238755985116401;700845948915484950;47427145610000000]; pos0 [553881863388249463;434813623894595973;503481092971353145;758787726900000000]; pos0 [155795979292828910;742743924056422662;577523859209711762;630729120100000000]];
  [pos0 [6688590528920086;293333589370479903;315884503735434073;797590370967000000]; pos0 [648452518705725114;670711221912541679;127518712372280586;785034525700000000]; pos0 [148702551134166505;405119734314898091;47520881758851440;572668145300000000]];
  [pos0 [790449826139322505;909441079806541299;223752119661465912;911754872100000000]; pos0 [39356397507954555;430600236410158182;481075085818788882;774211555570000000]; pos0 [114951851443287705;993304191209027289;63741100426862070;650891607700000000]];
  [pos0 [144904326516008010;13563899957618917;652121865088562063;657607129800000000]; pos0 [8459034955408793;518379473790974846;242892247474578293;917151112430000000]; pos0 [307057723732628726;730898766797794920;121887069937647022;828212764100000000]];
  [pos0 [204770916336109301;829255468736997341;900447486019765817;792449075500000000]; pos0 [260792757920787087;394687207032079599;122504553323721483;183705582300000000]; pos0 [524267946388531318;132447539885792884;782308465556044664;963812310800000000]];
  [pos0 [440579894286547096;352003717063483339;231277183095776675;545619094900000000]; pos0 [376935598569036263;763673971044971467;590480867381085116;818661432100000000]; pos0 [9314760342423574;35321462701085274;538521882995825877;799309737572000000]];
  [pos0 [206733944832723324;598309765566279380;777769531108031125;316729844400000000]; pos0 [643809222777995021;707812921400965747;558181266793707192;103342819800000000]; pos0 [146671708509616605;896149435336282110;121734996804706887;270669790000000000]];
  [pos0 [908978996535263926;286650166064281515;993863237138325573;669338671100000000]; pos0 [12379349344959571;691474376754245353;641036297539319510;881176900660000000]; pos0 [67707193613131747;778728059883838106;479107515687889358;889807932810000000]];
  [pos0 [339201500686127891;303742379511111327;543342992611068722;361551709300000000]; pos0 [211904047577573422;335941709414865736;390717943314013125;478419735900000000]; pos0 [321823782585795613;321105177404930121;191708383227970905;538917654500000000]];
  [pos0 [492252323456463703;453366415353627562;757630514906193635;463259577800000000]; pos0 [12429016284519399;5887933282770654;577289478212685317;350216044230000000]; pos0 [232630279662017744;851322865204817670;354705239977391495;371884918500000000]];
  [pos0 [12823577141849424;123989657751047247;703027307699070702;743013905540000000]; pos0 [652045892099260265;32014392929244710;214786985540733899;902890526700000000]; pos0 [66754051550391780;267470951621615860;186704448650154443;882244158480000000]];
  [pos0 [635168959610604163;454486666116659849;747915385558053378;602736612400000000]; pos0 [86815401628537467;716484865262241041;594233813444279522;631262426260000000]; pos0 [10699934122551013;183496032909075387;540947320168819900;747756836920000000]];
  [pos0 [78316833478823108;943060571105450324;886034581509938014;615288807900000000]; pos0 [898585750001021224;873705746398290261;821292208496379749;147919029700000000]; pos0 [11215923819198616;153524787360420597;233823287386174352;912868556170000000]];
  [pos0 [284194040582505478;745735791087179419;443566748757043632;926322908300000000]; pos0 [34940801292585594;65874877894000837;763753878797060577;144180552320000000]; pos0 [42274800165607759;291182585778833886;646873661121334562;384294050760000000]];
  [pos0 [13039361758836195;677786448197228824;473762328732534139;276217121170000000]; pos0 [142196692441851934;670067770966407878;949685835810813888;325092366700000000]; pos0 [820157643599350772;574296059168907880;368278906150289737;617925755400000000]];
  [pos0 [128554191986446306;25849354673342436;581568902329801697;300342774100000000]; pos0 [53726374940803216;626077724262152193;678196573081740749;489730139980000000]; pos0 [47795455523822995;450153648303261511;911827160920913370;275405680340000000]];
  [pos0 [42830353980796423;696574377285729899;757967565021655557;444744798640000000]; pos0 [235765919121390048;961972527354641545;98612296118848747;577838419000000000]; pos0 [671970406163760243;972656795538823405;600158094334870604;242868824900000000]];
  [pos0 [13405444039641384;632600274795459062;640607339568304730;586956697400000000]; pos0 [638033739439197779;973247140834571472;510068974603966233;630655196900000000]; pos0 [228635657682078814;858484090617704957;53367330715883977;327442487800000000]];
  [pos0 [420275023617667006;973225733992136261;732044611048994915;852058354100000000]; pos0 [4855529159701364;993227112725301487;611118067117885170;110848510213000000]; pos0 [162218754034308574;216443098266781707;762066520609013572;362353359900000000]];
  [pos0 [646101009352709230;277258662435824113;846956671148604073;231833774500000000]; pos0 [130652109168062182;588976555086084879;336938899857332429;281534451400000000]; pos0 [45020177751577834;654063643785405798;334492702200851951;142123500150000000]];
  [pos0 [271973568563800191;875160270695130027;984136050901863803;370659337900000000]; pos0 [131312813950599519;766451083374326343;997519889294781660;900663070800000000]; pos0 [10594549219590534;35002863768205044;277815644091224046;779103314230000000]];
  [pos0 [675005671185273167;984019042263910988;871602392577740114;240995998200000000]; pos0 [43525688079349902;725749978416138116;859911298548812831;259434112010000000]; pos0 [240092204805789734;534686212823887749;913037695346075038;643445704300000000]];
  [pos0 [539608966637317425;999525497014627551;846137267124545079;662600845600000000]; pos0 [3136458633600789;666329107925135688;556139935183522586;45571057876000000]; pos0 [70379372571693749;616612598176104495;252675433986233823;811847340180000000]];
  [pos0 [191660718905507253;807115293587155335;173338742188991663;104300541800000000]; pos0 [6174679543437606;713780484538248069;379835847416597374;576962904015000000]; pos0 [749637767988827641;776072901763383166;398848320389112368;536700507800000000]];
  [pos0 [46202162486423289;807696981712613347;642915434114822479;805224259730000000]; pos0 [549539244799896195;980286285210005315;634196465912368194;360420691300000000]; pos0 [27895379889106533;199186318280714669;640309954975733847;176456776500000000]];
  [pos0 [658835771843602090;478859444657510159;852324621588095336;163694795500000000]; pos0 [287821795118006645;250753967102333732;120981400977998476;985762984000000000]; pos0 [5637598910803735;523571567516023597;919005922481171279;695457811050000000]];
  [pos0 [516085862364831252;843852231123358808;22923663464988311;810738258500000000]; pos0 [379823170554820611;856579213026359451;611236544829636009;42423744300000000]; pos0 [54735643212944464;542257382822644375;413102903943059139;581153773340000000]];
  [pos0 [528605925176857201;102856619549332554;782873839164781186;959630248500000000]; pos0 [56426327840725382;869374103963592672;551782532014098959;970800129880000000]; pos0 [239461002096257722;978783030078197514;672348952061785526;88082733300000000]];
  [pos0 [349252457958197246;569490916893472442;257908933675428842;291098070600000000]; pos0 [332542117868101404;425646896748444079;746783386112693280;574750613000000000]; pos0 [219111585872173612;409217780443271654;570682146156227241;863640809700000000]];
  [pos0 [2901946251734448;546240182893182414;519116369121577331;799019422929000000]; pos0 [29795061339526058;849026490277002007;853648906884093758;295447753630000000]; pos0 [366775119276023295;615401390190095415;187665228123050250;383224863400000000]];
  [pos0 [369104922762307200;158829916711154941;557063485675589525;482607151100000000]; pos0 [482329635054446741;320516045131759319;981416968517489918;909184843200000000]; pos0 [141394693702551998;697421421827070331;122923682778583311;80658821000000000]];
  [pos0 [272392523506416808;448925648761641531;510192284453766228;776283666300000000]; pos0 [11453618732019935;62919789220555712;124399101628425768;520475563970000000]; pos0 [707946078136300379;576082736358143394;913738269173817934;538850201400000000]];
  [pos0 [139063495165022028;267094522921572679;550561991258021509;94488456400000000]; pos0 [791362785871578791;174611869193147148;50945965190427081;113219516700000000]; pos0 [11233411007324516;382283424868722896;698864759439096454;93377859670000000]];
  [pos0 [77054445852159931;864373177918962966;270492519377167578;842159175420000000]; pos0 [500610269290179434;30649424830163273;809100584483614455;872505909800000000]; pos0 [374224715035705311;67321651522970876;431100641216291352;864407701000000000]];
  [pos0 [754131595809889455;388262302212858616;14155694436619770;743467407900000000]; pos0 [60733917593433668;547794337185464639;292749226498516640;612063859170000000]; pos0 [59635218542235809;150397677183703346;955684381124735474;610578050030000000]];
  [pos0 [10301518448173556;505503393963894488;135454386411201282;861297353480000000]; pos0 [75942693582789599;918473490587004580;802553687819818982;363372889460000000]; pos0 [751965793734224215;368533712842901828;287707196470550826;383301854300000000]];
  [pos0 [53130785482277123;117837914197925059;673688179914313103;44964848890000000]; pos0 [124993604548316368;762834192980203652;360664154833213121;145220946300000000]; pos0 [102592502589327741;988178063357476528;19634247599632639;800706505100000000]];
  [pos0 [181097653507991831;148240268282175883;690667420103666365;257236439300000000]; pos0 [12139028854758216;234967748572321419;160195040536890345;219593836620000000]; pos0 [59464345465603523;859071244394614186;637307363397940611;559518729630000000]];
  [pos0 [196342890385094410;63246048679382061;170306104581686889;178460388900000000]; pos0 [71235311582425925;689563005622318774;307149114891382995;279024755470000000]; pos0 [12143457361521166;551358660918839488;793840341002880565;991598459660000000]];
  [pos0 [57725100783461857;358644362683925139;428173412286075964;638048826020000000]; pos0 [27454977965412634;834387154192294834;5932273841603644;544976705160000000]; pos0 [51596017448448874;719029862723464508;209061270866885860;937436801430000000]];
  [pos0 [9270363866212998;347051706732658192;418822430126624005;169416197057000000]; pos0 [771910899951257789;300094976685143588;87611099540410984;229069035200000000]; pos0 [143949560376778164;717907764343866372;570093996095700002;7065693500000000]];
  [pos0 [283139769185908288;355733822267439100;36061538421219534;377264255900000000]; pos0 [661776977152904686;48538193587468997;200489949237743621;119126343300000000]; pos0 [11844357017906522;283581373240998676;969171544398638035;11866078870000000]];
  [pos0 [481743032247047839;753554273733318737;638569738969672944;922637470900000000]; pos0 [117698949413417043;890895813761460178;891272045450757095;244133778900000000]; pos0 [13036623056318663;347859561091927581;311589285561703992;405683115480000000]];
  [pos0 [60249034245341468;265352704618998778;801345606216562847;439242613010000000]; pos0 [59237526935402571;833647087083607226;62992746342880362;762101082900000000]; pos0 [868801879042895655;250001002586477963;889365034302980337;107212535100000000]];
  [pos0 [68455086235696077;145826062858404458;854364417709504161;15740484980000000]; pos0 [15193970938568345;903639748734437395;331714662388511927;95433892580000000]; pos0 [253328692745469543;591962193970751095;59350943048241656;69200831400000000]];
  [pos0 [217139825328230208;854428535169393907;518826715583304775;260494623900000000]; pos0 [329802403137062998;941087062584854380;229550590791219999;273147566700000000]; pos0 [124369839172592204;180950779086038548;444740685598844242;693435085300000000]];
  [pos0 [107932378978226996;104646552161239020;314465341876239006;895492032600000000]; pos0 [679975430085228995;996923027177638621;306508935528546933;338698312900000000]; pos0 [18332102182493560;423380887053359219;109201879190565990;902827326420000000]];
  [pos0 [280125673489106598;368678449590468362;30934855629269858;894345120400000000]; pos0 [27221613949323916;553884322493500348;788889321434642634;459505000590000000]; pos0 [2312869183433803;492975958498446016;673529867419147186;663514843118000000]];
  [pos0 [4822024286532813;72249607506494969;188157170574123856;789380212079000000]; pos0 [911857010700084791;823610480676229440;445115407630885922;814616961600000000]; pos0 [12362644753957731;473467609203147706;486736255465263527;695560707380000000]];
  [pos0 [14229586834891752;956021591713305886;955179679613352115;125971105460000000]; pos0 [52783875036032789;339023291183126670;844857226089627155;853782314460000000]; pos0 [227226220169164390;54682278243116911;171956636572393753;263955394500000000]];
  [pos0 [358295373515084109;481642943480108575;716796904783067542;933524453800000000]; pos0 [6010894163038834;780475351129123965;930621435455521164;639883956603000000]; pos0 [518715729167572102;97992048201618792;361311068711710374;950116387900000000]];
  [pos0 [133498480985611652;272079919801227152;175105719383141540;888965498800000000]; pos0 [438479629435096167;932739801636885070;423951818721753185;973472425700000000]; pos0 [122533916326859029;761907680051847470;239795912452194097;865530960900000000]];
  [pos0 [698976980253803523;144632185672537035;414475336719354965;771332707800000000]; pos0 [57572655373817032;69910530676243818;166259710569144479;138730236470000000]; pos0 [239615666432430186;807039408295961105;772184483268054423;980513905600000000]];
  [pos0 [6299534650874357;785828757790543705;262716904732693642;518265104108000000]; pos0 [141603169151188802;317534785074084052;564379094882543446;57139040600000000]; pos0 [51721410984669214;950770035520010595;24338295338101453;163407157630000000]];
  [pos0 [8722971038270437;668311409380816503;67341334863191079;466379792779000000]; pos0 [84824841484536301;734528355930883336;297400361230762261;189603398980000000]; pos0 [827662184300815021;736973456583256564;585344410839521326;131537689600000000]];
  [pos0 [12941781280389012;274263922694276960;82556977365983446;85485062270000000]; pos0 [279840161123669800;701785675705493702;65565147608234862;623456557200000000]; pos0 [591645245179839783;469989850462480138;238995204651051580;684111283200000000]];
  [pos0 [29174283049660729;658523757820099055;489943447091163512;801530785920000000]; pos0 [58353616098091118;989758187892862188;164669166486534759;873747101810000000]; pos0 [121839997763602416;468351619693137943;748531839778026305;568516911000000000]];
  [pos0 [12376507531913307;673421019055777805;950998142188215251;660938278330000000]; pos0 [10139248433809923;855711528100061362;172040337637690591;413131437060000000]; pos0 [12924013694415502;846560816807251914;706976573405681870;973863822080000000]];
  [pos0 [316479211362135289;671926593893571159;153345189695972315;814096717900000000]; pos0 [164607266521728051;81721828191402286;270791073740743803;138161479500000000]; pos0 [47005456064949434;563033840280311591;327357179319502617;715674564640000000]];
  [pos0 [284732382331386436;384425195821484059;342553722681836565;783172009100000000]; pos0 [448602427042621225;144938568075481201;108748678032434383;223896050300000000]; pos0 [7696373253160313;950176240387329255;938594895506109230;609950213207000000]];
  [pos0 [33795000164897537;536080765308261159;862372083497526623;149337255310000000]; pos0 [702705268298637121;37583040584877001;348429037467064041;831071411600000000]; pos0 [114867738418393316;829343298553054176;820086517991739279;11911257700000000]];
  [pos0 [143312024516604284;914922364422471491;403444717668839909;327085249900000000]; pos0 [62233801116329630;140338528201934134;965326945785301639;839489613630000000]; pos0 [789947862845617003;30326565389557830;225872781089320854;720142340700000000]];
  [pos0 [831140895665734610;742242098714838599;248530538083141661;333309852200000000]; pos0 [25307841200970693;468574622426844694;365338778629377777;940560262250000000]; pos0 [31419577166038627;816378368319117390;617299237722945444;387195463000000000]];
  [pos0 [418034983806456963;570186984334841591;207027660243637260;204746491000000000]; pos0 [9349018585645165;218664444643701629;94075808010717435;681802168722000000]; pos0 [559949322043889690;238764499116162938;977692872668687864;874690439400000000]];
  [pos0 [13345536910428698;541886571952775318;493707164884355178;35932042350000000]; pos0 [10113302336168386;227228885914058690;160060288564610872;659838684570000000]; pos0 [465343357166005437;69268119991604702;326398331935555196;252531604000000000]];
  [pos0 [869289332320317573;423179603933064100;759431165650740516;577348722500000000]; pos0 [7542602748144407;628841011877253958;98812342542620897;41421633411000000]; pos0 [64493273556991292;448485116973627275;40476084856728386;369941896660000000]];
  [pos0 [59362759994486194;375438883797412322;574065184111418056;528065497710000000]; pos0 [222665509302076929;618157068768739426;72816858034936272;952609837800000000]; pos0 [593425191161729906;520803622128359769;105305930321089252;527814257100000000]];
  [pos0 [475775663717405158;990739546641729701;980006058399166437;50640718900000000]; pos0 [72052432898407932;354621100808727006;105534386658918033;566071665910000000]; pos0 [186657216870828658;187835243369835226;117567756157708026;637692946100000000]];
  [pos0 [37459442546603993;672560259007701893;316192137893756175;598188894500000000]; pos0 [693902790215048682;968658139056722292;283775385682028799;29441433100000000]; pos0 [42067722496254741;671275420821449798;830881645117697017;542106426190000000]];
  [pos0 [127193837179728413;644451250333867042;831195551782130363;65078030400000000]; pos0 [708999301248011997;996253534138046348;726825353019442664;988513538900000000]; pos0 [55114402161914203;213401129786388099;562491416196789581;937318436350000000]];
  [pos0 [140781701273533981;578977935865628253;479596108354845315;577116184300000000]; pos0 [6750521460812205;742561665427705933;7425153179982475;387253896863000000]; pos0 [164982597619744203;475881869960132538;958804276098103802;443030511100000000]];
  [pos0 [57981529181308942;444536730156883331;171681789337627619;871539504790000000]; pos0 [748509878737501692;411701037530837987;871923622697872117;989019571400000000]; pos0 [134967940781234246;161500560054468080;871962499636182946;80891826900000000]];
  [pos0 [222639414496538623;658663963759308890;327502919497761449;508828414600000000]; pos0 [42214806376721588;674420843625483876;944566270794270003;768498382760000000]; pos0 [302659141344507885;980317824185282145;277486073411493667;101873925000000000]];
  [pos0 [104431835304771762;65471948314057927;238978266797227340;275035626200000000]; pos0 [14120014276705382;990201202644683933;717049791041099579;611217572950000000]; pos0 [463974926964119771;309092225574480087;751773488601326930;410617679700000000]];
  [pos0 [699526594933250876;225390028754332677;174428848927280050;757183738500000000]; pos0 [10990950402208389;848648203322709383;810266338273309287;536463011180000000]; pos0 [278875196572258628;363232741814798071;411586681427091770;59195475100000000]];
  [pos0 [215374959071563342;337128315500519649;39365023296277936;820834441100000000]; pos0 [190401395173656938;623590285264048995;964895999090637924;595740869800000000]; pos0 [233824987312781870;190426123953472101;275938664877557672;727001441800000000]];
  [pos0 [10466246822909306;640402258683417750;708727370942694091;349471995910000000]; pos0 [218745495880709691;461483421608663328;294423109130966433;246872431400000000]; pos0 [318760246978712808;911933491982531829;605195854289579375;826342736800000000]];
  [pos0 [730619193462106847;225857605568722465;934814266233478872;500749683600000000]; pos0 [248728022793274264;214656707441797913;65188649340875776;87237469900000000]; pos0 [13137834369140647;425812275193143136;463478397539489040;548729123380000000]];
  [pos0 [14485305020814968;380651444865360777;252959792311804715;766087117140000000]; pos0 [553540724349806059;304907047729625300;573709453294403655;6351322800000000]; pos0 [377360897403106672;113980581455070165;469184461464984495;816319040600000000]];
  [pos0 [909400129970298977;379512403181351781;796716404056586358;669915211200000000]; pos0 [13187485455781353;433775547825333769;22784466022162531;560612755850000000]; pos0 [11248325297966384;968466465285843090;452154394368695093;317546868340000000]];
  [pos0 [318061187041753056;775726968387665620;633494562578687626;940666251100000000]; pos0 [108695200089821173;163205500703123953;89964873573857392;962888053800000000]; pos0 [537938288533428728;110876935903301598;681225263057994753;765070222700000000]];
  [pos0 [84142458804298749;947833162991892634;897101256737048694;34179075310000000]; pos0 [769796854428700134;428541339431050124;912685929084920955;655992484300000000]; pos0 [6868737655609776;409004672100371014;859488809034573447;293407105556000000]];
  [pos0 [428438078983027354;309632061421315509;756547446387340984;945895521100000000]; pos0 [512663406486333486;648442175830375313;55417985366078640;709927510400000000]; pos0 [50273024926757351;839640806580359132;106340113137835855;686788079420000000]];
  [pos0 [315757676188055894;153136788796710575;103742809058854752;949200317000000000]; pos0 [13268335414318980;244816233615251525;316291660667031889;889920432060000000]; pos0 [620545973117081955;383153489738954180;792239892276756334;479651465100000000]];
  [pos0 [7755897737708482;700933412899625318;854681372596396949;746367745981000000]; pos0 [207150947736701884;978396584407498610;187453876570725582;145211268800000000]; pos0 [453763146241024274;778395483288626430;301541763712288738;430169668400000000]];
  [pos0 [43752470310927194;955182900643959946;354715916688854657;541549535770000000]; pos0 [182724498534660984;464806155964533666;264260256900524384;383561037900000000]; pos0 [412951472865141063;743256846074642796;609210527797143640;124859945600000000]];
  [pos0 [405287466210107934;945856455779445290;358676924748593091;925915534400000000]; pos0 [47715348210062672;425310269445034371;165776040252543519;122769563320000000]; pos0 [495387444696803477;161301384134763987;290856749352392550;920531886700000000]];
  [pos0 [697370110478167557;408508980251526924;274447348632178829;136602473700000000]; pos0 [18970759727292948;918666359962924018;130297316612096281;498479896480000000]; pos0 [7114359357501120;173114621441273911;499740029713685898;57156020221000000]];
  [pos0 [703181815100594809;711460337738444783;961881955273000788;79561783100000000]; pos0 [150929721554932974;714973107316111923;718869365745662305;728558785100000000]; pos0 [6971058507883068;586874554156302616;965560646970238809;735061444399000000]];
  [pos0 [653399797134808355;899329360606889153;979256867332405177;815491927300000000]; pos0 [255438188699916029;268106606774716413;320167647019993245;860905241900000000]; pos0 [44205090491963880;474909371802222195;951446681731722350;642491961010000000]];
  [pos0 [757954976275751777;925647366665354793;556274979504656906;939295665800000000]; pos0 [8632128793909775;51940266861835967;930686216934720019;227366838015000000]; pos0 [163745062717212698;712912832078451648;359001166298628049;57847855800000000]];
  [pos0 [14883278937905840;505479007180184984;285460222234415895;887525110270000000]; pos0 [959429503800226534;861252630221687375;905471212268109018;106406969300000000]; pos0 [12263581229898868;874662288274702421;579753044934601930;329004975040000000]];
  [pos0 [43317522912932321;322480009084029635;511703872181669119;225112331040000000]; pos0 [301350246555714854;861790277314018311;361558298076428481;333692597500000000]; pos0 [647192261624330817;27803562904070034;184338678240015946;148832327100000000]];
  [pos0 [119450629765766460;910038988949952244;615435069722784669;754079016500000000]; pos0 [364849103489714225;953564758081561895;590718041309588784;989948730700000000]; pos0 [33810391846690383;956637817563734014;204799725792811735;426255297650000000]];
  [pos0 [50596246373042046;657140468176029050;882937982039466951;784414015070000000]; pos0 [52144269062826418;501239237236465289;801949946174517158;827968752120000000]; pos0 [749146172561147451;245052668285895350;182820931692066831;233836613000000000]];
  [pos0 [856028500430105951;529488183738079422;978555354950990161;277101306200000000]; pos0 [71562932676637425;475984303497487277;820388039521412824;460856669310000000]; pos0 [6712947340178530;775178766876146466;292254864202123270;863252952494000000]];
  [pos0 [2233092050994338;59122539702673154;165040988465825967;589159467388000000]; pos0 [12513555437169365;522504555358543399;920860576908692130;733579073910000000]; pos0 [168147688305016059;177209086042014606;817382584570854600;84783295400000000]];
  [pos0 [523181347260031700;973751339717671064;680045925489651002;762186605000000000]; pos0 [112079132666249571;869014712688813193;929786979304846193;654542103400000000]; pos0 [61567540451289730;998078411251489469;659073061446573769;919372961700000000]];
  [pos0 [218609020536780803;997510087464277597;438461173651512076;251943155600000000]; pos0 [107177120655915401;211935199950081004;511162573663644944;421514344800000000]; pos0 [53735498168245269;868208995131256660;845053381129232073;809787299810000000]];
  [pos0 [44970861902560970;407011905101715538;6458629910952576;968068044430000000]; pos0 [885797327190177069;933324571946509066;784164395153057358;650705047000000000]; pos0 [60833530261348240;903252738060073270;719465995240716078;142056574390000000]];
  [pos0 [163691307973123950;415753784945237338;367636214266435767;734604972700000000]; pos0 [581569042307939135;360268993612784093;663414462726143257;998506596800000000]; pos0 [234478295477880267;104836434898752045;25633259199072843;935500006000000000]];
  [pos0 [429886223628021810;338925341835707747;912820457224763536;42504013000000000]; pos0 [288048467149784976;560080261283688259;128980583959298532;525877313100000000]; pos0 [10115552218239711;523601945195558118;494457447990016428;156102522750000000]];
  [pos0 [14276976904388259;833422467429779957;575395197177436218;227652813620000000]; pos0 [710564830190142402;692145203047943427;589549916500155796;439886530000000000]; pos0 [270665956768929557;330745820699597823;368552860673988267;216754997300000000]];
  [pos0 [43235839176351864;224837718078801160;882448070582222449;263915564920000000]; pos0 [457280179769188125;880901458722726247;247097225095378184;598926517000000000]; pos0 [273420867694714923;261884145887226248;272411688831622989;212154488100000000]];
  [pos0 [500865901921124970;393738225972432703;329869374172432075;323431046000000000]; pos0 [235148928545836236;184485817324296500;656063273361387315;327131963200000000]; pos0 [55278121045916861;789915096321460202;610044547060100345;790612272530000000]];
  [pos0 [44993434468668576;215800105709849678;195632982706408823;304908052900000000]; pos0 [302196787967574588;42349522817189156;514576924600247199;26753256200000000]; pos0 [133252517702227595;605250196923556124;744253683192764445;728895751600000000]];
  [pos0 [345907755942702188;644113087814946433;680718914102962273;797778989900000000]; pos0 [123355493129650984;823886397552557252;185211158152670073;924387773000000000]; pos0 [253536023662234991;42071731720649024;546521165452569824;622041259800000000]];
  [pos0 [63169735201858428;154139188560391405;684633085500184750;419269528870000000]; pos0 [11003875233628129;399171373989947800;574653236544507932;608431016590000000]; pos0 [693462224260313058;956257367881957357;452129010322097780;626342750200000000]];
  [pos0 [232365680201538453;941645480304098075;844154870194666041;19215846700000000]; pos0 [241628033512811851;511856080520083336;357286987103137579;352344479400000000]; pos0 [11509678022547374;87691906312284814;960265706115216756;412102085340000000]];
  [pos0 [404892265208713024;505142538032152143;505389392536120059;363208622800000000]; pos0 [51456494471651716;283479403069769399;267891052875904261;780162626830000000]; pos0 [537680051431210986;250984455870978532;103041624429292909;379254168300000000]];
  [pos0 [10241249588614198;724590475151435871;559350512040489771;218192384300000000]; pos0 [230421662144037062;67046334261756678;841619223498124957;152906925700000000]; pos0 [122477161806765172;487532184612168685;586619345741321384;479009993400000000]];
  [pos0 [126864320639920999;264722844489723833;933921470179696497;203292757400000000]; pos0 [316727308816740789;166061003935189357;842092677434288995;348646277700000000]; pos0 [96485795533413168;187427644790925671;683936558314955759;109149012140000000]];
  [pos0 [92031696849739459;488191870002800726;78367093312399985;54063174930000000]; pos0 [66541978884997776;53387409871881702;745083161362852254;207259301510000000]; pos0 [6516882744971700;907643447517013088;411516920720990029;912153759437000000]];
  [pos0 [183455788540604322;892250767568069813;371489298542165243;646661761600000000]; pos0 [582650470177686414;510727060736192592;77370907690699797;999648557900000000]; pos0 [11214816226392259;308753016200984181;371892446707566949;540463562920000000]];
  [pos0 [142043458764228721;721088094513164499;854759328713577620;707213870800000000]; pos0 [146605425199428985;618789054723081949;671117595429157136;473993908700000000]; pos0 [487736852157756797;620751565507808192;333774293013420088;970157484300000000]];
  [pos0 [106853970885258653;255118285472611910;774995671862820625;46414534500000000]; pos0 [447228982600164015;336380088143474175;419011247120485507;470414217800000000]; pos0 [284415501497749391;124974052820056696;672175816260203023;869722938600000000]];
  [pos0 [134469203088156614;596347119159731506;428055195353885255;294166635800000000]; pos0 [336808382713455451;167774024801941864;458088877731181498;429633678400000000]; pos0 [271745481654528587;624109856861623863;413179018206287924;135390637100000000]];
  [pos0 [2554908318008213;742238487580089496;178161934246556977;403522994018000000]; pos0 [20447956370703572;156990774213997828;847735499624844088;811571358540000000]; pos0 [856540264806066551;223887699897325706;463912841549282814;335874925100000000]];
  [pos0 [440896617627347603;464555064324295202;933682320898508473;138562235400000000]; pos0 [382918516226269202;668060076402466610;780508638911333299;55979671700000000]; pos0 [139126139679673819;116072361544248572;772513482713686884;669986150200000000]];
  [pos0 [64857530287511979;259335056261578262;3482116702709265;987593783330000000]; pos0 [245404781505673879;528138433167503259;877311124370614375;178828437900000000]; pos0 [69313440896402260;794241551402928053;217327427149624719;330746072620000000]];
  [pos0 [651730713971027541;262344255743227937;314456858900435888;457732192300000000]; pos0 [3571071153912234;245147034599054071;916051395324260298;64247431955000000]; pos0 [289256663488024795;664849923675734171;650290164101559379;960302488300000000]];
  [pos0 [282403587770940888;768012405862233844;640196918643144613;498697631000000000]; pos0 [84068004844676733;210342162370006400;664482851124687005;722887474950000000]; pos0 [102055957798113317;776022733810874979;630464292036056486;26269770100000000]];
  [pos0 [737695122461390924;489403908820756228;818935101395983100;349675220900000000]; pos0 [94190729343646324;719015553144500678;882319370588138008;481849897870000000]; pos0 [137761823175725885;83323211002326978;695246753275557840;241275449800000000]];
  [pos0 [10905814391239319;27717616109227671;884547399945917885;429234650840000000]; pos0 [44169996903571170;54849948995631934;907547295772319415;655822228930000000]; pos0 [684492124268018560;864731792346738523;605289709438413435;932936256000000000]];
  [pos0 [160032996262284270;405156808296881575;918473374386973932;215829652200000000]; pos0 [13025369187889988;4955799890877492;233798984929018755;169473889650000000]; pos0 [11828101948141667;235867631678840535;280678072382116114;454157471590000000]];
  [pos0 [314925269248361415;652839896348788566;85302981747117514;506393890000000000]; pos0 [208252177668790116;895538875982090259;328059061806113235;784401509800000000]; pos0 [155444983914225873;741992393460476069;791612624035926527;911253216800000000]];
  [pos0 [163721730525383753;683043138879635089;705075681942553338;475163829000000000]; pos0 [141074265290024092;584700118204441726;44429801730225835;111557380100000000]; pos0 [691144297609419507;362895191061546388;17602708664656523;168738261100000000]];
  [pos0 [10689423252765422;940598230506189495;699537222429990033;825214415330000000]; pos0 [117431415379632976;963223405677612952;408617733033581204;82679265300000000]; pos0 [433362023081562500;775739386528117906;42525488048956175;86268864400000000]];
  [pos0 [6027160376848061;464398386091038659;624128941849582982;95932426459000000]; pos0 [828248861637202580;932835766470295085;583602761766914307;644966039200000000]; pos0 [150584943864198047;345434978354646107;529537119605639915;807858427500000000]];
  [pos0 [6226874413468867;444977064114137401;169997633254256119;185279675401000000]; pos0 [56078559857678464;21771079809298605;832744722319380741;997801930510000000]; pos0 [93741886670809628;102886709801177919;685262486214656506;170427664020000000]];
  [pos0 [89974644386754244;510053045606124645;678948995029122837;64214806830000000]; pos0 [39971039202268027;978988905506537041;747892828713267727;189838686520000000]; pos0 [122539226550857178;660487511387296908;603127505109976421;685391166200000000]];
  [pos0 [203635227231204923;141048824426783243;557154241406323812;623258806500000000]; pos0 [9037004496300932;613532632965905319;767113286663500820;229922148620000000]; pos0 [404929099293944221;838157474407214920;265546183992023648;335256693700000000]];
  [pos0 [43376033752211363;206979757947340878;41960544083687282;241870023630000000]; pos0 [49320413235136123;978298059082062451;153760107808591302;180770951580000000]; pos0 [347683961071010259;758751560962400688;627308418465783270;558192087000000000]];
  [pos0 [925279624642968719;340415091548780617;336273270703778072;720078719900000000]; pos0 [53028282111703338;611547871701466908;778977800309170934;517686505520000000]; pos0 [9402767770162281;212084614065524199;862816878618672954;919122129677000000]];
  [pos0 [308909496501896306;198103934297579380;63711464484184102;632051609900000000]; pos0 [288899410538546078;57605667143375466;447162753844189710;418232245500000000]; pos0 [104237349834108529;478385043248504532;21844207949122432;525226444300000000]];
  [pos0 [248655943209713966;392238166722662181;415059077575975120;493446534900000000]; pos0 [97098716129710955;950298542436849168;314055104133779042;299576242780000000]; pos0 [293467237851928006;682288685720183267;852059704225687305;41317717500000000]];
  [pos0 [289057842714076033;545498658623845708;732348087654090669;234995033000000000]; pos0 [150861514084180064;355095915144918072;967823672344495381;781395670900000000]; pos0 [555711355028540811;632846255708796840;57401858470767317;98620940100000000]];
  [pos0 [459127037876473823;776330746464448460;401541515675897902;934410622800000000]; pos0 [39527488708404291;171645289098387808;722134358682367960;275520487710000000]; pos0 [371333730013808597;152821461162819489;586338126638821040;214344036400000000]];
  [pos0 [553939880094514040;88563025985215694;594821425890906843;937760793300000000]; pos0 [23399790426984356;742985576775357104;160863816889745173;321773566230000000]; pos0 [356918933275640479;622345727790709569;357510919703611195;338070141100000000]];
  [pos0 [287219176793558000;7436266768785749;681399409154618497;972668071400000000]; pos0 [512791887153489603;785160554678629141;369259639717958712;476335670200000000]; pos0 [33999670010273812;386721027226992421;248014437135816451;388630667730000000]];
  [pos0 [413812196604738207;787580075056877984;689359013215830167;882885641500000000]; pos0 [104022812470425024;918702907453019094;84020957515976536;997850682700000000]; pos0 [340883089819207431;242010054632811299;685528539269922609;337711436100000000]];
  [pos0 [381946845594618388;44311931783457385;354817686301347880;746839492800000000]; pos0 [116379273792274784;27932804040623803;356260783284637190;449733681800000000]; pos0 [127164631584556472;62110943139462154;337948829229709745;955107378100000000]];
  [pos0 [375086380877678936;502824165349652991;109722664137321813;830230893300000000]; pos0 [45437227541520053;743348465178801578;444093520618301928;325503564650000000]; pos0 [334330160962233634;548836174700074878;710926751884031062;868534681500000000]];
  [pos0 [101691031598237267;168856662866955620;331079344221462042;668398824100000000]; pos0 [636827319482288798;586613325198806976;562228671622615716;134661174300000000]; pos0 [133426166905173746;553910693576671598;664646160946319709;207009879700000000]];
  [pos0 [570311565030997620;168041206647479143;678103381548109420;153568500700000000]; pos0 [124337952460514259;950688264378087961;179448182440579085;271784378800000000]; pos0 [207333820362064215;925877752546233182;98482619956919499;765575299300000000]];
  [pos0 [54618222654631247;410630433804969779;610368141246656341;587512642690000000]; pos0 [203081074142046720;204853437467162341;635787869805012057;509863762100000000]; pos0 [504254887157408689;234323567971743235;983804020431380129;510444628600000000]];
  [pos0 [673659630573219269;766618171155193566;757662966356127348;720829544000000000]; pos0 [14556494111572615;97165191116097666;655620399891231659;798484997920000000]; pos0 [151320789161228656;30089046096987052;888859116819943129;419476109300000000]];
  [pos0 [244278186907434266;137196146769518855;747865695521499368;613283138000000000]; pos0 [384930400698251624;405287756199638236;199044633867580559;414351002900000000]; pos0 [217560396740617885;676046502124461580;62154464508469665;906607238500000000]];
  [pos0 [382260053353567672;242750646000286963;89747331098046193;26265579800000000]; pos0 [217616117252640315;633052896985923656;592202432231569248;868247027700000000]; pos0 [69221570110097167;334984972688512199;775948458987731264;315727509020000000]];
  [pos0 [364721100316468543;492480375339020633;535624016711608958;172119565300000000]; pos0 [358737938960384275;293013709566375608;35861470292107795;765280551100000000]; pos0 [266335997356860402;572315460833402393;94038785889671692;201527751000000000]];
  [pos0 [58878593846679687;167379240991258456;40352245795532342;892032203030000000]; pos0 [8072992711970363;752329969191257053;837659001828529608;886144853083000000]; pos0 [392388393360048113;9887624727492998;375380787822821605;866376362800000000]];
  [pos0 [9434075532047231;520804374023980866;12038842564168996;822545562452000000]; pos0 [72849759985027761;757279865128102025;844414349332680919;920671692610000000]; pos0 [367047411829333700;900367814801968269;804109561310895094;958814969700000000]];
  [pos0 [366691255393471095;29964639010068032;522355260516411886;555513349600000000]; pos0 [5104760971127389;842838494977831422;587082791839270582;304718050874000000]; pos0 [384067011933924997;199309969648007190;8860724642335685;862718172700000000]];
  [pos0 [773045364024398923;684840467853088693;159964124457215712;867557627200000000]; pos0 [10885711212258065;430856194832199855;54916876241533355;361238701900000000]; pos0 [72141424866790688;802662159733891035;886347583972010935;996344515290000000]];
  [pos0 [374327663945275979;858628273926563875;714996998630601652;799325431800000000]; pos0 [69114269831779867;759613116853327053;446974303908439698;598320646310000000]; pos0 [11306404083352281;511346455529088934;389182189309533864;697085609970000000]];
  [pos0 [124237250035529961;194051605967297491;596851989335658961;435330313300000000]; pos0 [139597144892453341;21680822332597966;670670923709142045;773576176400000000]; pos0 [262973881071923960;725207467079856228;627000082826814402;282454673900000000]];
  [pos0 [447496063968578962;104558036779393386;517470339451218790;337025422600000000]; pos0 [143142940126002805;188810654204097179;409077387474036022;250758580600000000]; pos0 [241481775949323993;792843759109817429;92988978856070041;753015849200000000]];
  [pos0 [277882872086000779;815444053381925114;992898869241906281;395007320900000000]; pos0 [117048994543716191;467010174388236117;881290650453209683;930655421700000000]; pos0 [397595008547984352;668029453048622789;304774367595341623;103819477100000000]];
  [pos0 [67320505221872750;803176113293975502;777192746263266139;243872185900000000]; pos0 [80453386370476102;737492859421522668;817852435803810290;429867397970000000]; pos0 [214237385571815154;2460912598413791;983740330083327960;926630922200000000]];
  [pos0 [361264217657803382;58143338900092514;943438836521719719;530667648100000000]; pos0 [45041072148524488;927900300689475530;905949346811219416;485314995410000000]; pos0 [218226921776606224;955068260103067872;489617320020714816;4010637400000000]];
  [pos0 [4892389501700218;104425551851592197;781350380577168635;423832134015000000]; pos0 [389038317008386837;205571077215988918;785472926924249312;340080775700000000]; pos0 [596408345090442312;304973573822247878;955867618124600314;974052426400000000]];
  [pos0 [599016207224310686;862738459236970491;549595734427831933;568744366000000000]; pos0 [11600738734199789;633795987304928911;788302078146429368;691823018220000000]; pos0 [123171537903573061;585198579185466653;906986009268921499;377812946700000000]];
  [pos0 [142946725746191387;940257293486773722;884905672108047290;298932136100000000]; pos0 [162970758849088320;217231991960665809;949367558479570837;864169842800000000]; pos0 [7906563260407270;288750696685974624;552190067432723861;804210477969000000]];
  [pos0 [152682466369887130;32842409249309584;603997239001276869;497246531400000000]; pos0 [302515651934978980;541690403486905478;948556202456803600;254513163100000000]; pos0 [483816803868216861;32809056770814777;977544386912870662;386704455200000000]];
  [pos0 [617069505558363970;770855687832888844;669975564384369206;879723143300000000]; pos0 [228597926335190774;310138212723733452;848397372809067125;892947291100000000]; pos0 [50910024816171293;429920241794267587;218181984628111021;81754905510000000]];
  [pos0 [115744916439385529;7380363571230462;911928513469156500;761022528800000000]; pos0 [394001753970247010;459531444661763933;415401154969686011;272632640400000000]; pos0 [385467786581918595;176401107533502401;401988243242519405;790560975800000000]];
  [pos0 [136725424022377883;87528598544512817;838571684598378167;30250362900000000]; pos0 [271980073832298236;214044123319684226;753175525825005668;422981112300000000]; pos0 [192430017580154724;456424178120092380;363531957752923449;351337271100000000]];
  [pos0 [346973932558128405;581438968503270229;257862007994673976;205203860600000000]; pos0 [30555167596936087;802730666465291399;26122846097363296;780280628390000000]; pos0 [123497197616029909;81225786779090944;607647771295079790;878260717600000000]];
  [pos0 [31116333920554897;689125101833448544;690691372746944949;158135183430000000]; pos0 [149102173772340229;824322200018270196;418383540149405075;730875623400000000]; pos0 [661073424289414515;179335483858388427;887884590405083859;786472690800000000]];
  [pos0 [37298112656267839;143691432249833964;919081583889006338;249346408370000000]; pos0 [478659587079166008;604292171819596929;17401075637489423;786815748400000000]; pos0 [368021468143250124;300293635919954021;432019121574025060;167949366100000000]];
  [pos0 [11602755498350211;239244953101876757;914484502502937966;288741509750000000]; pos0 [8561173025177784;513550881091341023;871243039338200481;258687709141000000]; pos0 [620976579933884708;291403165995561024;625962739054936431;162977756300000000]];
  [pos0 [277026343353134194;32374184466312414;977543299759691051;49215522100000000]; pos0 [644795944478854099;902951980245377291;456934637763494338;504425514100000000]; pos0 [67542018262834526;594696732795497101;947267338929068828;227235124270000000]];
  [pos0 [183786827779800956;329159182379570029;711799375847508766;901699438500000000]; pos0 [98724435146677519;851949327985064246;739799112133851921;881725680000000000]; pos0 [194340471331737986;969332181650504727;927237206328780802;89847078100000000]];
  [pos0 [220297057861374842;79786800963006417;830564998771223369;67814368600000000]; pos0 [212549966177820982;587519231425120774;5831124311782738;538284549400000000]; pos0 [331201956814839376;663891250187615376;685578975328758228;247062722100000000]];
  [pos0 [224860654815057991;50581476988733175;480742348863510937;290972809300000000]; pos0 [189392277852571808;832222100894263378;582560567045828737;343028259500000000]; pos0 [116935009586236832;661620421675506991;73044029219751715;8863199000000000]];
  [pos0 [259670460716764272;194057921349548559;588307818909061598;660234385400000000]; pos0 [12319433613879352;801053202704969797;652340422479044302;963468093950000000]; pos0 [494333060332384091;422652046228040907;39055715626171805;188036090300000000]];
  [pos0 [4160654104664752;403768383022426189;331075541772466949;450807732916000000]; pos0 [921532270214517505;5500907844015339;167594944348253036;931985005700000000]; pos0 [64538572189501493;22322332701660630;391174064905914434;852512720890000000]];
  [pos0 [60120842155262800;604516208201074595;6077920817463894;380851190330000000]; pos0 [402919918215793760;789333532061749340;339181114688484995;156452547200000000]; pos0 [114160326601825670;721073273858197067;167612405014530785;909479574100000000]];
  [pos0 [681884334897505659;930327958389631833;756767806259291709;882505750400000000]; pos0 [163490384890549129;511472727107740541;420707164252950039;46434557200000000]; pos0 [153762849299398233;289059549137308492;733128409486218915;900515942200000000]];
  [pos0 [105610319255723013;858428775481358831;762854248418936896;725973476300000000]; pos0 [482927288752124856;395090700459735132;291532399114799234;737136923100000000]; pos0 [51570589250948802;959331481185051340;742041214695254820;34909502510000000]];
  [pos0 [157687246977022354;35158372247340752;656919062481988897;54732735700000000]; pos0 [210773230436119922;611884255015091680;130214323276039676;875222177700000000]; pos0 [49855876156507298;594557097818404615;943424386390008377;173719803780000000]];
  [pos0 [548220965510783606;327782343947554066;901744678112799843;840703043900000000]; pos0 [191177959968163793;1116030486722723;904180190082296402;423320607800000000]; pos0 [9558425396448384;666862506615209672;880856699413324554;214720382958000000]];
  [pos0 [6051707529802369;525949858806931944;439031717115309076;901149021876000000]; pos0 [345648838405245031;717133769506276378;84411663583282557;365192612900000000]; pos0 [337674841504860073;994963719984894442;645179316948371019;190791191200000000]];
  [pos0 [190839246972943040;338542683692981880;4087979476914281;584655872800000000]; pos0 [400261995960217182;248685179257659723;668628831537255120;390808577300000000]; pos0 [7790948430590397;220995756653960821;342041743202182248;170832876653000000]];
  [pos0 [40752606637290350;681164861777035739;282205576753458576;677943507670000000]; pos0 [396470167768130169;756173264155385576;154916104812503743;539660171300000000]; pos0 [40272933612939450;367333231747031464;370153143016909078;361654758320000000]];
  [pos0 [36573706719539300;420772201442681364;665343952961178392;480768028450000000]; pos0 [48030778792941227;503563864318011332;55326340191847181;374614360920000000]; pos0 [497087176323718953;503501653030660340;935739287532009448;495441469900000000]];
  [pos0 [9528294683739213;306030789761188716;795687477379525101;565136822762000000]; pos0 [398567746770436773;772187625379561072;180111046807004416;188281952600000000]; pos0 [415754747537914296;144376861704059735;710445153576625625;133172457200000000]];
  [pos0 [63475833046788738;969915799974500055;280609032234237174;917733213920000000]; pos0 [270676637298870521;31870856757340166;521047854106574600;429812277900000000]; pos0 [14824568042041793;80675524225842491;601271674740049861;320156909110000000]];
  [pos0 [209744580797031758;588334547188830385;251939936137699716;580355460900000000]; pos0 [319365595830139288;911366313236511652;945013153307755859;445496210100000000]; pos0 [338439506167887586;540159698636701189;750911857695704761;246442505500000000]];
  [pos0 [59848041375910423;149754691012272970;100354456768655323;145133171550000000]; pos0 [355184879348182229;231570160477150769;238501529870531111;171871889600000000]; pos0 [532361518099966818;314033251390593024;995231349971949463;420669729800000000]];
  [pos0 [8497736458430719;785303809834166992;436207704249441226;57247127882000000]; pos0 [522142905431136331;244216346202160259;935553701098343232;211675158300000000]; pos0 [146430604602603964;2446266860413363;800718510958555847;213531570000000000]];
  [pos0 [389038101231320373;505699513656058230;297839931514984624;242605650000000000]; pos0 [298238769716501686;68006405447219450;416219583132524343;768848945800000000]; pos0 [127507459485379670;767362367770497105;549786081209361456;831944117900000000]];
  [pos0 [108345115597035791;715137990012273348;59707998029327171;118729497700000000]; pos0 [217473360625299346;740887940616530279;376283137375451411;333272842100000000]; pos0 [343693214508770833;874540809272284094;255761494224684463;448922730600000000]];
  [pos0 [224779525987679242;296819044549866407;34789873980794426;264416210100000000]; pos0 [197467264113971078;448146500686424449;195695380863033608;740093022700000000]; pos0 [456586919605868965;808504245286648115;742035953533754050;101508121300000000]];
  [pos0 [285439104784108556;714752558387333551;673958980999133681;307807111100000000]; pos0 [843414413136611;553109654991983258;534698439276837068;81744666601100000]; pos0 [101240295450677225;999119769314968359;729735818525364153;782759949800000000]];
  [pos0 [616486316631241868;206566903650474083;468092226647863646;624402593400000000]; pos0 [45814912829075792;632128474377855427;293716371917494678;712585055980000000]; pos0 [234800492982813358;314179596481416053;350418439232173203;39785375500000000]];
  [pos0 [286126184198633749;308259163993436623;347167029163980337;564954077200000000]; pos0 [302780793582071112;22201471564050641;839480097594340859;107967690200000000]; pos0 [355847631863323659;225343174285062820;618930770145178366;19362048600000000]];
  [pos0 [69165346032842664;71311364072182092;352688303531238370;452127355760000000]; pos0 [390625749930290924;493082827124449550;499502117182493680;490280340900000000]; pos0 [210123682140561631;566485683150661437;188868110392381214;643933329800000000]];
  [pos0 [7322647665876281;600604280923891723;801187755341468364;204467168365000000]; pos0 [405654473446531643;700336031716428692;52527447248032789;744339666900000000]; pos0 [507956082871844797;565941680907594941;64286278669317387;278258472100000000]];
  [pos0 [514948240437907420;462149549319597955;514739361773037857;142331600000000000]; pos0 [309805279402153022;143028680219537929;225014259741305845;531878556400000000]; pos0 [171812681469482221;357957838873940342;348164991846998592;226785547100000000]];
  [pos0 [166763838761553042;616645553189409446;347108899078079874;497073193300000000]; pos0 [115107119053756660;383750626640740175;645950470019536349;888903795500000000]; pos0 [378335778843760574;427619076973682809;477099620087761710;320172462200000000]];
  [pos0 [37819567170914678;999926706845231437;665513225964604919;754756901160000000]; pos0 [456412710394353921;657648563130205685;395166183088184768;425785238500000000]; pos0 [499754782447950981;78104585353798836;801739987358759968;951547810800000000]];
  [pos0 [309237094660416808;167094147523093526;195278031357501069;276921417800000000]; pos0 [671232516656101014;389766068576671827;274152397756652796;70313861500000000]; pos0 [14823248101991252;733994540612720750;776931713740969179;381518499180000000]];
  [pos0 [227426702544859585;132722029582484417;368580499130350136;877577218600000000]; pos0 [369829658662808938;41385843210541854;741272444768725273;902110782600000000]; pos0 [393022015208930665;503781926207108163;982893958391217632;285706219500000000]];
  [pos0 [12337468842486985;242620169063231288;445484346708643420;35729264780000000]; pos0 [7815220450551604;979470440661482046;913430484777848133;426919612261000000]; pos0 [760769367610655053;483204714591807344;965453980114144146;937695498800000000]];
  [pos0 [888703865349718;509836769140547983;476815650558919835;37136898792300000]; pos0 [170958704352386316;283860312149181937;415993931169564149;396567668100000000]; pos0 [636558065279944941;528450777120217182;840826675627998825;668241939200000000]];
  [pos0 [343978482990968457;898558328912134509;814107858600462660;972255832800000000]; pos0 [357790719135253974;523992008064268107;320364195865246038;67433885600000000]; pos0 [47619152782964326;428277465786827707;523942187567845556;149538870350000000]];
  [pos0 [480983925936086965;871953582656901845;806392394977654150;849710284500000000]; pos0 [6745001351801976;23974100276906715;116599834018537600;979908895721000000]; pos0 [453475401663232989;411232153022347990;700348083039330389;641366611500000000]];
  [pos0 [467554711471495073;933927420754891743;224718185700358604;235159027500000000]; pos0 [8210815103144332;113439146501221170;69032906546358486;290321915342000000]; pos0 [367391388637748552;943277633022102173;337716827057820014;754690155900000000]];
  [pos0 [762786701424426444;932685587795128538;214364883735723504;557204374100000000]; pos0 [172537365294170528;838101478103242311;312706125849642857;195717733000000000]; pos0 [10764909006848214;256546924343931183;79645798715026899;250238414460000000]];
  [pos0 [56487315516743112;935218758895999509;496109377438849399;722025748040000000]; pos0 [7308908362817571;706802766491739596;145848266654628569;634995985443000000]; pos0 [567450678614216663;630386005780097030;762533916402290396;771637374300000000]];
  [pos0 [115912247031571493;628182084896745217;449978021491146365;62517500700000000]; pos0 [577853859391298738;496168806039227781;710784741398317534;411228152500000000]; pos0 [237334051066081520;575475725378968475;817393150595648240;558917674800000000]];
  [pos0 [146417598094451147;740355711508081865;986490250736165548;859806861100000000]; pos0 [6406607788896062;494069789127485024;261272509093598027;469107353960000000]; pos0 [578140715085894640;325612676045854500;17305951473184974;77847702800000000]];
  [pos0 [39720096920098315;673481121704187408;391689409775115751;934837421430000000]; pos0 [170754549425446426;437559349644407639;696391782531631365;13285752100000000]; pos0 [185472908953109470;956182025462624972;565538618723933314;160609944900000000]];
  [pos0 [80760278965807945;807006634211561957;720967924331262717;607533965550000000]; pos0 [678116303186463993;548119640625319719;177184311198652220;760387696100000000]; pos0 [230945762292083491;352021070270995379;360387289430196817;50990257100000000]];
  [pos0 [692173984901927630;865421875765603008;226111872671510220;369071600600000000]; pos0 [147126076338487810;598201074803479722;712908015638539440;609563803800000000]; pos0 [102185723082688687;946802934268572394;745133490554741947;747716304800000000]];
  [pos0 [479630214830885078;918391327380437585;759746526141242898;51603842700000000]; pos0 [197143948134187966;321254327240542761;747973728291081169;44460613000000000]; pos0 [266461991408848505;7852469719699399;742668793535104547;225112647800000000]];
  [pos0 [38050931756341972;76844285542430832;590335305028829824;858632140930000000]; pos0 [285855258084195084;774577324292951678;264320811600120848;754763063000000000]; pos0 [334098147465970783;103839221365844226;682443655899028569;560669482000000000]];
  [pos0 [72290363780821254;155451584628782192;731848265805894401;23395635180000000]; pos0 [452376266020987671;593118674234767938;496864266160713744;808264776800000000]; pos0 [3758598473927021;644623196745282777;518414319475792304;209029869043000000]];
  [pos0 [36119944015282781;680083101698109404;744877365305911386;745765230060000000]; pos0 [77238712008485422;795493473356285106;804547870917244040;785074608320000000]; pos0 [38645318529163795;183847592008789211;437300819779870187;888449251830000000]];
  [pos0 [588974743816114420;905781350285690497;471018471266240575;936659062800000000]; pos0 [235105548929099530;300649509387508476;275933979560707828;607517804900000000]; pos0 [143549591681051940;99572924372603959;231887088240525534;920763512700000000]];
  [pos0 [627509156183831582;224959284529246884;603756536075087559;199952585100000000]; pos0 [127054130462483478;962823602986794280;690098563825361839;302908910800000000]; pos0 [214373582051829636;923884944739210270;419474177925566365;986378484700000000]];
  [pos0 [667463616128122139;579906293684595509;83095213376770346;177856228000000000]; pos0 [38379030076067309;868350166904279853;883493202747991949;420652789470000000]; pos0 [50159705407929256;595763569760775320;148358042314274891;715831285130000000]];
  [pos0 [466915125519507162;264588733024303584;679165234959590068;945854109600000000]; pos0 [231125232274157278;419148132034397770;46224270307476233;169773730600000000]; pos0 [193307498270574373;675601825804448947;276562413787524774;222070537200000000]];
  [pos0 [113634276765795340;998332342882585878;310819322530641415;449430187200000000]; pos0 [109958312740672318;703451090778268672;868463776763978972;418956859400000000]; pos0 [654767696802114368;235385374570678041;162790450453051065;698445295600000000]];
  [pos0 [456845736045462249;683061803613405844;201712913938841277;193987038500000000]; pos0 [359255160645213061;779378161345620088;278554690359685154;63198786100000000]; pos0 [52371152706278804;956962686970649793;960661841471435608;870271884320000000]];
  [pos0 [149057763455596815;26946111729665165;602680622363757109;664455897300000000]; pos0 [798797821183912335;662142982756090905;541011284908430064;798665948600000000]; pos0 [46529492733642654;976925467772990529;690786583507834654;836375065580000000]];
  [pos0 [70843983439917029;929028997066115086;260630697936563661;681333741360000000]; pos0 [109788932020384887;811729556591136153;771201839617678932;381481180200000000]; pos0 [456271549019057916;111036383910979982;753267206914181538;853110752400000000]];
  [pos0 [817041284410965547;85206926352097621;459271885449884498;753266875800000000]; pos0 [11344898148813645;400131224756736556;127904899382980928;70579069130000000]; pos0 [158364437602945602;526914063155170082;744092105490490063;844699537800000000]];
  [pos0 [514255334205372958;28571595804433039;270970923331454506;478943360100000000]; pos0 [405577384749742347;679194860446426594;69799901376290618;406057715300000000]; pos0 [10516032655183466;730708656386739840;400636681860780636;206452171120000000]];
  [pos0 [594105513794734166;190431489698167040;37859586230626370;743126942500000000]; pos0 [8159103179123706;175036982565739966;488246072055413768;24001462868000000]; pos0 [257600636737372044;72547123552383498;905065435679941066;699260168700000000]];
  [pos0 [16511953377587647;743716476341722521;814072821390450550;821942251680000000]; pos0 [810829166646425557;342268227376045819;799060141558644089;200679562900000000]; pos0 [10531813503760295;975265022713971657;924006147695923378;884280742110000000]];
  [pos0 [133415511483404516;6453002001717289;961002139035664676;419402799700000000]; pos0 [48774294937006718;884606462617672023;965593868044419826;621389022010000000]; pos0 [506949487307965297;629471362527096621;169311753044508532;17712188700000000]];
  [pos0 [10061530082577572;254170316138276838;283499778917274586;822853906760000000]; pos0 [221485597517621600;475888502202927105;174781275586074260;77825426600000000]; pos0 [763544782926680387;480077673144018708;123996874096521107;224586009400000000]];
  [pos0 [143063040354372874;362931959905922421;967231491110112176;166210825800000000]; pos0 [46226368121433908;234982436391017972;468894634051285687;622652730900000000]; pos0 [226115748120735526;224139798387124881;571403588838505000;61388098700000000]];
  [pos0 [220833838463185282;757725901330191335;457836088196385216;439599632000000000]; pos0 [324273695047631714;732756224729485298;368276779122722487;160932540200000000]; pos0 [205248160928699519;366463865253412301;312089279970005209;640688338700000000]];
  [pos0 [327737116322562544;695054912673347246;726950577497797134;446344864900000000]; pos0 [40832904123293162;434690197765005813;178882834216387831;225824857320000000]; pos0 [487841649763771656;363031553706860404;487765028019986627;674417489200000000]];
  [pos0 [10313708370361667;82783050628865359;283843807469888012;293703166890000000]; pos0 [500616200027080841;230551422721802136;409649890574107033;357243128400000000]; pos0 [260139307773763743;960944520805949899;581810582892187733;818030973200000000]];
  [pos0 [150796995740661688;222772779754621334;196420931794938769;746928609300000000]; pos0 [674393724609174507;881147242644716337;492179619643101358;255848422000000000]; pos0 [130464201731709301;424008952102096769;424390775737889088;65879037600000000]];
  [pos0 [327288254568613543;891069004367172519;91166476762107209;607391124700000000]; pos0 [9496655249970299;650891564651984238;122008039751484009;635668160651000000]; pos0 [296588813351964079;824124325432736205;262781388395779233;470069446600000000]];
  [pos0 [263251313423453087;582297795722821302;136202504001719523;446295664800000000]; pos0 [97396068660274081;413735547578730843;721443256890054705;341744397990000000]; pos0 [188616109057303366;257180909595365208;915952215818817934;663992886400000000]];
  [pos0 [513778846419381796;723641825462879489;925511825994026966;453984881800000000]; pos0 [278827908916638069;184136323182760604;778194372153491494;318204663000000000]; pos0 [113083822531863264;506178837113205688;809012744111075748;173175631600000000]];
  [pos0 [121472382299194522;438722237925122584;436554012770614075;474785459700000000]; pos0 [273099233639362257;853312630891136650;502193479432328074;888321058000000000]; pos0 [418588952422767692;358943126944638271;944420051486864810;929320445500000000]];
  [pos0 [205267237306164501;660577587805541989;809547506174444630;841347564900000000]; pos0 [33631149826737978;29905431755740199;227989385951119014;414477944930000000]; pos0 [116646769053087462;498454335596279183;781046844577665939;164968996200000000]];
  [pos0 [7544276445789790;151978909970196334;327936059570052805;192946508871000000]; pos0 [43524106392094082;649478598822953303;881024834612578125;73656196010000000]; pos0 [910207124410244230;654202250021413446;666665129459532432;68786717600000000]];
  [pos0 [507368493883650485;626081831716357963;512287493504878632;430037489600000000]; pos0 [205587409574102436;328406804306119384;631896326307454874;164309904700000000]; pos0 [277263939235873384;302310407810545848;158248945091359363;489221475000000000]];
  [pos0 [138676686530944321;826222480403822455;627053194230261805;568101090300000000]; pos0 [491542354897641219;305501554799824178;518419004069465893;386504323400000000]; pos0 [171351603558419787;337108742032045883;607071791196286829;9135259200000000]];
  [pos0 [204605626191831261;650214975256383442;838956274314339504;356328885400000000]; pos0 [442500880616512422;484541753997213261;858913839984624805;536935454200000000]; pos0 [46053249795594449;853957083637213399;288677565057899952;30014402790000000]];
  [pos0 [143977324331263722;910497711441296070;98661081247186322;234939384000000000]; pos0 [99889740664129933;663696150626705603;486933347429268662;164189027440000000]; pos0 [115565113894858095;516798027573200130;889511748562046674;870664477100000000]];
  [pos0 [472646726226138507;731117022686732721;110853106730376561;906594269000000000]; pos0 [164787649610976712;887309135901377860;556445994930007708;297688164900000000]; pos0 [137789146835515706;654758345349042700;833064173767086856;901154654800000000]];
  [pos0 [489334930612865239;538546545728387745;606409138830575720;104435840400000000]; pos0 [40117844485042958;956508680494137757;28955937785723449;134166364290000000]; pos0 [115038438404597724;729509123627424696;777149044406626043;445496716200000000]];
  [pos0 [123935688063301924;131819972004639001;905013592222142681;334865134000000000]; pos0 [519573838088511033;394983036456179620;732491490334638141;692279161800000000]; pos0 [349508905359525120;319896929224286841;456817621142989740;557005528000000000]];
  [pos0 [235556782985580693;701697759706706164;506803070081062095;32430232100000000]; pos0 [53053901994228866;174308552416360638;235726937189072692;592615052880000000]; pos0 [634392268465406487;147397850051394645;654361830396155108;186435578400000000]];
  [pos0 [114344117245650865;87680409479288579;707224870044985867;972171335900000000]; pos0 [56786902160926769;872228475908953710;15052169389162237;197780687640000000]; pos0 [360592903893277967;201922047930774757;125914623399606559;657118630100000000]];
  [pos0 [54752717474294277;749224755024345089;426144173565312969;364653167010000000]; pos0 [338730211620013636;138903292409815323;804335228557045035;771659018800000000]; pos0 [476798377631264104;381360238856490085;441498115352748401;813387852500000000]];
  [pos0 [163169682825010946;270001381872902010;150658946600781623;190472180700000000]; pos0 [39829907036155839;658815828959115804;884269557721202606;914884757570000000]; pos0 [766324623495955741;416383333894448801;146650543915404907;283227781800000000]];
  [pos0 [57715544498778749;866036978170549548;897171549398607993;832391000840000000]; pos0 [251209655014368309;319657960429573291;552156703652597032;623322469800000000]; pos0 [238761385439319614;11959865371979915;549042585164759677;600948031800000000]];
  [pos0 [84171463559246868;811031049297305804;236042501265475478;426696791800000000]; pos0 [818247610155532732;482655797609533251;948435190215507410;146989516900000000]; pos0 [55234592739034225;758789048725266207;691094281740523383;900921401880000000]];
  [pos0 [507671893783547025;872383060057995171;736364983428460243;130305325800000000]; pos0 [90119250157972133;31454479518229427;618616683754343690;801547397470000000]; pos0 [341951263688905279;477257223546615359;304030309020870897;355984830700000000]];
  [pos0 [326446063894722405;217179589502788710;140985515868327146;984727972000000000]; pos0 [108456632469774981;81399225380122773;748468708444292603;840372733200000000]; pos0 [466632296855532408;20772521793450705;388310919343879484;572967098800000000]];
  [pos0 [107377710003377303;986521695607081838;778929245730687087;69368605400000000]; pos0 [3473652130789445;962964630674092348;33848135205860052;61092223650000000]; pos0 [757907827284855324;623530082482903016;807025334419426388;548473069500000000]];
  [pos0 [22999842622815645;597380810363877611;432153639021682806;705741816080000000]; pos0 [188167932933669307;97628600719025022;538077575678190900;604330729100000000]; pos0 [54476561818320298;93333819021906279;498586580825649044;31820636290000000]];
  [pos0 [177236995671751048;170148454714475948;288391986877516577;16010820100000000]; pos0 [561944296797206575;171961105553019662;14321882434693201;371646949800000000]; pos0 [66969192153073082;361095015261172760;628156368060985838;364565541750000000]];
  [pos0 [108572809943021008;393366042205355993;160478291212161093;207429613200000000]; pos0 [89469723526321773;337628925240223456;963679421665657329;392491039130000000]; pos0 [762371788072958561;179284642401764567;445460786727766317;292320093800000000]];
  [pos0 [361503728978764103;456058201017295271;446456466602578347;607617314100000000]; pos0 [466006170937655402;46730629727403728;822527403491210935;982200964400000000]; pos0 [47290392381133000;19376865847714101;940898435862638484;832538556490000000]];
  [pos0 [422383541869331946;519480896936767865;744215069361278792;665802515900000000]; pos0 [296726776422813364;354185450355899103;872887726000839334;226940184000000000]; pos0 [242329084938946782;511757436901565475;968964213856855898;525377392100000000]];
  [pos0 [25825246418010027;957690581598017722;447521493747676554;442581961080000000]; pos0 [374129794262353118;482297989560975289;126587875044110674;198117814100000000]; pos0 [1721601852366721;645150451870676617;901072861486359629;195491585705000000]];
  [pos0 [271238943343954711;71266025016359508;703206632668367760;318637024200000000]; pos0 [553523799199557125;460849207213247012;645424141787937036;979190108400000000]; pos0 [139512427754875613;773390915357052566;442955017067482905;905954679000000000]];
  [pos0 [40753152512974470;378922040643572096;854171691157639030;149754374530000000]; pos0 [508306621251590875;588204443698534368;834901392528304938;824814115900000000]; pos0 [94256940597395847;892189607431018191;361781413661254456;528062062380000000]];
  [pos0 [40321553015157031;928716027169413208;10428138857183005;201645166480000000]; pos0 [49657129863785943;242900213298038556;826951898604432453;852682612830000000]; pos0 [851805482672288840;143352210553092627;820950722740955071;504724763400000000]];
  [pos0 [422884725706353994;804619435910634933;197170088089594261;394972755500000000]; pos0 [193658367501674269;903310868709519210;710759797162158926;952939969800000000]; pos0 [28859100167031202;160234702058682772;26064754245746374;29500218880000000]];
  [pos0 [694431193835457547;704116253546268843;163406481644596098;26153743000000000]; pos0 [66536713512421292;321095881620888147;336475068060193202;748531976330000000]; pos0 [134811012463918977;215459623137523595;536051451657168365;879680980300000000]];
  [pos0 [1999569923274427;397496899832802351;360621419419566202;400591999415000000]; pos0 [48510371639124225;647582495609778179;1376550482052916;421792725170000000]; pos0 [544691270617773474;325912602495772083;796789200654429914;234943960300000000]];
  [pos0 [46279369026444814;980186072321193136;754420039467248197;113148962730000000]; pos0 [879131841946708066;97961521870962657;215710983866850861;916798231800000000]; pos0 [10699830732717084;701106747694088007;190828559551432004;369544423010000000]];
  [pos0 [696853235463515608;859540874630215632;714053423691630211;317370980000000000]; pos0 [2037034038988559;396107503748834273;99632370638416725;174816687750000000]; pos0 [43478850728877947;419574446632399064;388330805144626121;441439291280000000]];
  [pos0 [774289651063827776;436989470040210841;34687665149142318;994245931600000000]; pos0 [58146275824845191;832268632663012232;262475580309021693;725587467110000000]; pos0 [10751978530927154;590009424644222345;963920352699891590;173318966820000000]];
  [pos0 [2202463330715364;304980260941507865;934151876317973498;180937821453000000]; pos0 [52139100205637461;703292924213290246;341693822954292801;614088403690000000]; pos0 [28325540402158297;899790672020352305;313337433150211135;611298274880000000]];
  [pos0 [412583477702417396;300592240044301237;940715083679419470;281393329500000000]; pos0 [13269141191130548;333119992571856617;223425671309941718;741828626810000000]; pos0 [57312283230268683;431921624123911235;563662261517907278;839185889790000000]];
  [pos0 [237680984534834260;923006047736174943;228409081913868018;68201588200000000]; pos0 [297597803010345969;110718651962610837;382028888654429296;213087539600000000]; pos0 [53029498861744491;455351203129473509;633654292938226026;449815057290000000]];
  [pos0 [856040532001560012;509965663906884810;897463154637664235;64981849200000000]; pos0 [55962453570655793;111411601472060599;706166153713036244;729671260370000000]; pos0 [46978050564656812;401598307358519887;195371840989244173;619281051880000000]];
  [pos0 [90937196964618211;639852179063487180;444517091243746684;403509622270000000]; pos0 [2569587079316577;54291728495815002;221912039922693370;274182212655000000]; pos0 [74246856835907998;48805446294665323;251256246205887907;244962668600000000]];
  [pos0 [208460079180454611;844218402722457211;477271935866392604;315145638800000000]; pos0 [663474278253260108;647578819804840312;553848275803472549;379617102800000000]; pos0 [10469878237178133;117284437522713211;67890710998207493;951320055940000000]]],
 [pos0 [4154919804528042;931062720483968200;487969840137880278;365128416307000000];
  pos0 [2392173195320248;550055019410958092;904443734624432977;966569535546000000];
  pos0 [2218225839844525;991205631724983106;20216528477164279;839765056809000000];
  pos0 [1889790943901067;53841205340918873;458318830131739228;486067742906000000];
  pos0 [3109857218034563;446522994436689312;355281136031089823;149184664260000000];
  pos0 [2976189043353084;890013142177039426;459202923898700012;602901427385000000];
  pos0 [1158144908122907;170993050794234284;699820999511612403;525650689511000000];
  pos0 [2673049871770348;52427560182673289;180761210906940895;556856793548000000];
  pos0 [4183139279353761;729032939881472574;708286675610536414;963162265416000000];
  pos0 [1511118995326505;602221124310086290;532421058692324786;388132487129000000];
  pos0 [1589112021812844;670451047854671822;300965475601954277;150528973406000000];
  pos0 [562539881729310;370991077637452907;559985474354283206;378980428811800000];
  pos0 [1617477556246484;808191879925569368;696773509070708061;190666139016000000];
  pos0 [1806545940363436;734179641456993997;403162015633430961;884395465398000000];
  pos0 [5151422236520998;901701963245465942;232651832161700710;954362719304000000];
  pos0 [2681626793238655;468158222346544460;727884045784696928;327296586222000000];
  pos0 [1311645587712777;96722295194130662;442846332470461256;971040989772000000];
  pos0 [849603652028725;291269780460841941;771298568539728324;128487150646500000];
  pos0 [1530242588223529;344565546529233129;98231004480234461;323358364501000000];
  pos0 [2379388509508912;616987108682497320;679194211338548672;276037396232000000];
  pos0 [1677687731264120;201697326896258646;241447305152459392;819065478643000000];
  pos0 [5982399198531061;624344739153656593;373888655481902465;835208906035000000];
  pos0 [432375047577545;663364038245588514;165931696697111871;731336897740100000];
  pos0 [1343574699229585;536769726563824022;98011863879870537;65567192579000000];
  pos0 [4691725415859371;970940643394465754;650327222233588008;769645265529000000];
  pos0 [1831937887689009;903930132568418152;571535961085201712;100110351463000000];
  pos0 [1239366000527990;550950679379948337;434722169886475971;687215969960000000];
  pos0 [1121605430270670;479584683645220584;668892178510287945;510997680237000000];
  pos0 [1247657593532815;240006803671916351;662694355036799020;182163833244000000];
  pos0 [306327222054122;864505894567283111;6088965308389006;715192435965500000];
  pos0 [2387805966079371;57772942264730359;364818214189828554;970636844193000000];
  pos0 [1057065653405506;439352028283527071;590837720495334846;91152394364000000];
  pos0 [251838793200026;929520840970901395;964780208193927558;148216026374700000];
  pos0 [1293133948575002;105370088493223910;40016131135572076;46088654783000000];
  pos0 [540817600502479;881938040196153120;891578497893217543;372399841110000000];
  pos0 [177302552870009;108985511343322602;887707040665533631;16137517989100000];
  pos0 [5077944252431479;426408482304696204;611962630906637247;504741990207000000];
  pos0 [451361277471255;252155619509244089;160260408414005999;561657048800100000];
  pos0 [4788077836025001;569824401895759753;211688942685337309;328635362921000000];
  pos0 [644458007749234;592575197024310394;211625229545341595;462386730437500000];
  pos0 [3723036085186382;586601724002435886;19886731000580419;907240927532000000];
  pos0 [3872998584127431;155766357642862103;985793937887236039;244861986354000000];
  pos0 [4644186587725121;610681209242035476;653916350564691286;361324087081000000];
  pos0 [1739080879222253;665468639191385872;908710345663837157;456441866862000000];
  pos0 [1340642778975186;174032604076112854;209495384656278894;383078215981000000];
  pos0 [2344213367199290;446939248884454177;173355251608268057;578210739520000000];
  pos0 [1824828601234347;254068649832358927;163596144614183786;879694458100000000];
  pos0 [4507878785961934;788107709133924423;156083208820869674;471853794918000000];
  pos0 [2730566358951606;100185575399135252;499199084169345037;802967154043000000];
  pos0 [477712128329714;639127370427740797;339390885042220544;635069672146800000];
  pos0 [162724939720869;877580970305401024;474102911990166626;273757301666300000];
  pos0 [6028491176376566;490033021244455867;322721726633931170;50328000862000000];
  pos0 [1320345707164726;367531181441633084;462341610276752602;675920095826000000];
  pos0 [270535320838191;760706807422811893;587222373387740268;440865792156600000];
  pos0 [931567027760977;313779151235384307;350711275728397498;141697364205800000];
  pos0 [4401460998710311;39923867840894473;841020605277617453;682172695582000000];
  pos0 [2054249593322150;141873188110706117;345442720571688721;219191734076000000];
  pos0 [3296803791643181;618112682277843613;872868306396679752;677832268260000000];
  pos0 [1953780204933396;636472723644285531;11222091868555463;725068000619000000];
  pos0 [958882500328766;441380115689430561;669143639641907340;865765669799000000];
  pos0 [1400888804584954;861228502042704370;290021169634680744;959699427252000000];
  pos0 [827665052142963;372337494496817287;884707566205491018;413082590089300000];
  pos0 [4644297676778874;140900081736055014;191873347415055407;324257178260000000];
  pos0 [2613022236483667;155089286470879482;226144048050528615;164460422636000000];
  pos0 [3728640984232288;37513131931571130;819913931889251197;747044894481000000];
  pos0 [721284778731756;64064602722297920;373611159163076463;554941514410900000];
  pos0 [944642483442103;356308828042695837;729891333404843701;780333146163500000];
  pos0 [4378573573093388;331562066754163256;82914255926603067;823203154269000000];
  pos0 [1154731741186770;888547651169780348;429594498058809517;165357658889000000];
  pos0 [3917090588040402;702197960897708479;901146462353791656;269612939317000000];
  pos0 [7546521474122915;472248060817372045;349633892855552444;354736759653000000];
  pos0 [2212838895341499;494444170754368598;728632660538030292;46267877063000000];
  pos0 [344362237041002;676070262076137986;567854694366284524;969255928217500000];
  pos0 [7126260158402705;120989357194517282;721093655431798420;471683941596000000];
  pos0 [917956840160383;607248276751949845;670006564965043781;996582980223500000];
  pos0 [442060455426896;596530093257747576;774898669518453481;597595405145200000];
  pos0 [1500731324415507;921017341244244005;978272025408575638;607979222617000000];
  pos0 [657996575975103;720954667659587449;243533275945202656;213713645660400000];
  pos0 [2936607268996233;974670194430542182;58072775480907383;991154741038000000];
  pos0 [432118159747443;653595132247671101;428072673606973974;222357397388500000];
  pos0 [489725903848038;823541040290175736;179954337387345748;801749966563100000];
  pos0 [2026686741632794;519883981355272599;639524610738013061;622534329541000000];
  pos0 [2535866322395084;23677012500401475;822228169381624615;415618031673000000];
  pos0 [2071352833699424;774503413768189564;890256570307469701;839426358813000000];
  pos0 [1143552252046331;459266249477892679;584986453208578003;370857877270000000];
  pos0 [295579177972685;746534234839534554;822833793795472466;421076864556600000];
  pos0 [1064303309785997;953803757040752320;815795472679458286;710910033335000000];
  pos0 [2459393225084751;576819101050420897;681639275496920466;794323827110000000];
  pos0 [459183108114595;56685044338646887;605444260617982508;867417646299600000];
  pos0 [2265912312958077;568841560409641190;995727929528153541;39193966757000000];
  pos0 [1078426109190280;45838546178688579;417546084592245686;83453760675000000];
  pos0 [2211061146358437;222575245362458251;495194279571733110;770445377618000000];
  pos0 [1187204878820968;752759295164349055;37423086974553034;915505000704000000];
  pos0 [608935171172338;378225108162325047;887165749234663611;221486628944900000];
  pos0 [908512353477249;466711385497867300;328349393477858405;979620268421200000];
  pos0 [360691142299741;244009583899631336;224329459025489708;685565972131400000];
  pos0 [1025012885099574;564803770372143717;277349029026771593;746256236201000000];
  pos0 [4139572157325285;630862139540849604;201971294587432369;900852027726000000];
  pos0 [4774903022923129;758505661402485335;278814666803260474;902375569218000000];
  pos0 [899574299417348;188144596818812173;513886787674668298;600663023770600000];
  pos0 [639401862319314;685167745086928371;524300613413196382;939922276352800000];
  pos0 [3162097660899969;769207800542560346;102155489323075248;932238611375000000];
  pos0 [456595890010634;921600841449678019;123317766398889858;544137441568200000];
  pos0 [771902395837382;326034507117008598;476279860747509513;94044823465000000];
  pos0 [5552109074592875;296594822764870079;11561271825501482;438276571072000000];
  pos0 [287412293277983;254369216961784825;216749554021715562;869388904180500000];
  pos0 [818721454932179;184479212547141483;30578075906332122;537067986070300000];
  pos0 [4795659494745895;146577977355665305;56165634166279527;676295792131000000];
  pos0 [1023442479277455;546315825589931851;338714944806323295;85268004941000000];
  pos0 [381979413015582;930608272191522229;487581024963998349;726910806919900000];
  pos0 [4820993144050171;514733495680060210;782041015819820832;359231642856000000];
  pos0 [1289968583599425;91484914786158610;915026500735296448;461743382993000000];
  pos0 [1459576049106601;170334860840848939;17364231813494562;657527613449000000];
  pos0 [1884406768758861;775570072747217772;402627878831539910;984900274772000000];
  pos0 [2024741618965744;219506336111201327;406166827257396630;751925572340000000];
  pos0 [2160646032006107;704417686937802998;185377955031899474;230342586067000000];
  pos0 [991256196365603;589102105686252218;489374418427696463;965143015224200000];
  pos0 [387657561296803;19333203889528288;994602524701968123;674631627295400000];
  pos0 [7358501177196831;902812377989831649;206030407725008527;740794940797000000];
  pos0 [3076555820535671;54402922509455169;306645876787307260;306433671889000000];
  pos0 [1617075947923160;203125583253033722;462000281913186521;180011258619000000];
  pos0 [1806338452597640;146379424904750447;405553873672989982;253646011447000000];
  pos0 [456140419199959;380130417891161224;249731978343125504;175762590849000000];
  pos0 [2593422984810426;561906492789621666;404181508002956601;291989824014000000];
  pos0 [813401379778351;24731711349149374;492878067243525635;68999347547000000];
  pos0 [2140565717259238;298656741939168780;759572799955549926;311810879768000000];
  pos0 [2159033692514621;545745795497654634;596279193495843130;516301168482000000];
  pos0 [1825086565061901;305648904308801026;866125150805958921;799611118700000000];
  pos0 [1607578505936310;86762394911443488;629963711898753643;216280085773000000];
  pos0 [3726274394880948;299918585245122050;753393925508825828;918580086200000000];
  pos0 [1877347668801728;396713651381696795;94085045546577988;147946434418000000];
  pos0 [2377354227471039;906426418745909003;433303912024629289;299748069844000000];
  pos0 [780074814304320;121376386460305401;590284893451196635;254383144050600000];
  pos0 [862515930292853;608442694144451646;460592657733019327;870384492374000000];
  pos0 [1951259683067656;192691478023954535;18601457421343217;841380821962000000];
  pos0 [795188444774305;581325141671758123;911169964570544202;417717952316300000];
  pos0 [3137972126605337;619645528835427852;685980402960193148;414842953397000000];
  pos0 [4241078010944259;740450550621738285;304451540803848866;839774913728000000];
  pos0 [6257851396176473;537324321657199011;197210640355885157;394553001918000000];
  pos0 [407909486301674;639453108870092385;401032024681608783;239214658109000000];
  pos0 [1874407641081192;440018763721256122;564898999712655456;284793881838000000];
  pos0 [553364419320777;537800799014902702;159686489050177242;863273349513100000];
  pos0 [1232081788414762;182895518251346826;75958983182913872;294784471286000000];
  pos0 [3889646799908942;386270240093885060;757189738500136706;685487289213000000];
  pos0 [2227848469588251;461071900637329085;822239379479669915;164222395193000000];
  pos0 [1179781364189440;255369570783493385;183642934729877448;734832397909000000];
  pos0 [3004953970787520;872107859379827715;46487074469932706;340673809021000000];
  pos0 [1241115810115305;453477171500321469;222540167956739988;501664302195000000];
  pos0 [1462219653619987;830270855283651488;176543479096403837;374368906858000000];
  pos0 [927231992453751;943088165999758984;679366606748439855;427684172052200000];
  pos0 [1195997343092115;502371737039521253;581157360114843402;954845256551000000];
  pos0 [1455181289096082;818109739659412583;881881382942228754;890179545057000000];
  pos0 [2017345750584754;214224311538395949;874969862528581741;645576292111000000];
  pos0 [822800016696667;877553571328973668;133599646262388499;501405661096400000];
  pos0 [1887135885845097;594398506442210151;977519091230017817;999507611658000000];
  pos0 [5976512936093831;402550864150874568;392798159787418301;801876818582000000];
  pos0 [1618420431245793;55267951254207990;129330069607791337;389292045000000];
  pos0 [472873448032799;404266986434712567;901363718177111181;133778092688300000];
  pos0 [249924926852316;963736187810862424;803693904292814229;175670128329300000];
  pos0 [1726622610181463;37782504793232860;331408938948485035;893384462365000000];
  pos0 [1320784168672946;408156527663680112;997690106091768345;191495963773000000];
  pos0 [6288984828167509;483080445093576914;687329364681215290;746404969494000000];
  pos0 [672282791849655;929178930780296604;603784758650656865;393307370327400000];
  pos0 [664319589989269;553348563662354266;992112232489618460;974366525099700000];
  pos0 [682872912937170;778767184314747541;220964368828758283;965688650987800000];
  pos0 [2108163495207963;298889774310474124;106847311012296135;799650898000000000];
  pos0 [1342756245962379;428104405259259441;791051445815797293;98651614393000000];
  pos0 [166318704106437;304586784182827656;368555653016586218;818066770878000000];
  pos0 [4857455516947402;81189117789862149;882293632480593367;954326205049000000];
  pos0 [2134155020458910;678244376560822552;255560630673235399;110862817005000000];
  pos0 [2543591692498350;583695801175431837;196272224399908346;987704162128000000];
  pos0 [574734942284955;887731207198532090;162112607477706362;750539852793900000];
  pos0 [490185571790997;908888034947428223;15333343233936344;895680064692200000];
  pos0 [670997580067132;768708953638249753;829220582774087458;569472220768300000];
  pos0 [779860390897187;465548954743769809;388928896941554758;890568848110600000];
  pos0 [631794982977150;897371630775626268;178427537492241977;171370097973100000];
  pos0 [3023461759386744;945001493014394684;227853596006729004;468623848891000000];
  pos0 [4601182030960639;708175561605744564;854428870910399635;835837836051000000];
  pos0 [1408388405759180;50632579534211315;170896162039369101;549224090632000000];
  pos0 [3396799095923000;507029281783549408;723452097662714242;12211800728000000];
  pos0 [1454536019993435;657925087710600148;354754533740103250;866494817610000000];
  pos0 [2696863355897097;671358411687715403;357697873701829135;918598131732000000];
  pos0 [4345709060592211;791098842718418595;333649076671883242;831220406360000000];
  pos0 [2016937103056351;234177094453369384;796801795846797996;856327771246000000];
  pos0 [593770278871825;693207110839581791;409994843833025733;267064988436700000];
  pos0 [7848525491922308;854649703591372902;434164288813956187;659916827110000000];
  pos0 [2255831522313072;279365493538326949;634556288168272010;457560792218000000];
  pos0 [555657555820008;388397796006107033;772155314845879784;423767147542800000];
  pos0 [1570338724360238;642054879209192154;214133978872102638;557117975039000000];
  pos0 [426442159060978;100215634620088263;660860345154242699;16763164415300000];
  pos0 [2879818033248844;189029868520715699;691666722455765997;250152867269000000];
  pos0 [934895879247871;831170771746280915;291054980138280286;336830156401200000];
  pos0 [1220891151896520;818674518115860035;79729324404464154;33896536710000000];
  pos0 [1572532164942313;436376684742848100;660560195016665166;530836161821000000];
  pos0 [1681050676022432;643796606040840380;163875071382278571;19218429654000000];
  pos0 [2803598145758590;480781874806368879;541625306979083938;954095443062000000];
  pos0 [3345807128808899;514102026582424273;235183598165123716;324459505772000000];
  pos0 [681495337908784;816595769305217207;222318232961428070;297686557731900000];
  pos0 [1315269920696471;833771540424868372;872661837102547737;604696727430000000];
  pos0 [2197242455977371;643182854278532961;108156289905604552;756903864821000000];
  pos0 [1147923614308583;781786446140505367;985556725815222727;100558986528000000];
  pos0 [246097722836158;32599495478870965;212847066251163303;48183671230800000];
  pos0 [1088690277034476;525010446849062934;67258792028951422;935568562915000000];
  pos0 [3536439637531099;938414805315625895;57965881198467838;496559142265000000];
  pos0 [2358412875571700;91771922427077961;475913312229859711;423522704242000000];
  pos0 [676523389596341;817875150675879394;550267413466282934;679714317635300000];
  pos0 [281886039581586;800320402120212806;673635245745513806;913980815907700000];
  pos0 [5336893554875468;46497833592147050;627228477789231648;37673305191000000];
  pos0 [3630585000053163;268096600294445438;514933370353737219;467535867164000000];
  pos0 [611321044634220;629409339052311960;290591135888852773;527247558923200000];
  pos0 [2595361610670090;113475387498872683;561469361057984070;6184281671000000];
  pos0 [1940123163527487;215192631793586303;891738083106307505;188851457127000000];
  pos0 [439232322857926;421615245747200534;323397747274258216;906512168341700000];
  pos0 [3446074264737631;221543158312340364;513031832003363242;967943512178000000];
  pos0 [5533709883369567;797204785215624204;944074297583334384;116734531089000000];
  pos0 [3757862045441609;208857433988320691;146264314885341505;64523547204000000];
  pos0 [7847174003746434;344061291411508386;343269788448344633;111107930221000000];
  pos0 [1344424125801848;645639461526911871;314242199359300279;808807388008000000];
  pos0 [2418533316479529;161922489385583549;635638709563488027;239508446060000000];
  pos0 [1015763323214613;832667341703640421;435698750068231108;285043326530000000];
  pos0 [1642394889591817;643278485952131886;765563811126238007;369819132368000000];
  pos0 [5620068374296718;564654066216514097;366508600154703495;686776834154000000];
  pos0 [809915814806220;898451689113477132;664902474240151052;526297502559600000];
  pos0 [1965788068806115;48276108358535332;28359447680662695;674354222054000000];
  pos0 [7220662075842793;948825679861957926;435720923998059157;840999038651000000];
  pos0 [5978600588543209;766021177751618440;84463592689915956;983815299292000000];
  pos0 [7517946288947784;121808214151834113;623462451261901894;557332869115000000];
  pos0 [312663304536642;212509292885536428;526866013435094568;828437576719900000];
  pos0 [4266189258187493;989839233751009242;333112442944378752;612933076687000000];
  pos0 [3773162066442044;266684971728472689;11755725955880236;883832618601000000];
  pos0 [683280320921571;814847608729021477;872783056647789612;988003146525400000];
  pos0 [3913556313567504;576745242313827931;578923357008530964;877702466805000000];
  pos0 [1462654573658041;271126779779682935;469456813599709380;707076654758000000];
  pos0 [1165907841845349;447508844844186895;604663351522742660;742830718663000000];
  pos0 [680615031989408;670456695508019777;150735848318720285;437730112569600000];
  pos0 [6507612293330705;981583226162733394;974887804527400089;864207196612000000];
  pos0 [970172963016491;819965669290233035;271153452948148357;145863771994400000];
  pos0 [1899410270135892;584314289059825454;957355646098953015;505353327725000000];
  pos0 [362533298097510;846693173742177284;43493729203563709;599134238380100000];
  pos0 [530648726603933;127320069389657311;692814284684090997;240920998384100000];
  pos0 [2557991520506325;380792525846373929;738331610774690521;667275367328000000];
  pos0 [2297813230111580;230353359228035163;468694138527175503;684643380783000000];
  pos0 [2689468424631714;244734224693426416;41365690503571913;402515155177000000];
  pos0 [287221248461876;698304386650924180;706863836229194353;996617011080300000];
  pos0 [3257966661194633;108971636590195646;582690392871839546;312144094856000000];
  pos0 [4471894714311672;94415273310011381;152076579980167959;453145297107000000];
  pos0 [1295592281173132;10747951695120241;82272711507410667;316429907208000000];
  pos0 [3088740922171743;940818970530960060;302051658562721381;842305088816000000];
  pos0 [1817730148218938;787964357528484187;86340730954502665;863941419791000000];
  pos0 [3173314799187793;190216109612103699;962762348642424326;669051425750000000];
  pos0 [5170300975198320;595642085407616677;352902929018036112;916965754427000000];
  pos0 [6851437190191055;942178201314036194;37810426711605858;902465385617000000];
  pos0 [5549973208535719;600473683715141727;873673141429607207;335814623467000000];
  pos0 [4616727940469358;393488769585261895;609279052839257040;638233746856000000];
  pos0 [4865029783561290;352315154796369006;716019921177973503;536548862066000000];
  pos0 [5175405034237403;332477117971862861;366776772061792829;23470594969000000];
  pos0 [2031259404068344;41147317941403435;864545443680947535;978066851563000000];
  pos0 [6388759336174279;349941700816399826;492817577398844681;354197779720000000];
  pos0 [5138742446776225;401564001060430324;835040166694758690;698640959681000000];
  pos0 [2465197387176348;623504849073767453;216093969299239927;672080804989000000];
  pos0 [1186299709682681;934606838146373923;570631289982092669;528444767551000000];
  pos0 [1041421057915595;233853113990012587;908690206157066139;877606183583000000];
  pos0 [1384776922256841;196001393410538099;579804945372805724;557638025241000000];
  pos0 [1238554788286861;392492132201022999;883308551115942467;543913432518000000];
  pos0 [1757333611304789;318663699781464343;921197058235216908;166981206011000000];
  pos0 [6724046385719511;343523126647495632;75541843560999449;456038814724000000];
  pos0 [5316194450859139;482030989774216892;55726220629754706;655878691393000000];
  pos0 [7519491633601485;765068169705375508;727704023148502535;355278449461000000];
  pos0 [4151836107075217;600699170728485954;93457433930660707;763494255822000000];
  pos0 [5039041793726196;772373843022826730;299086007567893159;738798223781000000];
  pos0 [370725163065850;308902711079213365;981607769203681716;80128897766600000];
  pos0 [1991481506689804;377381280050174606;84690099050604004;192641587501000000];
  pos0 [1562366223394621;355499942093586946;966506780328116334;644126590293000000];
  pos0 [5473417306940747;909440648785091833;647835602537521109;828995807319000000];
  pos0 [2805629091923018;197896122742306651;689976516611895728;888013627075000000];
  pos0 [4588144576142982;498997561768201004;499935773454855850;491115244896000000];
  pos0 [7371328145274920;892086303302651263;238992240266525383;413876572686000000];
  pos0 [3195362027550446;300241111948875084;799504273607848890;448923236216000000];
  pos0 [2928734639394942;4656936878298755;319927347091060553;869271268548000000];
  pos0 [3620774941895954;182171962355691593;518525967997931297;240477984504000000];
  pos0 [586531675965667;212314203055562968;212248653825802253;947560702587200000];
  pos0 [1494949971323195;115736243643849996;739535931621319531;567391410814000000];
  pos0 [3682317917172221;978558010659326179;490471177492861934;803162448980000000];
  pos0 [8795160080397565;659129354674178246;251557689740650309;574175483427000000];
  pos0 [7692554336696465;594081407556804019;737035819308997848;908544866437000000];
  pos0 [2554808148677844;653089883474784109;494399218036104838;694664280391000000];
  pos0 [173420986389189;179665292796869061;75635829503131850;858101140956500000];
  pos0 [3398088770514190;803969738652317208;592031706811770266;326067218571000000];
  pos0 [893974405383125;931336040298430842;177133981984151032;625751834033800000];
  pos0 [3418965188453945;645722102229716581;92617162011065266;595566583324000000];
  pos0 [4786416154859716;750534077383253813;721752542443531202;104817933053000000];
  pos0 [2197076400147387;626505795930316286;634743704086302204;773445553186000000];
  pos0 [1863566720075331;839732404829122774;813836430489449881;549276291405000000];
  pos0 [2093343058280821;568215186220251767;14148565146114541;295489569480000000];
  pos0 [2893537058028225;388466121913403578;512928621599782452;808970028410000000];
  pos0 [2771034966737731;92238227536814918;70610823896977455;733199921270000000];
  pos0 [2160617004387111;595001444740443640;319280672047488904;387343608922000000];
  pos0 [1838661268470062;637398585489090716;712608552186872627;534461396964000000];
  pos0 [7577366552657964;874996965984488319;539348188954357835;413574834249000000];
  pos0 [3368515381087520;716614675117708141;123461807273731054;675548616642000000];
  pos0 [1803589234069591;401382191945712530;891894900013343095;181769431387000000];
  pos0 [7524085190752683;446993410050393526;141135444733274758;786252782090000000];
  pos0 [7806043076985767;735700011797930401;16030202569830336;319523377907000000];
  pos0 [6856116097029500;456475663370745281;416741782818061550;316788127016000000];
  pos0 [845964318416809;94777602145055525;57550669958091073;847373496423500000];
  pos0 [2516733942589748;541978659827138957;184448747961121990;299514571303000000];
  pos0 [6177488419064699;18583250378278976;660871753127025090;764753412491000000];
  pos0 [6269703249286099;295912429480734327;423895189813932370;200209741232000000];
  pos0 [1295210897693892;928782898926377334;375680263669683647;802027186833000000];
  pos0 [1262757781505264;159593607636531333;320626173060520654;276852411983000000];
  pos0 [6552003131171302;248240172371929504;981323873299019559;12644808300000000];
  pos0 [809695133845261;184754271594916569;59914322293269105;783983409001700000];
  pos0 [461862148829876;224215529083882780;184857518929257468;503941874644200000];
  pos0 [2436709312907541;688433752394419081;278735684943086237;575538558382000000];
  pos0 [487920420380183;418507059674540130;626053466694714903;263421829119800000];
  pos0 [746781823026078;535746757427291709;922094005680245784;465736325226600000];
  pos0 [5514817479740678;433332592737255268;777885387228490960;158291114804000000];
  pos0 [1054502551467144;375498406537110883;43102913417663699;147164712071000000];
  pos0 [1560992327873134;548834332683980893;774410704316961939;388043811597000000];
  pos0 [1055517032983477;748403946281636323;203632028768487060;991306723813000000];
  pos0 [1009003186273791;561253674934095083;317811153519697303;937048976027000000];
  pos0 [4171388444256949;80365770281966022;813809765170887457;813772570343000000];
  pos0 [1582696034431353;872235621814836417;119846855090879333;71101449465000000];
  pos0 [3519222455679963;674082750680619464;808959874196980679;848148878653000000];
  pos0 [1576001897958086;19992300653699902;130609097525847594;116759273709000000];
  pos0 [2956587789709623;926943919504141521;407660622626780751;457697172783000000];
  pos0 [4129296387173560;424333963818390602;38817805509837431;818057992335000000];
  pos0 [3651049698792557;489264610457287299;806956853251932895;176193274739000000];
  pos0 [1037502426164697;90183771528782442;994933870049271377;24731668629000000];
  pos0 [1353738113465316;978559513973022000;739909962278858121;227608248312000000];
  pos0 [4094427948051961;360054673537086789;85585711947778607;60699257471000000];
  pos0 [2894233361013237;423668591324538888;226736971647228745;415328383916000000];
  pos0 [2666454766999008;196507121258605365;979041162532363994;998670039910000000];
  pos0 [4966046216530961;859513781358073297;599118140327148657;333982115806000000];
  pos0 [4376898107464522;943207164075812836;814314286290198934;174054392417000000];
  pos0 [4203328325643839;12986736382876619;431485755996160610;107810323315000000];
  pos0 [682260073212575;184945175543872794;489822966994369506;990003308056600000];
  pos0 [4962256781586205;237820293225982142;851607955962618842;610179291182000000];
  pos0 [633954575207536;372152814283837251;386882177915360406;250720646234600000];
  pos0 [1648593369750222;987686791201000892;35393615714553633;296926540348000000];
  pos0 [1527724445316405;395789487877030548;701367686379299399;52002621411000000];
  pos0 [739068917936970;385469001041050740;784974466314382528;103178030348600000];
  pos0 [4736246837559430;693648877065183383;645317745672387572;989508634523000000];
  pos0 [329917733100376;247498085574856903;293638819266359550;136624155136700000];
  pos0 [3725288040665356;38418443132086294;274343225668410682;636821093823000000];
  pos0 [6572576094667514;718068372361604736;416403453969064776;776111967555000000];
  pos0 [4231814811956698;29423407576498073;120611336427300988;782609383824000000];
  pos0 [2345231681482286;228591323778619116;568207987059721394;298600109087000000];
  pos0 [3502539973402937;429727871424427165;356381880250849919;878864859021000000];
  pos0 [2410950071183383;937549810246574309;365064766778804180;101962777774000000];
  pos0 [4919652717619275;361902273957166566;673068741800032296;998272128310000000];
  pos0 [5025890133876744;408245228760981922;814648136716065793;760952853083000000];
  pos0 [6942192944710034;699499979967081016;362777700214897034;52381903261000000];
  pos0 [2930847054288017;271051108604233788;54324317826364213;825490140877000000];
  pos0 [338543202378275;562367270427941918;181473887415864210;398665934476900000];
  pos0 [2302391288415197;233973105790566047;455501078249062783;422557126065000000];
  pos0 [6606434135051010;999541757853370319;229889329072595440;310271128131000000];
  pos0 [5058069236893616;32556739802948700;870378587647776307;295117926099000000];
  pos0 [4402581473882988;665626117614280370;281485590406633102;403379474957000000];
  pos0 [7377584971272031;80350120909300473;688703071184154132;572527819499000000];
  pos0 [4014144882088527;538132067298216306;868007741888314702;569067855500000000];
  pos0 [1593989106041045;947164972699645870;415641124317305184;213927070482000000];
  pos0 [3703846649117610;277330088609450710;19338893241733630;347351146181000000];
  pos0 [5006782277867077;854699673126783849;749274307159194179;979091282583000000];
  pos0 [4248524202266975;579671363999066881;748128223335016440;50481274291000000];
  pos0 [1179357424844290;811134291077127354;296310838516720977;268398694294000000];
  pos0 [5514048362431835;660044981720390071;265664607483461899;446582825346000000];
  pos0 [1794391976413496;602137758991253566;269992571899576925;891819700362000000];
  pos0 [4668843649175664;509823534775756796;191513312986477149;423801717666000000];
  pos0 [4816803641500511;571771032448676641;256195505522664074;922789549257000000];
  pos0 [773883941250086;670495346858226243;448446057709897603;712053869544900000];
  pos0 [1312635941887275;740749954417124384;124933358502309935;910735529727000000];
  pos0 [4936646362265110;938319067963834445;972047132737458449;263102842927000000];
  pos0 [1928944765926705;514749832309751560;531877347149699226;96966138339000000];
  pos0 [2552119315478653;195479095491146940;322429164895586923;747555618223000000];
  pos0 [3514853845365496;647110185062131749;587968488553478561;950743801960000000];
  pos0 [399768504390487;348952424464016308;135210878122145293;798383918468200000];
  pos0 [3724122331919436;686632775636162481;178839687395588888;883509251380000000];
  pos0 [2926635851246409;6274707094920944;251223201766133775;488528722733000000];
  pos0 [1248862948510936;341235594944428305;953993580469991203;318426147527000000];
  pos0 [2297236209399746;777480985842341273;232625465653920365;25730954537000000];
  pos0 [2990460868258238;320172997006893538;568395681767974246;742430735960000000];
  pos0 [630337687905189;896102315733065052;271857421199948910;665697488509500000];
  pos0 [780017926090123;788992418476638361;20361191936951532;726172453591000000];
  pos0 [540237706533206;536563381905273548;110108935370296213;579434948082300000];
  pos0 [1204073261430135;683705102124920562;52693329291929731;575066261163000000];
  pos0 [219631058369760;977442514985886287;204203425891010435;630043865850700000];
  pos0 [1769444817878116;947122402268437843;207784063348793658;66867933113000000];
  pos0 [5674723307449480;251919809901621645;422735931154525208;754760646941000000];
  pos0 [1388757557557436;376582038558664374;624244251219954619;816804264619000000];
  pos0 [539601770025086;527341810456381953;59350960842970594;8642775408100000];
  pos0 [1814781869268588;277767445671680840;682289447427501144;503656207468000000]]).
(** JaskowiecSukumar2020.cpp:9092-10884, order 20. *)
Definition JS_Tet_20 : raw_rule := (
 [[pos0 [51761890995450219;21358794273472116;93856993099644156;379254363640000000]; pos0 [668633673171179252;768408993565720020;656799671240230193;942582697200000000]; pos0 [108471759713036689;840752382575767128;633502704074184912;683782895700000000]];
  [pos0 [144520772864914192;98897439076176745;623265791909091408;257002288000000000]; pos0 [311290711926158257;700161726139318407;332291508548785549;713406460200000000]; pos0 [537763786181218930;777755197391378604;201969566545816679;131347111800000000]];
  [pos0 [296440804630703556;428082875547212828;603426620109531572;258241200300000000]; pos0 [46739217840845198;127688609004775994;799687311332100328;138781919250000000]; pos0 [188351872533103257;400196908525924012;8590842698584416;905319213400000000]];
  [pos0 [149191700477579195;404473580616256409;891626304180006909;86236851800000000]; pos0 [497433462357648647;329537995972232137;721554265198761287;53397380300000000]; pos0 [14569937606906734;420639397601879471;607758493418825664;634734598730000000]];
  [pos0 [273142033558988523;124060743360878246;663122844667383203;673388031300000000]; pos0 [598351580816614187;498805332145379686;545675328674620833;504040506600000000]; pos0 [95124372837659043;440968680880739492;431221451231678141;100848075900000000]];
  [pos0 [99123469344249473;464950620242775394;502143841518385131;86607422360000000]; pos0 [130532328874094959;366821936982382168;675322559670010488;391757812500000000]; pos0 [735646450414390255;352846577928915520;683719482141463019;894340635000000000]];
  [pos0 [98443540271837707;87757534732038274;564178996727172111;549901545060000000]; pos0 [769501247928329640;325737146330626210;715014698047297199;759896744400000000]; pos0 [125160783819432592;335839484341334827;301018612304540852;966801970700000000]];
  [pos0 [95342692577269378;670680576018918703;444673345818984022;749333000190000000]; pos0 [99317180880853212;987588649054636086;938579129720744815;339645210630000000]; pos0 [44777722145717501;348104509995553705;262992414911389525;197239962840000000]];
  [pos0 [225443565454207465;166213819335837870;153700764588915651;848478051000000000]; pos0 [269183806891168880;822521673737163433;513903338431458381;918211431700000000]; pos0 [453556291484273459;22861653399072738;87251657713855598;883582743000000000]];
  [pos0 [298553913350732381;68747410974576727;228454020011113455;481407789900000000]; pos0 [5795689292760731;805680565359046024;353523383591044176;252294183309000000]; pos0 [171168375351113109;672797298345761868;967057856006904337;543191796600000000]];
  [pos0 [63980418473903897;706527930864649244;979889639498128819;13717833130000000]; pos0 [253838620479825437;7199097225807588;472938862050807359;238391384900000000]; pos0 [672258057106834317;467151544314001210;797990150118478565;872281574700000000]];
  [pos0 [11284607486283070;52730921607776215;15765184152195558;539350162170000000]; pos0 [453903685006806094;382825789468603351;718644640164199760;290060241700000000]; pos0 [37052399571065092;816234012817654145;811711739940967175;86653574410000000]];
  [pos0 [477320278535947064;418195493077212622;523473505518873815;158894165400000000]; pos0 [11284721664121877;702820775724538295;615883867217395588;491924323590000000]; pos0 [505724322701425912;530688880595056572;62412621510307162;311855635400000000]];
  [pos0 [6158672958109030;278120415656661709;371186003831305645;626449770362000000]; pos0 [186769748441370670;539852181599192911;742444483827692378;157093396200000000]; pos0 [239322418522851592;903585582109467814;841189877742073908;348243892800000000]];
  [pos0 [237767260469462148;805506527276996862;947039410016523326;764111312100000000]; pos0 [95374214956532034;423856368541666985;517202261697316848;964971824530000000]; pos0 [434289908609656533;410876055344417212;107849358419853706;580676712000000000]];
  [pos0 [311675326638384056;729695899174499195;156435585902921304;554967541200000000]; pos0 [221515319114842190;534676320880056808;41454696777023454;216817043100000000]; pos0 [460071162297345796;835075405843917469;760068582044819885;318727437900000000]];
  [pos0 [124691677552896893;807115381217692641;616540836264996812;867554036200000000]; pos0 [344622903147676368;210273224531836405;276706988190831565;331228293100000000]; pos0 [6847492601894077;76528561628584876;506270120904831090;653175832059000000]];
  [pos0 [41049721085189686;808111133887781552;26225687316674820;95248776400000000]; pos0 [10063120646178966;988458797425137693;106399509461703804;352266166710000000]; pos0 [917222532306042063;28617761831171269;361565656753344189;580512181800000000]];
  [pos0 [473250730868507992;55298954543455926;934047941785185968;230474574000000000]; pos0 [458151287151072866;94911583709736615;193203667329016604;741285254700000000]; pos0 [4914288892300145;703750988182334708;352879353341313863;945303063355000000]];
  [pos0 [45757100494306644;893800089349024544;554881688216186657;650154188840000000]; pos0 [707624551954661332;782709802986021910;121248145703721693;269863458400000000]; pos0 [238236483546914782;445587579785710020;160897060930726471;201893257300000000]];
  [pos0 [211503471284659418;997569742309291762;964651153780204923;229837527600000000]; pos0 [492904845345317175;483964311397821600;257058685774969507;139037513100000000]; pos0 [285139788139836340;784009376869368558;776585177107689391;508636803800000000]];
  [pos0 [107756305368678526;188414182575362462;697111658980086665;98552052800000000]; pos0 [169444210446960207;889927599472515841;195884884586749430;558635338900000000]; pos0 [137336443025252168;83603659332238557;754030139232908725;468886006100000000]];
  [pos0 [43577582693845197;779084926489068926;487666001498856239;536362033240000000]; pos0 [12032471773073112;572669799587953;596245175593523016;467943584570000000]; pos0 [10117035446559216;974810259639905081;508564279949733324;977820579530000000]];
  [pos0 [597610635296984794;479382937843540035;952784174983537852;286200956800000000]; pos0 [84547550905560317;534974874279998435;982540026429079957;798891837920000000]; pos0 [310528468342315018;455850838187868008;645626893175947131;675424655800000000]];
  [pos0 [313634463338739061;652923135115402708;23367366216249398;742890251400000000]; pos0 [52836701587879850;316128358130838190;124462498158592729;702535353370000000]; pos0 [305248363094916414;690380676206575444;851829283747313865;665781792000000000]];
  [pos0 [2765126393014829;556638670952551343;557413521568632733;629100462982000000]; pos0 [421601595064283424;625641089478503800;526842663447401119;430259243700000000]; pos0 [106358898675946244;601266119256785547;142976157769258586;613240008100000000]];
  [pos0 [8757229789263022;302417202887438158;191788532011573695;850641823231000000]; pos0 [314094180480929411;155485465993228891;889600288888370020;472661916900000000]; pos0 [55896252836115417;707167369389661502;331547312500638791;498730194250000000]];
  [pos0 [6835691214710020;822142941391360353;210468247387630342;179244201393000000]; pos0 [588181920145098406;956403201612608380;646655016893520899;385961161100000000]; pos0 [44980779618563127;306431767598333530;623327907276928199;442789874320000000]];
  [pos0 [11269922786973666;333664258645458824;141870478100135989;511517378070000000]; pos0 [462631634005783800;625365361959220990;491011972847730492;662523438600000000]; pos0 [457879089566950472;614061627810017716;809547658364582410;181878531600000000]];
  [pos0 [5197719831154271;859287078838323997;902281430767748372;663714694480000000]; pos0 [145124295115864968;237850458980687231;504831835157953557;426567168900000000]; pos0 [10945381603918039;218784298593088460;170874021157374172;362083634220000000]];
  [pos0 [454044895900958934;720690445343688954;702564525792987206;900506442800000000]; pos0 [65130079642323507;640922723824316299;122732649994790137;695495483060000000]; pos0 [471439529749240129;820429507805480819;189323921502061599;235036614600000000]];
  [pos0 [99951490349267776;571950728840440833;404560079605027315;675498864680000000]; pos0 [650128172635759816;170498764495199120;42444183671291310;349868056300000000]; pos0 [2908756243317549;319412169764359922;245172366751418074;743145194234000000]];
  [pos0 [1821967329325632;201147442055099750;938048237376718928;535195648541000000]; pos0 [5971139180519490;527764644466954715;599203250414334058;868679330085000000]; pos0 [961449588681708083;168507071936603665;595741420411755381;104866396800000000]];
  [pos0 [47335158402213620;862849689475946347;972650106421858348;789291275770000000]; pos0 [553256739929197150;721237706818277503;869109882125082852;982615931500000000]; pos0 [392433514905387787;380116967629311160;189110653277793919;489518906700000000]];
  [pos0 [852466349559279872;224414663250470904;878525204822720755;885204770700000000]; pos0 [133819856845083912;214805216766187780;346565483510841119;95161933800000000]; pos0 [6401812143118802;329605702682136405;20353120573130750;985191171050000000]];
  [pos0 [971720925760510280;608358514823969083;982048609134000814;307513916200000000]; pos0 [11335804807876686;270807152786935340;829160141699608120;370090623840000000]; pos0 [7508331761305823;504728728963546873;37324259957166698;573544298982000000]];
  [pos0 [53086078834863640;682801857597728451;35317854846560823;689088649470000000]; pos0 [309716592839003586;441607602404504751;261119659180713169;48838974800000000]; pos0 [444294779450791676;552306961480618991;514567669265332874;595901415000000000]];
  [pos0 [149289617032257392;186815003247655526;969882672532933606;702105548200000000]; pos0 [832135168506938238;849740864781630671;177796043937508632;756764594900000000]; pos0 [13013898051000337;964523573923207301;258156897698806849;961504967100000000]];
  [pos0 [342404340353925078;89156029635685261;162031819177902318;339960176600000000]; pos0 [419841328807103594;408960306120926064;873523151077077447;634517515700000000]; pos0 [228700666438867449;306547362517165208;429935435010222707;538535336000000000]];
  [pos0 [225494209479971530;741470911975668292;359607968322669231;355921358000000000]; pos0 [576545051020045240;347433096085938696;276776579566791381;113533422400000000]; pos0 [101018881578417961;479140972115803316;989707629395924630;921824987000000000]];
  [pos0 [29432919412063830;401237252230125878;371271814244104132;561280637870000000]; pos0 [568997286972586350;308993800243845474;108597827557623302;888020891600000000]; pos0 [202148422007919886;274120925135913960;952945555470725653;707735609600000000]];
  [pos0 [588251834483774234;496796766766499729;894351504032780685;249127134700000000]; pos0 [160898103333606616;335373767869910821;373444154472415739;915895895400000000]; pos0 [94371487204815670;87191866758789311;141478702213591948;646907353620000000]];
  [pos0 [12680848722426455;855976912135410667;520594567237344785;381505943280000000]; pos0 [280474868730557074;994646389247567683;227583887781905659;183986663600000000]; pos0 [138272217224030775;850691871274162136;577080555971476035;681477974300000000]];
  [pos0 [526833593835082915;899918407343295129;497359746093192350;486452755200000000]; pos0 [350936777633886580;271033375532328834;778140821320346614;277543531500000000]; pos0 [92749638593957451;54229896211256107;31115023791553739;192439815230000000]];
  [pos0 [103534725603017245;772803316558980555;390239666548497191;332216927400000000]; pos0 [42127465829517868;182430534701409074;418529089469858274;341998320200000000]; pos0 [692591015102834216;296292072675030526;390863300157574068;833397554900000000]];
  [pos0 [120655711728376547;961424045661157314;179179226847931448;541306447300000000]; pos0 [77356649302796578;514841777848628037;813504445164649418;842298905090000000]; pos0 [799460857105247661;18346168478225300;833259771237222331;466003557500000000]];
  [pos0 [48806086492955869;993646192026090347;468680964854779944;99906150870000000]; pos0 [210960000094948370;917369940457194901;419680972749224786;816508003700000000]; pos0 [222514989571080749;191036173282679312;379478748463551458;449947498700000000]];
  [pos0 [36063297942804835;98174352993094482;562454611697326925;11950131150000000]; pos0 [127822372170993790;413848322529546239;360220494280554120;824211994900000000]; pos0 [499534850648473265;647219820610774922;398734827844391923;204275447900000000]];
  [pos0 [15256146133576500;809826081124537195;281128295185108477;895031505490000000]; pos0 [6003620177660945;468113812423019106;531383968115932500;515535196419000000]; pos0 [50342113792048042;207938257587064526;23657621785426107;66350645350000000]];
  [pos0 [3455700953823187;312837772469361021;681774348420243877;457208952858000000]; pos0 [45141704000026185;927323599858191747;391275064953917437;10614268140000000]; pos0 [939512537097174363;696432126322402123;257452663272989438;16463338100000000]];
  [pos0 [294653447635680035;72835705634269251;443356936242045014;32242809400000000]; pos0 [476363465388957845;572231667456985333;155992167149567443;849545206500000000]; pos0 [181446700468785038;571612761632869880;849218193527192435;862403117900000000]];
  [pos0 [630418999789200195;975125215828111150;130565076552274345;337062738100000000]; pos0 [308683631485588293;389382527159968455;200634577499920906;328054118500000000]; pos0 [52311858028803038;137063361797765149;153516895024211992;644049415870000000]];
  [pos0 [14604731884410838;830527333247520683;504828739349738120;290514232370000000]; pos0 [62195927789256793;568339488734217602;989873389595428694;142960968780000000]; pos0 [6993261494587333;164853749896348660;57590421030351316;711590224529000000]];
  [pos0 [11441593755793089;353571752887567021;438822476885696561;812332458320000000]; pos0 [231557059779416184;758310146269993224;75028228818842661;718929573000000000]; pos0 [746892999044710826;198296731974426729;280734404852465394;568438223800000000]];
  [pos0 [95109226323498872;191146544694674855;143791503776826;773983174930000000]; pos0 [229515226349684377;896703668523389582;552146901458155003;123380257600000000]; pos0 [562289518720671667;173378641124261758;482043679283363988;558283928200000000]];
  [pos0 [74955677385229083;302375663682633543;603848842585155319;732959653570000000]; pos0 [786047781193714839;109359679568809484;874891513325587837;610233368900000000]; pos0 [81030887389305949;574988649188551716;58563638841546106;687916549940000000]];
  [pos0 [238733757628697247;805334081998415265;518011045013510618;415052452600000000]; pos0 [45575904940831531;722040931324489575;641762839724075853;369185690570000000]; pos0 [663655526909191652;464943716467611382;676548141435160175;759566576000000000]];
  [pos0 [225741671989020604;325860638517786332;810671366574901595;935068417200000000]; pos0 [720122387778443968;586516219736098743;288243877258890078;893067468800000000]; pos0 [28842337460205485;663551864890124361;455477727607431725;254007210710000000]];
  [pos0 [485226446386850307;941579738016075533;962852711534943568;109372708600000000]; pos0 [52600038666169205;17738408679248209;799652264336700244;322809361350000000]; pos0 [3748345476851786;901594217285811259;808233335713311772;421610955403000000]];
  [pos0 [53362184985588556;32083936875592946;723893944654554303;367841893890000000]; pos0 [141030432599132652;281976949634328416;14933973566042379;118340831500000000]; pos0 [796284149926275205;408366369833144865;301132269369794379;440324295500000000]];
  [pos0 [5316580874929026;711006189064457465;28893480853276105;147261004543000000]; pos0 [10896425815663724;768479971257406648;306906218427561555;826276221250000000]; pos0 [788664332851460805;999635779102564565;172199780889449429;562202843600000000]];
  [pos0 [520665882799600508;931543178792837592;831284914357790645;986169722800000000]; pos0 [111783351888427560;992928219242537753;861355792591224078;27188903900000000]; pos0 [191225146841316101;213905997522062461;879790729135149226;601343412300000000]];
  [pos0 [323360352021788088;514090797585251225;478255497184855211;857236248000000000]; pos0 [214989218385985864;793796592923432874;553824710395754380;516157321300000000]; pos0 [38282813824710397;932735510464308124;417781921834193186;155125603020000000]];
  [pos0 [226132865369377123;850600716738297362;811931306207694474;937185992400000000]; pos0 [31637741515951744;73899890495322810;10152274965940194;997933571360000000]; pos0 [600139829724191551;672931399124252717;4629925544038342;933469092700000000]];
  [pos0 [432058360675372931;114304971236626448;804845226878696034;462018611900000000]; pos0 [548003383789152653;366857501279774857;28673040610726376;288529499700000000]; pos0 [9282029967344873;223434076307563615;598431086586544021;937658705114000000]];
  [pos0 [582768455583911819;335899208834714595;352547455909282661;598422474800000000]; pos0 [395285711509531928;933032379100747399;954829481024050552;586796600100000000]; pos0 [9053274750857095;119563243050363759;144594228954694928;196730759337000000]];
  [pos0 [122800161923291197;868543675993912489;132004521123163273;361928394800000000]; pos0 [462386807809716530;458755073053485987;864305891624833822;258261571000000000]; pos0 [407846161011260451;285034031551617173;662172633891098530;811880166500000000]];
  [pos0 [1279438767825376;767303224923859009;199640241034225531;148680087780000000]; pos0 [181866689020044684;986987590040740258;734997851321019049;693426452000000000]; pos0 [119745279170855167;958779849613077352;369231798857872093;989068359000000000]];
  [pos0 [385321700262586829;621216352335163951;668713176442126080;846025856800000000]; pos0 [58961507115535779;514096372567054092;234574338545852711;397689426660000000]; pos0 [33820391269046515;561311452218988360;309386452992446546;752542034520000000]];
  [pos0 [338260361483280065;450781776091005695;539300968040699193;578298356600000000]; pos0 [219584659423784536;219152316658019590;763029621643461513;92342494600000000]; pos0 [280982005514986192;786155041244682381;112335812263496998;330835282100000000]];
  [pos0 [542369595956933793;905996149532307220;453556459705722577;214927435900000000]; pos0 [55416741770012251;244883108830057476;918932132592378554;635665326350000000]; pos0 [34809471220403839;931140394588852803;191816985165585755;895244974990000000]];
  [pos0 [830167722662046236;714089822726285956;687335332243062250;174746958700000000]; pos0 [106416445331161860;809146888000551199;541023701277628109;313996081600000000]; pos0 [33121948807420134;696819123107496726;178914966595660392;142265877890000000]];
  [pos0 [293008276160434668;156310124389201310;44448281255597174;443739967100000000]; pos0 [455055426468360325;50405729143058270;620217791397605998;634894597500000000]; pos0 [96515597926670124;369067834595595392;270259828111192784;208152360440000000]];
  [pos0 [7112595066475316;213845789406590555;530767446723989566;725078848405000000]; pos0 [601931355910744390;174829062533549679;320625935524668101;98568434300000000]; pos0 [351436673100793965;219191954969073829;921214191528494429;804275593700000000]];
  [pos0 [497413098260682734;282706008956626426;723000849565269938;432337756800000000]; pos0 [7425507765526787;587824805265439837;343186236963588532;556908214145000000]; pos0 [3470938986406548;210384297859743304;485860184216030476;730204703191000000]];
  [pos0 [794676728056451728;828664505041950886;185208078247216452;965586072400000000]; pos0 [152284491978813052;498613587291767064;837026650272562872;738677013200000000]; pos0 [49681568577419716;605598340636579712;902478754800353682;162316649010000000]];
  [pos0 [10714600607500925;696335875094490622;52516744698625242;88171453660000000]; pos0 [254420178394653110;205421298238585598;892394258600776209;526620887700000000]; pos0 [11770590763936135;375709031160357334;684453563534598133;742142636390000000]];
  [pos0 [180934398856730938;551868340102721952;521741361978482047;186623048800000000]; pos0 [37827331582645227;270942819089548319;16788476445067901;3193823950000000]; pos0 [550079067770100588;175726415047456183;207850139786902731;812825160400000000]];
  [pos0 [198832290718404981;529484152262512149;762752991254027552;737755007200000000]; pos0 [8462114953086817;117249786456478857;609418553797771562;399573996531000000]; pos0 [781672648009607754;872785775338395023;168931656601533151;576089957700000000]];
  [pos0 [601690374976010507;584412128190652558;167690676193129146;212147216500000000]; pos0 [6122659699897681;845611578775041322;991232837433743088;174044444907000000]; pos0 [373542104112536798;970332491629720367;103931000664894054;556928228700000000]];
  [pos0 [172623990815700512;864597505821877401;429954848428536536;749729870100000000]; pos0 [8391951686465747;8085802585028681;805496634852735848;639066261280000000]; pos0 [522042399738810757;221193336125796481;93897295294449168;546974081300000000]];
  [pos0 [51421807584717493;93393246165041859;368503125472670553;332956836500000000]; pos0 [79948240178755619;677742825166982163;141904982448466084;999574757940000000]; pos0 [806660752250421550;10309865255501513;9810916456810393;143831604100000000]];
  [pos0 [827210441311200470;158811886625917010;725207858073499531;686617094800000000]; pos0 [58569361903621683;622613654851522048;707464974201589002;457031079080000000]; pos0 [55182335463191585;696004396796387382;733554574992819177;750939798580000000]];
  [pos0 [41733897721052814;461683113598288142;413817586760088529;399412781860000000]; pos0 [120968713594108034;778459906327307273;102576692583116894;727550221700000000]; pos0 [17935534380270546;560955191913851436;20426355507369100;408994430070000000]];
  [pos0 [20142844194951954;738589564074075185;104657455579710330;536514066560000000]; pos0 [10347159437005426;588050797831720960;503716501936888439;35709376720000000]; pos0 [967841593146524286;388185508409467066;17367039704525105;365683903700000000]];
  [pos0 [337784785177290926;25577809382556702;187425440669775215;249227640500000000]; pos0 [523313391616027345;344778585401180759;713905365316398392;653358962300000000]; pos0 [3717363200149410;792819049413476602;254729887942707823;911919677337000000]];
  [pos0 [9084114942455479;546582965656302395;89122426400440460;254845016718000000]; pos0 [266934688761183576;872198271031335683;446388447035117597;54462024900000000]; pos0 [496185097991611603;713912368855693719;880956928446870682;557471016900000000]];
  [pos0 [6495578924823791;939700288884210165;59125664235405050;52097717603000000]; pos0 [708719030679035531;775724531536959837;251566345578760967;438841663900000000]; pos0 [8244439842430231;559107225646581633;264441699222964122;851986629561000000]];
  [pos0 [599157094364579748;210599189145629850;422658826673234079;554107778700000000]; pos0 [207184505690297646;985948354562759028;437356743027636843;663593030600000000]; pos0 [676515710143533;518141101451849578;503184677415436836;63351410726500000]];
  [pos0 [30311930143479163;236758044791826013;993746174443577096;50017231070000000]; pos0 [900878879174510672;192171130515618335;933492767562814818;928062248600000000]; pos0 [35365091319042742;288324280945389118;322120969053635873;597807360000000]];
  [pos0 [51603292490602853;398206473269869368;695979313512831896;975332353800000000]; pos0 [89406359050225413;266995903125186602;975506740459218857;618999573800000000]; pos0 [629359764587368367;178678414291530319;809738559887518639;429293603900000000]];
  [pos0 [368416775189796033;45568294213959923;953107198748909303;854047097800000000]; pos0 [246896780691897221;517703575273009572;652012270201966842;600394141300000000]; pos0 [5105075886735242;413878246235257702;103759603458701061;470991876314000000]];
  [pos0 [11311673146536214;360296369781013437;432997960516432518;174140908810000000]; pos0 [550813209234520884;62773971207573179;384798511030511346;464445913000000000]; pos0 [5753951427008825;287045262740255680;798134393962297179;159079924976000000]];
  [pos0 [859758476683185815;717439858447913146;545636416033643348;555969039900000000]; pos0 [55607023892420127;363707310934288123;781068101804051496;543457819840000000]; pos0 [75645489220681363;729832834910709602;305006723984083286;154970860140000000]];
  [pos0 [9508442662837031;248809356757471414;649315712964529926;862668670917000000]; pos0 [661607199643559521;560154183216289029;295888372469568791;669231835800000000]; pos0 [322753917420089535;181348680915406502;731280171703893528;822632821500000000]];
  [pos0 [33337021577044203;23156498865595955;973989763219860271;769474464900000000]; pos0 [4554412769692337;556117543384786620;54608159378325088;620881646043000000]; pos0 [146636937398802382;675946552483283665;59315103415935199;709107245800000000]];
  [pos0 [100058933745929297;908972884562781289;857838629857422416;509288802500000000]; pos0 [73214333381807288;572965051947623453;201493585334699064;124156164610000000]; pos0 [519856389122123144;201665208037471061;589959228137413631;553351708600000000]];
  [pos0 [313164927041320927;901560823482990788;940096988894421003;537002343300000000]; pos0 [339828589185659440;165242811092297703;425308665054830607;875043244300000000]; pos0 [306829006610860289;689583511195381457;716730135108297934;526187036700000000]];
  [pos0 [68005854900356714;278921383196792974;202830540861872433;660492499980000000]; pos0 [714465819475146042;103549797735510772;355610027551998352;807601029300000000]; pos0 [176945284505356177;416654088698265402;193827129294996889;177238147200000000]];
  [pos0 [28556176874403784;113006668207934486;131543151360276104;914362778980000000]; pos0 [817194997819119819;272343547741487129;234273559806027146;30971297300000000]; pos0 [48004151874448133;369073369214978322;807717032178017646;44257403150000000]];
  [pos0 [11682255282579913;244937708017070860;486516384348088991;17411233640000000]; pos0 [445779421395807874;797639653006754802;665867582617717493;253814421100000000]; pos0 [210490333122767774;829481817018940604;555498774816002053;257798489800000000]];
  [pos0 [849525516920851609;420857544097973029;187713386542653842;95065055400000000]; pos0 [9318727090585730;187221065795155584;605102207591007618;16158789702000000]; pos0 [6401433978781608;895195882127489624;53745206431318263;844198627576000000]];
  [pos0 [11633462915119328;102614174303933829;711284883183598129;732915508280000000]; pos0 [552278357722799476;295300607227631052;220683165280986003;153641479900000000]; pos0 [326931124022847989;231948871017735968;887481036028224937;185183158900000000]];
  [pos0 [101451738707458636;599428372723600324;599328845535388701;316476957400000000]; pos0 [535005304935160418;234850497865047230;787020607965463186;821138432500000000]; pos0 [196031886824501809;466671563879147795;728668994881616627;85829366700000000]];
  [pos0 [8741768120621972;620723632110621236;695461318983263099;93398436203000000]; pos0 [121988828596162913;134299652043544118;938855526171179149;859551625500000000]; pos0 [861337165660062068;546235283975205469;261448408629397166;936725961400000000]];
  [pos0 [361624635515952780;800491524606025653;685814583165172031;953390889100000000]; pos0 [12676501560157581;354483363530393641;153687736721011308;594922665170000000]; pos0 [11422277260972147;535387607857759667;823504295243880266;638994397020000000]];
  [pos0 [204305889908779355;119886263510325942;372974215519057982;167768794500000000]; pos0 [499730580471178893;527702064207778534;789362044221293389;592987437500000000]; pos0 [183978672326326203;265952678185287112;584603331270541386;927329052900000000]];
  [pos0 [7665248554209206;319318488526478920;952970874529858736;811297832460000000]; pos0 [360418930196060077;707205876656100992;929438568085029788;797987953700000000]; pos0 [591747863050264477;997618456818237073;244776758520394863;740693907400000000]];
  [pos0 [235749085608648943;250780731888357133;739976508584378854;794319213300000000]; pos0 [9194848490708377;148545719376895755;136818745322883951;317454356331000000]; pos0 [12464353294557410;424088896624627657;392206556396782063;689774209430000000]];
  [pos0 [37381442837734828;416885373188995517;735870308521321937;612851498680000000]; pos0 [583834853083468483;607761489481783990;953211200913862352;89425521100000000]; pos0 [82079943426196030;578949989447213735;935340931604235423;469356436550000000]];
  [pos0 [5334961623043074;96636999829900413;87270432426692491;521080595685000000]; pos0 [672800340717532895;108384515230987636;684521707953921453;312114878900000000]; pos0 [206960183308392464;660652157771035094;153337302213717220;374820597300000000]];
  [pos0 [695590769003544729;949083797765265452;686332646913755036;790128905500000000]; pos0 [84758875214785137;882223428999706270;279714502797891552;425261183680000000]; pos0 [138434778235087858;107358434441328063;43276298490056331;867059198900000000]];
  [pos0 [163047899781529736;41065407048113784;225213965946899942;860270740900000000]; pos0 [5774909699740583;39440482181435622;657369686865809783;540887839803000000]; pos0 [403683840805147497;669785255990814348;32316878449821323;628394399600000000]];
  [pos0 [232243457165525569;571613226589538250;797124936108814448;636104798200000000]; pos0 [142242870560741561;247177796227953039;220291135893699711;870791733100000000]; pos0 [572591559148599445;390471940335141998;400871043595519294;817914945100000000]];
  [pos0 [543738077009805785;849270970931407239;156426184811177353;71850507400000000]; pos0 [239918173126401304;441230291257667840;130906900679497593;929176498100000000]; pos0 [39412880508171192;505059231069964724;778563292932636822;741080334620000000]];
  [pos0 [259771446257010427;327244907478601649;373367674165204549;1002887900000000]; pos0 [583190220627275700;601125792127810429;894726371923574741;661253999600000000]; pos0 [151895781749785937;441227746471575259;277665950963049011;775585755900000000]];
  [pos0 [933869480456733364;738009432136414186;386111398022822037;550798266400000000]; pos0 [8823288829974026;978355962155503454;689206623378698278;583213980871000000]; pos0 [50131650023654541;500387196167887516;499604338996779386;757869035120000000]];
  [pos0 [259523232685014751;789465645707227537;460744849194457871;495210621800000000]; pos0 [266068150502737572;705394078151307722;24772269520323571;459838603700000000]; pos0 [361540812482333332;924525077398751940;63801731474488721;535381695200000000]];
  [pos0 [421989979660508403;851659180621477679;112627220837959470;985778565800000000]; pos0 [11964285297074473;333138455349502597;652616084379340085;980205987600000000]; pos0 [308117814274417919;795840030892569537;257287174502688947;905181786600000000]];
  [pos0 [11905377156312776;71310862957973630;514947732527856538;541311364350000000]; pos0 [717358509881000880;698100308411677568;271059919143742146;381811565600000000]; pos0 [51175022237167211;464318520896249064;592577099765632291;589029010470000000]];
  [pos0 [644851845629384561;155203594634078351;507309017653557592;234611893800000000]; pos0 [58624141424782129;821802392482780811;180661629637084651;730886191220000000]; pos0 [6405423840994858;494837009090230771;177429526785495472;283640856380000000]];
  [pos0 [95445373249238074;684913797538405064;910759137466013108;374781684490000000]; pos0 [842303977706162698;27564740508246034;844342012113219207;873363396900000000]; pos0 [15671038248331751;349159428203364187;30268063463338939;12567918240000000]];
  [pos0 [255309696203604509;420719739940809410;147921284260697809;333486282100000000]; pos0 [37671395378847948;901417023782371253;578215933812862588;818461747480000000]; pos0 [46486096697311064;307886755852306312;519791484162681799;663232428710000000]];
  [pos0 [9368716943999021;331185826356243072;36128882863987872;977914064879000000]; pos0 [110593958857916419;683852609804200512;80889754682113801;217721918800000000]; pos0 [830245953931470411;292214109209630887;68345471925084404;803087533300000000]];
  [pos0 [131002182538871713;919984080109490175;239799295285071908;299788929200000000]; pos0 [41808147394192711;69806515128351000;845919087226358303;532610427750000000]; pos0 [35042182522238301;968446253815559243;936576220164228999;125000199210000000]];
  [pos0 [46384865536292142;159121650912213739;253474228779542544;603650268970000000]; pos0 [194914654935830211;470932099725802604;105018957262673392;522278243600000000]; pos0 [686569645606788847;329544981223216739;849892536416213461;546324729000000000]];
  [pos0 [50343718363813998;571085654756256297;739767976574122656;708961516860000000]; pos0 [603054691048842057;339120987602254884;986443376900049280;489962805800000000]; pos0 [242096699001741996;75229026580827610;130166171526548574;750211235000000000]];
  [pos0 [436339995123547856;984498364304643709;526867962657059188;998872117000000000]; pos0 [6073811564740234;830486411506678484;703243147111393775;583105085465000000]; pos0 [116230537666613141;874091447679132760;961145797601605778;931210787900000000]];
  [pos0 [540138492198715553;411678134287406686;870783900168984515;597537710700000000]; pos0 [96191337457501775;527685076234743727;774894329065558480;77798988950000000]; pos0 [94593624686728324;966828747719097757;94678123284438347;925619642240000000]];
  [pos0 [234980061648205178;706469974570492830;893793084457224466;965993585800000000]; pos0 [153627095255697668;242384307978773244;686968440439622899;696256936400000000]; pos0 [5789761886620951;686775567009252470;408242548909480926;342056039875000000]];
  [pos0 [752908479120143685;879998164278643181;402730844353283880;362446726500000000]; pos0 [4364112028496217;252605973552656233;847550792412745474;533894893596000000]; pos0 [216155243559637401;305273294845981767;777338801165474843;430634296200000000]];
  [pos0 [586109932371307899;20230339432531490;585315710852842670;282206529300000000]; pos0 [8846921233996608;125424512516070076;562812644477524465;437784591794000000]; pos0 [69360401666165334;505178117202462885;345578842505804154;771340722990000000]];
  [pos0 [158328802217334961;990135320219547140;53309454375322646;133441466200000000]; pos0 [9643262202396210;766573899338198818;724988705864100919;860521803354000000]; pos0 [711981679957431695;894248147218639119;602145801054994199;814451575200000000]];
  [pos0 [40112126021465404;60367757946029846;754970147947109810;443158276470000000]; pos0 [630589373142109265;911541677326941529;131578162391884524;853361742600000000]; pos0 [14456258101585906;662813217749145290;200857166300493166;640859947660000000]];
  [pos0 [665406686960981378;171194223111886571;228647328943735624;874971251500000000]; pos0 [278229823131471620;473491564693131789;867694308805500988;667043578500000000]; pos0 [783305556763462;323811546518371062;31556710807369882;198814671816700000]];
  [pos0 [376432629053906961;695956239202018696;669780714139294175;67772845900000000]; pos0 [445596645373187468;766515336828142892;466085037131314503;557659981800000000]; pos0 [105126042214291487;22567991833066275;855552187671610316;184617538700000000]];
  [pos0 [418465561223841024;122364768011570104;756187813079701719;730230069000000000]; pos0 [65171764284549418;715095643141688888;877546043002124848;596935361660000000]; pos0 [294064231374999683;678828127954992740;619404511070597112;480262288100000000]];
  [pos0 [390052429389074302;938188837094788010;471610718106925555;122380030500000000]; pos0 [254963191857774017;18834227493409501;64532115802194720;460591207400000000]; pos0 [278367311825409778;335198578363812638;397988485305123677;150283609500000000]];
  [pos0 [1232075172825196;999773965505204704;478951488147935182;117329163976000000]; pos0 [49427975158603407;489965629410620876;808747616882353427;871993390920000000]; pos0 [430527868899717217;793186466473888969;501848875028605360;664776313900000000]];
  [pos0 [397242160572179208;217793609396736827;87345249475692263;635174454200000000]; pos0 [474697728068545721;202283389845412252;937142568286063756;298540473700000000]; pos0 [115817932776726982;574484699621379613;719165701931293454;945781943300000000]];
  [pos0 [213940132957166639;783629654095319120;743341177187825119;837149015600000000]; pos0 [42418583515966879;875512387917468251;702448254496366045;126342243880000000]; pos0 [734145424033947706;569128362091349269;738054590349350183;286515286900000000]];
  [pos0 [182108404053913813;531122168634643505;197527364770049685;910874204700000000]; pos0 [773388312267719910;109376409528482939;886887385499599729;506811469300000000]; pos0 [2077984681257305;680750716285372144;960663727841655740;884026539734000000]];
  [pos0 [118075095079548836;75300640616453949;609543941807351115;287262270700000000]; pos0 [471498090173067611;386194873938043082;737687191504137771;920216362400000000]; pos0 [367411425501351440;46925218688550558;760778607678367720;592189019100000000]];
  [pos0 [718146258327307029;762793570291768757;565220809627275794;731973752100000000]; pos0 [104013817771204802;653204130932193346;536979714646913149;459457029200000000]; pos0 [47313693199785690;252994263612678861;90831223154097247;183149111980000000]];
  [pos0 [2808613061338581;568740586123949384;487294773059186426;453627960114000000]; pos0 [50797482594983740;122905934328147274;687968825066070906;752928821360000000]; pos0 [827286281462560988;35900020874466977;420087257144856231;519851587200000000]];
  [pos0 [66213870232363162;75223342106430547;474201463767720176;973588198990000000]; pos0 [200446862708534825;322383205473896439;392392731735842294;87988452700000000]; pos0 [43668266772218952;915564475362973309;186151237262733307;784960352610000000]];
  [pos0 [175627172734840294;86751226326363265;353530686591812533;934199437200000000]; pos0 [7525031127982804;474255101794694688;207618873771420264;373762261251000000]; pos0 [63525643162050851;940190534100926996;281055869674947946;480693289820000000]];
  [pos0 [127827011485927717;127238865116587094;690981027910376717;495644665000000000]; pos0 [128250780168758301;796515817907330444;380816284648624071;45162960200000000]; pos0 [11105822155021895;986546155060342683;764041188294177105;799099312340000000]];
  [pos0 [51682933847261179;765086026907743972;12273712500662457;130818047890000000]; pos0 [46419222246274154;942281910792689717;592857999036556119;934582276200000000]; pos0 [32752744151013580;212408096690444435;363311933487710038;86212190820000000]];
  [pos0 [5693626042203222;448423334543101983;867012641254887306;446497589560000000]; pos0 [777859729136967738;125079472747594763;113440523255804644;318735179200000000]; pos0 [91140616900499253;966002861413288511;803295601633137157;481998324770000000]];
  [pos0 [325641872974625135;286902697354441235;298986388506239547;805905459400000000]; pos0 [616099161725914106;547169124389350566;226622911635042549;178603065700000000]; pos0 [9668387803010784;161928451676137252;148975237406492938;907710472223000000]];
  [pos0 [521168735454828167;427216066735434979;346838345787922006;296951568600000000]; pos0 [138577866727136709;362530739236042336;117781259118549755;428379303800000000]; pos0 [3721478721467202;354501977822114748;752117461540464548;806919617894000000]];
  [pos0 [39905559433290140;739945496777635209;408168657324482105;925391428410000000]; pos0 [57647710900485975;211310466726345625;503230926905343130;718614797800000000]; pos0 [890942827440682145;471217937588883041;753001842419014288;337981430500000000]];
  [pos0 [45804940755613762;14602191986476730;332928798506386596;17026754740000000]; pos0 [4723685874891335;599623430252382536;122349170568221840;747569404252000000]; pos0 [271263760906859672;735245097702952302;966317532675110661;214000798500000000]];
  [pos0 [193102625272227650;67232765409824500;502990458143448946;429866434600000000]; pos0 [310638457094580842;986337940226417141;293671946430849935;202200399700000000]; pos0 [132058518292865770;933001965532333427;569360693184083330;923054978100000000]];
  [pos0 [162635354997075396;61641576098299495;526792464181714240;583540776900000000]; pos0 [626034965848803807;857301694873414654;155052839070128506;260805978800000000]; pos0 [17989389474276122;726737307641762681;715235918901381752;448376165930000000]];
  [pos0 [191862743364297862;29816804369869508;722879023587475493;114817739400000000]; pos0 [48586562637880220;547598110585062844;167755958698739776;712588594790000000]; pos0 [4301467292344719;557633813301966363;364521601843077131;388232145628000000]];
  [pos0 [11882323250891547;9642442378749974;500317468126165895;446562043560000000]; pos0 [931262677853303516;55305194709327346;866710579415337522;314590724800000000]; pos0 [1427347115464506;80041135589397957;207148964672448530;202784984403000000]];
  [pos0 [35675579105870307;128520283417866573;137526756331866124;611120654100000000]; pos0 [41388940661274053;646855617347182534;283642662661018769;725292607860000000]; pos0 [192456278761777647;274106985632313969;533432047974370738;360834691600000000]];
  [pos0 [298065786565447405;786559391169986938;589241099694752726;3571355200000000]; pos0 [10555471592781362;304391325454663484;48155697717948404;896115353880000000]; pos0 [450192929208062714;965895730819365663;737216346537952551;889293382500000000]];
  [pos0 [99496695726862123;197004684304101917;902098181818640236;372200052880000000]; pos0 [546441618588312883;286742480045017416;880538967453917693;831384391500000000]; pos0 [114300835787737733;83031282597203868;805175452962219636;611561413300000000]];
  [pos0 [748391134918623840;676796229129464182;267378536483115474;881916988600000000]; pos0 [60251012597332713;958197589106000624;67403882479787504;563014819030000000]; pos0 [186573583394793211;679957599442237363;189086842367326402;260326356100000000]];
  [pos0 [10310814737280309;320628240763071277;925282929611037357;446036834860000000]; pos0 [102576010458276056;164041320669338874;324688756115403233;623900515600000000]; pos0 [58314327975412165;229644673623649473;776183390944630240;399469097200000000]];
  [pos0 [11478725352578705;716982690934937555;201588456189585122;147387745050000000]; pos0 [129856437605022308;196677601948801139;815938183922213252;173089578300000000]; pos0 [731107090759299127;553609038637786002;844580764932651807;698399969100000000]];
  [pos0 [13331020102518939;565876689906996359;577719727589229467;929325418800000000]; pos0 [235796674754733617;473309445246368847;244891557988701440;383767063700000000]; pos0 [619294168867100565;449962164681096523;724337144855175637;734584531400000000]];
  [pos0 [19449900092484231;55703544911093319;365392419079425663;886026581610000000]; pos0 [133492525481728938;407257472881998153;371884442386532755;740142586500000000]; pos0 [153908618535528158;660355170384736285;559367707518307956;412222017500000000]];
  [pos0 [5498557769617641;890524358265199704;67756551910280453;655905141902000000]; pos0 [11269284008882547;592162209475140832;193376182329857423;172976929700000000]; pos0 [8685204477653815;327847586930202194;282896080914102006;384344208733000000]];
  [pos0 [205580468357070374;286427580376624295;16622009395310455;857419336400000000]; pos0 [334562917570740115;990181978830713088;947396929829844882;543692225900000000]; pos0 [48692034300370398;13845534499141612;655566628935049456;805873690650000000]];
  [pos0 [297480889544380432;918896304918593069;288218599507098559;58463612500000000]; pos0 [371767407996255796;868757852974869962;272813223282577665;345936453400000000]; pos0 [12661355722788427;270032734899085296;461224119847462486;18369124430000000]];
  [pos0 [8660024343032957;255623281072588659;929690756966591997;707470488273000000]; pos0 [648198988009240319;30635889306358107;355731853853231432;889638817200000000]; pos0 [137064484990840148;326404680166011762;921882008464995303;339718917100000000]];
  [pos0 [95760314612489480;224700985804736290;599694482502648796;750104936030000000]; pos0 [13063324715879379;38313994793276546;231772694161098015;959098939830000000]; pos0 [885851777769400760;514699409933853494;581922372752227358;103350823900000000]];
  [pos0 [773900116559020700;365411769168644124;944119786308621959;681330057000000000]; pos0 [31131449382478699;722336681704468608;416518389412259433;570492888430000000]; pos0 [73107372711434384;642145364402755163;709654715741012142;694884645600000000]];
  [pos0 [325496908372249606;87222355670019358;737903635600117089;301028269900000000]; pos0 [6946285246366315;585446816248897698;675449987386786284;685828479419000000]; pos0 [655844433569170641;392593046069580665;90573914209873224;681181135700000000]];
  [pos0 [7069939046528428;651323480506271522;40844242351178213;422629189972000000]; pos0 [4258810278145131;747501410325381892;275457050990456025;625133380316000000]; pos0 [381923094728945242;102246247060134812;474026215088883270;991985869100000000]];
  [pos0 [863172908131012261;237827695605887939;471528687392554321;778640737200000000]; pos0 [6221674679947479;558769743035233035;970135090117290581;674329542341000000]; pos0 [83464582481770664;86438512395348106;155265592288807840;324875387540000000]];
  [pos0 [53414511552509889;345969602266702980;606529301372617550;515928915740000000]; pos0 [188276244170584399;540442029037360784;172651285181874447;448674981100000000]; pos0 [571214102877705754;576682065481367252;551498471385070109;469571697800000000]];
  [pos0 [475003096795039201;539295873821281506;94513588199799485;549934098100000000]; pos0 [150897321631203787;408247425499276611;962959458491222759;85202119200000000]; pos0 [89823491308052581;402062006200474033;566542088965329683;778676097630000000]];
  [pos0 [96784974317827807;109250811221393827;892572903694190560;561896779540000000]; pos0 [737418768827530030;557357089020570552;59971966249220709;945815024400000000]; pos0 [53388019362982508;74775916561635667;940427174387534938;587194438420000000]];
  [pos0 [176496822856563066;20039650785975921;513881607362944198;168505394300000000]; pos0 [711740811822728010;889454233983415712;630196204267305010;564384783200000000]; pos0 [42173144858928364;33326880142848160;300410158545833547;926405571820000000]];
  [pos0 [109702305431231341;283497458539988861;662854117838451049;569125696700000000]; pos0 [5550132916696420;86312688301619589;975982614708616781;891184154065000000]; pos0 [157539607092715735;449619312296448172;336274675174555735;132154404500000000]];
  [pos0 [13109543376997356;132057575181727126;1981783313695209;947928728980000000]; pos0 [715450201752198847;677097176177882205;704064588434253028;820724176700000000]; pos0 [228134777815929498;546132810994594849;789792594268207877;754911365500000000]];
  [pos0 [225241341032639843;833185537485120243;673771514264540740;785279346800000000]; pos0 [21574947380633827;160185715489979464;297030046381748399;548951256160000000]; pos0 [280382310953710627;38920061175878053;821716602177500016;394109154800000000]];
  [pos0 [70506429871346526;242104569849110950;499330188981599437;264922880700000000]; pos0 [5262881274045812;869799372477315866;590499052748318267;881561919590000000]; pos0 [549656022579113621;73236541638868624;466454044520324394;693536642900000000]];
  [pos0 [714922188537797961;355287715916143147;878092572031015182;711662442200000000]; pos0 [14167850630868383;519251220956111887;143800268204521482;430579277070000000]; pos0 [268688888907775977;248014929194212359;630033399258255288;663061368600000000]];
  [pos0 [211936995879314857;72552122007617766;666111565481917302;749548351900000000]; pos0 [217994840006259548;467545666003240731;821139382762844554;889325824700000000]; pos0 [339861277875809720;540224316882888787;915419666090235867;545161193000000000]];
  [pos0 [9785019198175308;752432241386935819;507455620649420361;182546294980000000]; pos0 [249365751625327144;748943898465841574;639415929338282640;518871237000000000]; pos0 [313782655846417475;561965402561459078;60580074981810858;31111167300000000]];
  [pos0 [723934584065406352;934041093159581659;446070033895831097;159438481300000000]; pos0 [256506540517349595;553606487603912401;955161186286108711;876840729900000000]; pos0 [11533070629406815;693923517186080979;495308818217934429;335912294060000000]];
  [pos0 [48207540758232363;211813271143675907;399639500154600958;245766609440000000]; pos0 [585540491592562346;407571490809257694;503668062634882610;731512281600000000]; pos0 [324254059439463614;72535403636217999;869135465934839001;757313871100000000]];
  [pos0 [930506089085450106;296117683522230261;764160914938099610;764899027800000000]; pos0 [6699342215760626;743684637191562454;581817313345319913;838474230970000000]; pos0 [10768718331670197;148869394843975376;909467752361933758;684005571830000000]];
  [pos0 [282994467836748148;449051439004481837;586610577277475308;976112800000000000]; pos0 [107094183053809985;984201677561658502;384228419434183343;36300076900000000]; pos0 [607091525890913712;805964924410813791;97897898617769445;697923277400000000]];
  [pos0 [35625965089061332;642182396723855077;47895285778404450;653224906480000000]; pos0 [773279657715853977;890639084164769631;19032216820641129;584459330500000000]; pos0 [7370987970125216;885363326074010752;384977347481070039;911881878660000000]];
  [pos0 [509238598143552352;684285762902226120;890102774483170221;660396798700000000]; pos0 [440000469480479693;385485751087555517;414226958837237919;523926128800000000]; pos0 [49449217620029549;683908556108811291;317225265552572883;564737866430000000]];
  [pos0 [270535358807468208;298164672657925281;319289641545018205;804408510100000000]; pos0 [7269114360840202;164253176303291883;489528804335527279;869048950748000000]; pos0 [661412434825056225;251655433022496405;600116362310234308;484043097900000000]];
  [pos0 [4155081551997229;901380105405257491;402088632835914006;558284859715000000]; pos0 [182594632044096252;492441060768460838;272321970802862072;299581886700000000]; pos0 [446015482582714725;562809155517041750;48948780373606523;967920012600000000]];
  [pos0 [38284267609987714;436782190630976053;243744979087291888;807289189410000000]; pos0 [234711363646114781;524347699916664785;720229924282495701;593996649000000000]; pos0 [327837943427523101;700683035271590207;125756978436579784;978302395400000000]];
  [pos0 [424660179710558014;652955734621772812;903628830238838821;430658989600000000]; pos0 [7643062824792753;165817207357203777;8133655234149410;660657100332000000]; pos0 [525320880597394062;681765947408515085;682588050813402820;457674338600000000]];
  [pos0 [741681919570365037;379905884524468639;389152767726438346;496945589000000000]; pos0 [10955775644208360;799964726428870089;982509349206701001;931880878960000000]; pos0 [7651589911872025;169417880787377368;505538693913104228;822254839952000000]];
  [pos0 [799732259909305264;5635695689863534;824666158364044711;106127246500000000]; pos0 [108764027087233424;89857311056506911;769118386935301415;82668696400000000]; pos0 [10469778664515553;284160114068193746;824086080644808464;728322580760000000]];
  [pos0 [711548088965586428;985561298798215346;461605237878533562;87657426600000000]; pos0 [214487527578983919;860988026077750026;529521683740827487;865647765200000000]; pos0 [39833069496034264;328611321600640440;696808174039402479;53627740190000000]];
  [pos0 [758121211491692308;208153702830332366;651199887329810584;811335008200000000]; pos0 [7336696805318373;108333412648250476;681859121367213250;887863629058000000]; pos0 [147391868271359826;410507070627377155;630663034693817938;842868506800000000]];
  [pos0 [10638705351842456;607442343887774890;784639021091032378;137691500520000000]; pos0 [966732782395223490;713412062324957701;429891271547972460;255228898500000000]; pos0 [12748139987787001;925218553514036651;926874939355737151;548246453690000000]];
  [pos0 [34151792059987248;661606009941275097;220510203741285692;218173123720000000]; pos0 [296559949847017586;563839968398129110;167469901417782169;492819969800000000]; pos0 [623791217970483194;798536417802194438;54939917219752750;890048615900000000]];
  [pos0 [108654921991028322;293252436284032676;801550723420382725;169595466300000000]; pos0 [393501617365622538;87730944513233578;663730249500144064;912368004700000000]; pos0 [33675103136022655;502198811518281017;443441400793783995;841856460180000000]];
  [pos0 [32254890465492595;316927319218217158;840413243249788569;129273291440000000]; pos0 [50961752917424586;142961918189095437;138779057251646980;308809594020000000]; pos0 [776430846351263913;594878514964890932;4221850593934320;863698996900000000]];
  [pos0 [859675613332808495;792797377544985125;820213321159121141;2988692400000000]; pos0 [39484090282715169;552450828704375402;422118971944929206;915304395250000000]; pos0 [13062796712461686;117059451718001411;413305974059560131;981335109170000000]];
  [pos0 [2421348152249474;770004280266183779;36704058031256127;499764392194000000]; pos0 [13394850671032820;688175021560336553;341436179319655884;524211048920000000]; pos0 [119683136483548714;254661689193552249;235427115284521240;46655736400000000]];
  [pos0 [465697173069869144;71226296725524532;154561726376278695;654456248800000000]; pos0 [123743902004387802;663399519682489153;281024390803896031;203362428700000000]; pos0 [32185670582287697;351906989302583593;83102088559402723;9009094500000000]];
  [pos0 [159734871344781908;231398449460128366;937200575877074528;72706040900000000]; pos0 [61962105017739921;823918799782336665;557503483728627423;414496338650000000]; pos0 [96000086178265425;445918351046755297;647058155679626147;661176071530000000]];
  [pos0 [54826761447917543;105635941244543013;601103115544084391;996002217100000000]; pos0 [899802424151265868;647423219571299249;51540247307524446;980653249800000000]; pos0 [43813464635948680;102161901533024647;283294593747734162;232332612530000000]];
  [pos0 [203553981570897677;213068881215535741;143379644227778694;912884608100000000]; pos0 [559980320953964733;209920001822000486;786483693085634986;670583049500000000]; pos0 [199721016999502948;318821660029358989;529306840067805329;539750257300000000]];
  [pos0 [467746130190059850;393649858539920415;588730838925407178;439653165700000000]; pos0 [256275130771282590;541750018715170225;601761298541249212;607612806800000000]; pos0 [11809653187816326;430655468746965579;385768153099333855;321134521580000000]];
  [pos0 [6171629001141315;432108729783809783;382240206933334682;542994755122000000]; pos0 [800514932261203038;700108717960756678;587610035666750068;661203135900000000]; pos0 [184817009551499053;222130914998017885;984205261234406491;235396975800000000]];
  [pos0 [53609618513472315;771802707856343628;117296004774143174;446168418900000000]; pos0 [476563560601364201;204431848022877749;562759270870527734;450875944300000000]; pos0 [171126294829793543;424500221587573996;99043295275059518;728484613200000000]];
  [pos0 [356831802432819524;28034103792185868;279776793644164004;368613782300000000]; pos0 [342726480795918775;601554663046456652;932311806101124857;422922676600000000]; pos0 [135346487563016805;169383684781791853;575910354241965044;839711129500000000]];
  [pos0 [46141076928539718;688650357299836089;65756449952243083;526383058450000000]; pos0 [338230464920543843;537619304165692379;774719891361916919;415496406800000000]; pos0 [60479052142171741;284227348868061761;126008924859774833;223761409370000000]];
  [pos0 [402563874454233903;658755793498389082;959076440369931689;375952113600000000]; pos0 [159847528002780429;522430700962933033;139353841471388098;17438556400000000]; pos0 [188860163056391039;703978151068776125;610962492511917202;84736721700000000]];
  [pos0 [36984582710961926;966682401957161845;522848066630883983;954478332320000000]; pos0 [15119443813850809;64270131748552158;570587037989298713;338473181790000000]; pos0 [739459103306487065;580565289579147977;793100803462667106;492057559100000000]];
  [pos0 [238154111081472166;50195247581525056;230334476529998769;487525341000000000]; pos0 [259675889579802833;584878860490567880;721174144154690285;144882886400000000]; pos0 [9890109213538074;892874947694233557;354384443018929659;392200299754000000]];
  [pos0 [341453785708168602;493174982589531339;629413231205857823;512669222200000000]; pos0 [39303953996752863;894987444092752976;897021578628834406;909253849840000000]; pos0 [609408940099704791;822264646575854152;901147935058102671;950765907400000000]];
  [pos0 [5273792882369253;48749929032947399;579583765890924963;365197496652000000]; pos0 [77152836585621059;841075479692177214;828188310170458786;756487749110000000]; pos0 [260435186724343239;697904951342581280;468272058899228966;486386804800000000]];
  [pos0 [123209919218254891;850706465534597059;821330760527166236;29436249100000000]; pos0 [272579032611246036;219321254577597209;571085568817637602;921197500500000000]; pos0 [111349881403840553;704656194229216512;611271911045646026;17750303000000000]];
  [pos0 [83998657747903258;56203522521240020;520998218345486054;793103861990000000]; pos0 [61493204264194486;755910577017962825;92699271035677584;331749214990000000]; pos0 [1618164325751759;424605450230414543;216643051709631088;507135702263000000]];
  [pos0 [398988292369802252;877584655474732802;629274659539757983;920648087100000000]; pos0 [458254147956910411;343631267345488156;331966540304874513;601098458000000000]; pos0 [30330156882991080;283749893609704439;446254587152839083;767066381030000000]];
  [pos0 [170241183037689355;323589585412549439;422855194521440466;771152171000000000]; pos0 [124939448377239656;157906675179024926;246529444098862839;200464368000000000]; pos0 [396764087261469475;789351527567751417;303991426420437082;516205845400000000]];
  [pos0 [169251276573354012;133115721261008892;457487575573649016;840914344500000000]; pos0 [363379797170703563;661667020694883674;691757875097933246;781361058800000000]; pos0 [437609030953412328;57811854250944332;726370642369618586;177762953100000000]];
  [pos0 [126391035356458035;218662053549370544;422208872874778058;620937084900000000]; pos0 [375425591397168533;296996464579045632;280685938278671193;866397098600000000]; pos0 [183029905950862261;223773364748834844;561425391564998888;132901690300000000]];
  [pos0 [14823755242426768;40658856732925502;170364293817464481;556037025980000000]; pos0 [8081532499432996;858319609746659738;999486476887512484;354917297627000000]; pos0 [876749149504014063;74908145287095469;677223209796881503;937994199600000000]];
  [pos0 [433893931031981392;770522191371961930;179322145209905582;994251021400000000]; pos0 [339795633248306320;898203338489316244;846429585115033173;808833690200000000]; pos0 [188228473063092095;628430837116609051;246935784808952721;548280401400000000]];
  [pos0 [112324653556780686;355829247660615233;20223507761998740;183658403600000000]; pos0 [279277697859495693;294517851044756235;861118412601199490;741607645700000000]; pos0 [53679769319180646;95458104510712522;624509911428428214;179949008090000000]];
  [pos0 [645417619402280333;828116408419312326;266876673122154687;206689472600000000]; pos0 [8721537373540050;206139786375318778;714411557746868757;668731827982000000]; pos0 [273944840921026310;929511894289170033;6980546115306384;764141361800000000]];
  [pos0 [250262381342963120;420066093249893738;197805153528561477;32650608800000000]; pos0 [81227955716460766;488799370644163892;140398901699800273;713113042120000000]; pos0 [107069329484607219;972971347228431620;974890224988580640;160204942300000000]];
  [pos0 [745819154643413654;411591526431484807;272391842644727423;582083362500000000]; pos0 [117187932232987083;668716715893538116;858289864825926515;767889613500000000]; pos0 [120492260803018281;254148042328149596;364349658456786170;759845476900000000]];
  [pos0 [9251983094851737;337694226152967670;645745552766020958;579565228299000000]; pos0 [64234856095642472;130083503781225122;481158154801889067;999530379760000000]; pos0 [696146065612246456;744288153264424358;468051213618760596;347070304400000000]];
  [pos0 [121877961204146905;48429063040266227;654248483440493281;913333369900000000]; pos0 [9726981020251406;649767420230055043;370344002800314935;56083883709000000]; pos0 [10969294080690780;206723179191087207;347271521562635278;484248538360000000]];
  [pos0 [240083285060430903;581922272377933058;698125269233285346;922826043700000000]; pos0 [201547837417137566;259961950931976378;765834830272648;214311406200000000]; pos0 [203718716210339132;76236888340731169;809303870945462556;677397248200000000]];
  [pos0 [145022474494314546;694693693535627085;665425293430711734;577640229500000000]; pos0 [172710865796513871;116926800251899665;329048403267550870;935119050000000000]; pos0 [678436333982543318;61616479170914892;473062710188223514;72041618600000000]];
  [pos0 [65697912047544173;320604153621751921;962836960859704700;487422051040000000]; pos0 [152746233584158304;161186297251618158;586817323540658584;195388403900000000]; pos0 [350996821560009127;185800082176476844;432834403751202669;787430749600000000]];
  [pos0 [8347982853994663;26207639637236431;868633440021633230;743461291540000000]; pos0 [825825189413694997;895242721486116181;727347882983218473;220320710200000000]; pos0 [117742411227378089;644562327034134949;160143142496048273;875854698600000000]];
  [pos0 [6313447493827306;430261081481909100;956754485960698532;974754942342000000]; pos0 [66330386926140092;186307714719543982;311044342956683297;53867989430000000]; pos0 [138668941525862853;766926452796297904;247124911033922565;423418728100000000]];
  [pos0 [91287362122054729;68945826960404125;841439923716507607;514475821970000000]; pos0 [31193190528844674;977784725288506944;560546828432079293;975603605960000000]; pos0 [109674182407742022;817838164910399573;690102959269787547;74520516100000000]];
  [pos0 [199350317925077895;251954926542949868;29084028652214253;660455993300000000]; pos0 [47058443705702784;768410335134059812;535025081294940640;298002031530000000]; pos0 [413877835856598433;540528843384993554;224694086633131487;691151815400000000]];
  [pos0 [20060475361860764;464552525082866136;860742652902219734;828157675590000000]; pos0 [31902047824982053;864293797389319830;950604750016976674;38533814050000000]; pos0 [337944330444723568;400513389524004046;338054594825650997;52009804400000000]];
  [pos0 [905360089829493014;147899234376462223;480971469312470229;163981908300000000]; pos0 [55705430204919990;948306311941066311;24536228860876070;893433846150000000]; pos0 [2278772835569286;846187071603735027;287786354578182294;578968604084000000]];
  [pos0 [271608722706531018;857860576078011178;974168653029786929;638233611500000000]; pos0 [342807816182579054;54278455020952590;332838404890917449;794488846500000000]; pos0 [113504298352265758;609697367590395681;358072537527324860;40484778500000000]];
  [pos0 [298199542145580619;694352440963559714;52943249135687426;624661388600000000]; pos0 [136368327925267200;669529123309981284;196622307617196970;924208306600000000]; pos0 [289567007758056975;10810121475867065;500270277850229428;943871863400000000]];
  [pos0 [193630835856280984;31797298129413580;760677277430310747;291062691700000000]; pos0 [102033723066669850;650271713698178332;453180450672979803;427509555500000000]; pos0 [680167760108173800;304676231758415271;965260152610834996;837010800200000000]];
  [pos0 [484821252973751046;858383978253157437;474019002006779946;5424212500000000]; pos0 [35951281615264096;284014907322299122;829723892530834246;57165302050000000]; pos0 [342967914429691391;282750569791029925;196004763373794665;790253282200000000]];
  [pos0 [459037840852017097;362352668381386292;450665627421492576;591109761200000000]; pos0 [37200941077215468;935723482968188045;459131402534709346;677754716230000000]; pos0 [460288848594264427;374631143744974224;278979067636828847;978914918300000000]];
  [pos0 [265610468952250769;335780547651551529;835596806033513761;339216140000000000]; pos0 [574290615125609047;368919478369795483;200577347687104459;506602460100000000]; pos0 [35758325698731575;952812492987093780;181235530433734232;87452380060000000]];
  [pos0 [459100309289282915;406892774384145809;589679431241972136;907938998900000000]; pos0 [128608771407959285;73026289001279587;39819844473608161;877592253900000000]; pos0 [301595778499204477;382046120574398726;353592560610232002;44795904900000000]];
  [pos0 [316746591731851120;142545728730091243;729852185780813643;84107330400000000]; pos0 [111547309958658558;963769792371572091;316879481510175809;416606914400000000]; pos0 [174898994938655854;666316219172182832;81004031627558303;269072222600000000]];
  [pos0 [321550191160176084;897988746360739350;220060746281344393;31250772100000000]; pos0 [46932090206701273;654455329620691808;774410844981032479;893252756550000000]; pos0 [433815112700415388;265772224872245268;109409996576167924;455953430200000000]];
  [pos0 [33138622362115314;670412658393448402;646547985706943826;9159254750000000]; pos0 [730790973265048935;580705500336183427;462918029553357694;439703190300000000]; pos0 [141021098958007257;919891406185869229;271290168070902909;814127544700000000]];
  [pos0 [571890018546256201;934466507504524679;223494908924859723;223171392500000000]; pos0 [72893267464752718;164045251182165212;154402806239950130;505372728640000000]; pos0 [255227563840511322;260850305283906921;107700384089790799;116489520100000000]];
  [pos0 [97701886514070689;666995863294910744;394991009334941294;773119934340000000]; pos0 [177014254801633988;657993626083497744;746431935948443987;658390971700000000]; pos0 [460682678734592727;578866974036594970;339109339063624601;911909398900000000]];
  [pos0 [680284261453570549;427917240977697134;717175975324848685;352395222200000000]; pos0 [8643370700996695;45108300490023417;675838053196703632;994294342700000000]; pos0 [124234402718450198;776498609232193123;213402654096325722;347308516900000000]];
  [pos0 [215359574347259059;459330089060804537;98515439909855649;850133026300000000]; pos0 [381939423760447143;529004560891617234;515452814058173607;443780680400000000]; pos0 [214243586082290224;467746058613950024;517244474390891867;187525479300000000]];
  [pos0 [272621374194184523;629544693438141525;511778896691062291;915313316100000000]; pos0 [127971280727018782;195539476494699584;167690498754361263;507307816100000000]; pos0 [45801002045775571;767930219830550948;350912045680524208;238600834610000000]];
  [pos0 [398445185372934939;921437238979737785;730135810902152011;862841574300000000]; pos0 [285415700482274893;883836546428298283;393308745536764700;582546612000000000]; pos0 [309198342670274543;709423416517724392;539906290027734824;680042801200000000]];
  [pos0 [43235984225958507;925893404377690731;405490717400403093;464416769470000000]; pos0 [8889303600267966;188379800019032818;992669889116885462;58260676359000000]; pos0 [437236064835457198;124850120696761383;485677730821630162;429658539900000000]];
  [pos0 [39001723688068905;445907490000095563;520444734729534840;696253508970000000]; pos0 [54763497983241791;489835440744932622;687247933243288139;645120168050000000]; pos0 [455041946852613297;61845155250813631;746448304673774130;472917007800000000]];
  [pos0 [427578046099828047;858542101537270142;295138570235185892;982393577700000000]; pos0 [5809531812211751;430199422658327025;134901581389142105;168191293157000000]; pos0 [408357742368624744;299327682496248018;721150980356043492;935731029500000000]];
  [pos0 [833828153035367895;588777768181695539;977642248500419973;759916841900000000]; pos0 [4889123725581052;196276652572815221;864713842945806068;168155868102000000]; pos0 [44093902252328975;83381469090570898;206859424970315323;1830243200000000]];
  [pos0 [314252945918185980;267234243778670353;398286033086709510;887813555100000000]; pos0 [61428377363761395;154233292343548199;342008773631708728;451414647740000000]; pos0 [5645878842630619;562259652357898676;609347637402119839;630595488229000000]];
  [pos0 [39247912613172470;605517256466483971;889823374016191061;390527790870000000]; pos0 [114013823412983736;814997381876708186;895421457599807180;732674855100000000]; pos0 [239509274688346710;43602014056514645;273716838832849051;630662674100000000]];
  [pos0 [453954167915280381;264940552700320657;738064207655765858;203130555700000000]; pos0 [210495277854683555;894399804579922001;930859857024866568;752537628300000000]; pos0 [195353373672562989;187141613727685184;189280173253332397;8927367600000000]];
  [pos0 [381299290812512910;230554495717794962;142806363163138551;785796610500000000]; pos0 [118673031386349836;524988913348041163;483608480131869163;876935917500000000]; pos0 [330344724728523537;218095423221363557;128856183360455404;943032478500000000]];
  [pos0 [96347814633428833;511907906543891842;821035779643060912;967191532510000000]; pos0 [27121341129371400;312627323343579939;24059638550431750;420165113860000000]; pos0 [232950809090360595;824621171332435903;76869638935135518;675708365400000000]];
  [pos0 [409384142768136355;619025607847356386;673629673333302613;181205627100000000]; pos0 [22793641723159665;811465785224578068;721523128499855351;450863170340000000]; pos0 [201620765267959075;641163362726606584;697667849712321379;40162817700000000]];
  [pos0 [12186016663916070;622609458352569389;424252148695090047;764400645610000000]; pos0 [358651392510962713;282986152957549153;117197764288614320;191813484400000000]; pos0 [622476223679344947;422540138449119818;727198164096395334;151621386500000000]];
  [pos0 [567793076881993919;199245655486885621;854882807430831820;669640129900000000]; pos0 [27980103803559096;712481827810145299;787701390156578445;715690510540000000]; pos0 [126048598431907440;611260132225839529;534233808866740817;412681556700000000]];
  [pos0 [121817159556858669;642141643966285028;940530908056793729;784260206100000000]; pos0 [228088866505267472;548087750275874691;711527492021772210;824899018600000000]; pos0 [8862222387529789;467093322824908411;317773097024807690;863591318354000000]];
  [pos0 [124798032877661205;358918887327680258;979678266349446246;791331795500000000]; pos0 [222670297902782065;942274280018520425;536448440034723008;41695403500000000]; pos0 [612270800719208255;905174601962572716;981984668213111750;659260053400000000]];
  [pos0 [604208581269732402;161892316483681579;742601866462348830;119612480700000000]; pos0 [239162511164312218;844236083573596857;780639800895336222;27768151500000000]; pos0 [72436715899994486;431983186337859259;16693738258657861;186112196730000000]];
  [pos0 [95694489593592379;507499361594411287;383112252030244991;280220335130000000]; pos0 [335009849202064117;707410983679871606;57765147165484688;980536526400000000]; pos0 [524458794511220941;386562594961547387;716532155607755335;216563611000000000]];
  [pos0 [126748714370505447;335323418198985859;863091335769564794;321099075900000000]; pos0 [232514260630679565;745836117628490955;86680995323738243;96502479800000000]; pos0 [210214625763665061;757982012996774412;91076212912232467;387738416600000000]];
  [pos0 [342444473519555424;97972608566574794;999944616762965682;16342224000000000]; pos0 [33839128033335773;380982088705392625;304821226201870566;526042213110000000]; pos0 [97996564736534799;912464967468708896;728284883148634466;781592719930000000]];
  [pos0 [64143466325893531;565062608476439565;143053139116844353;763224776880000000]; pos0 [115070671107519333;700070479332473815;773479050768955934;43586268300000000]; pos0 [693849118361487546;305320557211113374;835166489475229878;464660925300000000]];
  [pos0 [61435847038092441;356270487668076385;137660338191427375;178717042800000000]; pos0 [451754043276437667;271627246065408171;563879790584089050;230015251000000000]; pos0 [377014752600365483;171900774221872677;480887483189597383;497417890500000000]];
  [pos0 [11211707166834832;868472515993646226;221138965098779043;655707373790000000]; pos0 [12230028623549099;496089421673188314;282008377705583660;745894175850000000]; pos0 [528479726578700046;585613592690067922;497543995894628908;650837512300000000]];
  [pos0 [202051678056592534;288010994959698356;391358924487432952;471900991900000000]; pos0 [720416223091685845;578994934536353950;486815869228636650;765166287800000000]; pos0 [71344426152721775;840574720366054031;217950593014871385;690582128770000000]];
  [pos0 [113941446073687308;579591054928166155;255923998078930422;361012379300000000]; pos0 [123737059090966096;771425619211867329;17355517062645770;946306163700000000]; pos0 [248417061676245767;768012717196531326;72215509551420096;599842206200000000]];
  [pos0 [157713427723341796;648261584359606976;729361437754002041;808835705700000000]; pos0 [210850606836003514;132499435035279603;778671738502727919;11054841400000000]; pos0 [461896630785026681;791133520600672851;738246448205651255;715550915800000000]];
  [pos0 [233171681169765438;876795102422046902;562929109079220271;465706671400000000]; pos0 [208955727555973263;422156451905538536;934152527566479373;699566164300000000]; pos0 [93747854962217694;980818348586044452;683968586329743364;867364475860000000]];
  [pos0 [272805210297132823;291211967605268186;252649322950712930;303574954000000000]; pos0 [10405320698204058;146707751078770411;241451775986388001;331873508460000000]; pos0 [369899212976597507;137107060290489775;911341787750305226;936407960100000000]];
  [pos0 [6617366186959541;302303726783227258;178281997111818449;296054100411000000]; pos0 [913849336334103117;496561599942956452;799508127315990542;835410292700000000]; pos0 [71570358190175933;421326832417386111;685005246835874714;303598614610000000]];
  [pos0 [29790138240471661;216032831232138528;167258981010763205;53404145950000000]; pos0 [444711495798363086;362967191638595545;686296103151415179;86152743200000000]; pos0 [104782923127580763;45545470965585531;662417766093660696;552614822000000000]];
  [pos0 [629783381481740336;45316772135441198;849653755467108915;638197838500000000]; pos0 [164965369251939370;542451875610025790;660575568468603342;918223063700000000]; pos0 [201658410988303173;314560186688861463;605054089342571715;457353951600000000]];
  [pos0 [199931427579057504;848565875904582733;78403407863936643;938935444600000000]; pos0 [457591638046719296;804778660007390865;905726937352487918;247660168900000000]; pos0 [57944341318377130;416712637930321825;570496732091683509;225565229670000000]];
  [pos0 [178912636437049723;11443600691032562;253289131226437563;765569541600000000]; pos0 [217696437145994632;977666966748809041;267255396239778883;141786686000000000]; pos0 [36805423154889730;696404970107168369;843519918283425902;882869728150000000]];
  [pos0 [722674928316256961;341082217911572324;872680373232617359;600543169600000000]; pos0 [107489128998214178;236170325818165558;960016005105696677;464050415100000000]; pos0 [1623926912232709;334493888332838048;672961584860396741;818546815791000000]];
  [pos0 [4417837093680856;180975044296499017;369316445336491162;278345067564000000]; pos0 [344972927130678803;604954607381940337;432779295536634837;855420872600000000]; pos0 [350078528486600151;824889701941891209;455410735164199504;68097653500000000]];
  [pos0 [201339381945696731;367536851918573179;7890957032738721;64051735300000000]; pos0 [388948564598611271;120834349482306499;682743501983534350;583684452100000000]; pos0 [6615246922174220;500372974549562949;921765368546130444;424485009858000000]];
  [pos0 [52464899593444812;977415451317411018;676948784926396227;227613009830000000]; pos0 [494875925686859595;627801530400209591;494329401389486502;937155135700000000]; pos0 [38646866301942167;726924123830385479;382091456028234179;207399761120000000]];
  [pos0 [84101783183422612;89598973422241757;45206455475099054;543087328030000000]; pos0 [25976320212802118;256137739494987286;888320038441467747;182487733900000000]; pos0 [623911199032843633;371446490754244496;51989986130774212;767006522900000000]];
  [pos0 [11169730147928028;877259820893418766;846319975191013440;530124142100000000]; pos0 [406603098391665653;558639802857574859;60171038353681671;454475474100000000]; pos0 [414114914476033609;334110592860946649;343978105940923423;517565772800000000]];
  [pos0 [49625899465433023;899070751478323255;383425890938376856;821925213580000000]; pos0 [299918194605412767;379671981015496976;330902888027777645;392803330400000000]; pos0 [12853117709399480;278462366137279205;261044637607566059;299272873480000000]];
  [pos0 [201218559759656580;948173474644328015;309165551218129981;111359874900000000]; pos0 [345487431908043046;644534473330789895;622466504313879889;529961779400000000]; pos0 [307748635378441514;151111309034055490;241174494062771607;645326217000000000]];
  [pos0 [48336184340598103;750937953280115609;758670239745482764;967919789220000000]; pos0 [446369666355118031;74795590093077391;819719932783789163;591399388100000000]; pos0 [463041717150881614;216811725555811791;607792113401996599;191746339800000000]];
  [pos0 [5744041814107994;813480270428663841;401108866827501529;277467846409000000]; pos0 [554581278821705995;446275146851234822;181617511826915069;258875592700000000]; pos0 [125138605690901849;231210882032935967;359710026269788006;106325238700000000]];
  [pos0 [318423943062655861;868851245103489317;978523428474241352;813199696100000000]; pos0 [362011577167434143;937827430372768320;412005964472700477;601445767500000000]; pos0 [211822469965404244;671136238249408459;21396263564952498;299578326500000000]];
  [pos0 [98269334381544101;24511411562539445;737022634692940743;788546154950000000]; pos0 [258290044815986449;140127939302347641;449596596145212034;222496767000000000]; pos0 [328267525891337498;803315142194304480;505210113954340244;250627031000000000]];
  [pos0 [198186002806753629;514384176063508977;314209691284972401;230725357500000000]; pos0 [191268233571970883;181260488623502655;270325360474744297;154906023100000000]; pos0 [517442153068305216;961409017726681129;832763111838639295;555066827900000000]];
  [pos0 [319122405345466079;227900347107680288;896019201219539524;144151668400000000]; pos0 [4894329279020903;775897885151896392;565792595813303833;112140672205000000]; pos0 [63773923146302831;414686566601913225;611057967569692878;692448607820000000]];
  [pos0 [659644023360763215;875649662798638593;173113020217286655;827156986400000000]; pos0 [31737936004012346;469275582581332011;355834405600234420;23362221470000000]; pos0 [194842197689845324;557050698515410113;721185865007455518;686913729800000000]];
  [pos0 [215306699256901735;359409504218099953;774220925331616794;781617226800000000]; pos0 [416430102806142788;275009893234376412;851099225993732608;999235152300000000]; pos0 [307389217883042326;876174608534965710;724573444718450834;86834612000000000]];
  [pos0 [108808196808291357;860993446766852341;946417302454423595;881415881700000000]; pos0 [426599037361775770;18178787636020455;863849312617872755;584692912800000000]; pos0 [91629808055779607;206591309103134139;761335425641890100;613636075110000000]];
  [pos0 [41669414102079354;606384741618581565;791289042761831632;536247672340000000]; pos0 [459221914081418786;268815965831334879;2429023741814364;827376433700000000]; pos0 [304039982652074738;383073830791321332;836296776442588536;368972273200000000]];
  [pos0 [513655212118078879;157559882969929663;570902094043429911;158462175900000000]; pos0 [240046861114761199;11753417580738409;943713275257186303;550216175900000000]; pos0 [229224257822763728;730234680720329852;722838163592252014;352952793200000000]];
  [pos0 [212617815078953416;883722011703457512;302553188236821546;278961481500000000]; pos0 [95987668591249114;554172952751072468;184063587995855238;467792163630000000]; pos0 [274066024665077969;380887419554015359;38518708944332177;68964546200000000]];
  [pos0 [57253132824693172;330991199263698541;47274552211356442;420285805270000000]; pos0 [395883058103018892;178772384665197581;757416245695796279;416469985200000000]; pos0 [537938509506871357;604826996577239281;752934463892917609;995785962200000000]];
  [pos0 [282970556280327907;510929892332339034;338346639468387811;274987234600000000]; pos0 [701713858959055263;858049365558577298;309970771505739975;867577139800000000]; pos0 [8723928203785356;470378248258742423;487089167736347777;383487609355000000]];
  [pos0 [249818683896240016;718444140649479686;187940021475242025;76512686500000000]; pos0 [350136066449411190;784084239881100746;76862576169703998;896379742700000000]; pos0 [391800394419759020;270584700311778333;503400093724224724;695236351300000000]];
  [pos0 [1376350816542040;761905393745942045;650430736582253759;757725278842000000]; pos0 [16933712696651750;347038002023048494;29033715188270221;608880588660000000]; pos0 [664294416334222475;266843750582379613;65097945368682198;609643198200000000]];
  [pos0 [9313214299848354;523544982288186167;629167277745367577;882725147588000000]; pos0 [150887416431487278;588223013046585075;149601144224258583;53868926800000000]; pos0 [603003950158847894;10545144996096403;155209770564477820;93994035900000000]];
  [pos0 [395736403374054867;659038260632939303;257732764522786582;515595362200000000]; pos0 [350236593995062293;796113791887751719;6569116390719927;599363629000000000]; pos0 [52536081888330407;137190793912866867;959993025709134300;348809525970000000]];
  [pos0 [346963655882682400;599027378707829811;951011651527619360;102441451200000000]; pos0 [14497854143221211;519492321523236904;256249723674259394;690636099910000000]; pos0 [527396451829191359;821603639889475436;989569012684025889;445279971300000000]];
  [pos0 [520798324034091910;118765355046293983;574763340684865577;76422338200000000]; pos0 [8369723707139067;709222705158037483;829967422979566183;862882849603000000]; pos0 [392572782959315526;765210442872753908;290289456774138672;606881836000000000]];
  [pos0 [676937370498242892;412718027978771983;224366766191403522;760613380800000000]; pos0 [197873616043106281;911196542212457054;91082879004706698;956505403500000000]; pos0 [17900190509434628;132155492784584459;67451097209915906;905866806560000000]];
  [pos0 [25839520664591747;685662687173936728;152844122423416499;371725051760000000]; pos0 [45616298257342;206924883254229741;155680489644484291;148267455183460000]; pos0 [661669579244651138;258599090274328389;450513438291531737;132816336600000000]];
  [pos0 [123217718011171396;297294630437113468;594225217330775939;236324632600000000]; pos0 [578861790590708127;71859156491999383;3658804989334210;891598089800000000]; pos0 [239648173658502276;659551833463386589;595940769941274511;854030989500000000]];
  [pos0 [112487352419296426;873682614304133100;635587388633907878;157902615500000000]; pos0 [4429371964716670;764951956712534632;172502661237721628;239984307798000000]; pos0 [659470752637129217;654691527571838980;519027242385981823;531178746300000000]];
  [pos0 [60316568794665393;956628816296180387;425733237702059542;765885535430000000]; pos0 [64096888878291746;749823245306414782;883658595330655421;340791511810000000]; pos0 [313001240586764933;365557520267572739;752597129652040643;27912347200000000]];
  [pos0 [148487347176844654;55600545709436179;132673729426237549;243391779200000000]; pos0 [661274759540117238;165409641789483184;56350697611938707;414540411300000000]; pos0 [181708455076369310;580034794676151085;268467935884852441;44003391600000000]];
  [pos0 [585717907088226393;729009067506351066;301464247503265114;131637008300000000]; pos0 [159302431406742771;69066963050856811;548564243515652493;848790082800000000]; pos0 [166191513783226041;956166876959788657;270682657952660329;71231388900000000]];
  [pos0 [629855717652828428;47515836603188937;567477845231686291;23911776300000000]; pos0 [112521818771947216;737882570554782109;960570307336855915;639861525200000000]; pos0 [222475618100307591;811554792353488975;804762731337179419;253485010500000000]];
  [pos0 [34980666423369135;284398089822130306;356614939179850599;491743311370000000]; pos0 [364459354836922397;245387601784800298;440935869042569411;759736666500000000]; pos0 [316850997581339057;457403406016257283;265753176147822291;202315338800000000]];
  [pos0 [77760919244970387;88931680754385477;557532749503380370;699654896250000000]; pos0 [512180507758035557;920987806789440269;14346113966053735;744259285400000000]; pos0 [3313898391026028;675958351484236871;272614235372837950;220045680766000000]];
  [pos0 [51537800564785262;455345707339413248;217570747647273767;749394824030000000]; pos0 [100745443264427039;442232891356827304;347072247186993436;709630536300000000]; pos0 [90101403092666899;462251599646860840;437353833727709783;854266106850000000]];
  [pos0 [665584154054981822;936678374912404679;657653216170047509;215343160200000000]; pos0 [224008361996518967;536543932306992779;53608545254095689;38357596600000000]; pos0 [101500973131190016;427725167370894018;79752396778221491;721463500400000000]];
  [pos0 [687174761198070403;499190158675129797;630423571348168803;265242741300000000]; pos0 [38228282171753320;669562089199138812;219591055205822272;862619287950000000]; pos0 [241744545010097733;280873993796980897;417848275581620267;577771631700000000]];
  [pos0 [659578426800036886;842673728215908147;387319595442002762;97038979300000000]; pos0 [48026079734488327;643075847315152509;310538921162832153;532891985480000000]; pos0 [51753612087547053;985217237283701664;229046779053477385;133839137450000000]];
  [pos0 [492234258855625254;93860099449745772;695686994166325676;557851420300000000]; pos0 [188170510493307040;662937433099788158;547773337453313398;639201815600000000]; pos0 [261740995037753605;864252913518022833;579462351444625721;397944691700000000]];
  [pos0 [144418183104221277;483231339864645676;40602021928984565;885064081900000000]; pos0 [63728948030898248;946364969411314941;549585197786015132;25961744790000000]; pos0 [709493650672572110;285377744423286553;998303275721626017;883557268600000000]];
  [pos0 [480576138557578577;767589738397555194;874966274138681514;498511851100000000]; pos0 [347518005881105217;22982645966062831;101329055944110689;823382034900000000]; pos0 [65363669538505857;736366738973358302;726749816037597009;774642230400000000]];
  [pos0 [110749920096013753;443821375384602205;419416879413562388;398087134500000000]; pos0 [816294619745498258;572274580556512908;435237877437900041;470764929600000000]; pos0 [54848492449495865;183896529330135798;20775376914831286;426793911350000000]];
  [pos0 [97316676408971631;672526657154950431;825997537847201647;14879002570000000]; pos0 [95508334847228975;166876886478137552;34648997630755725;195532459710000000]; pos0 [405017584947451873;201488029415315884;466003928488446611;996232932700000000]];
  [pos0 [843862092551310457;872687908154420157;522735492465336301;242511042000000000]; pos0 [12331096533057613;627171085026647408;241152957887036314;139627277250000000]; pos0 [134269784083813821;884990607960984794;870998680612793834;999901711000000000]];
  [pos0 [530929193860971672;332663396889470529;975631117948949390;922681327700000000]; pos0 [330534828990657953;839544648877102656;931684960559030959;756921259000000000]; pos0 [10569429936848658;922842031541867391;707298983435870677;821545338130000000]];
  [pos0 [576886529337450348;651145292762067764;777549429458244070;600997370600000000]; pos0 [6865062213149566;281149978649670362;284514750514086840;367469567199000000]; pos0 [253014773875363915;123354736611503307;186152897444904207;335877012000000000]];
  [pos0 [4721582541848811;377033854921640881;481598529782193974;433165332406000000]; pos0 [839028643805016762;761949418457149251;313381191445520828;316667080200000000]; pos0 [13602748912662858;197964409995971693;703016008223400967;105358590360000000]];
  [pos0 [99909758231824793;599551668747399934;139388811301010399;678855220010000000]; pos0 [26145996669027569;790581188252111498;686613435493494802;169751472940000000]; pos0 [480254184201160494;531980928025881919;60818100329800510;208883539400000000]];
  [pos0 [26117050104507177;115739295013993964;292702257675174062;48123296830000000]; pos0 [171704687563275585;564841632330283029;768340215737927330;289807753600000000]; pos0 [763685657288367054;653438292643170026;521079016155805504;50825272200000000]];
  [pos0 [165240092003011605;808744593295323011;761607764399510662;498785694300000000]; pos0 [4538811247374012;325427299828126686;651261245415681567;404525524139000000]; pos0 [253735498359460029;526659547213683115;552704843802315678;539691956100000000]];
  [pos0 [181789765839396382;562690705472580385;149679255362940669;795618320200000000]; pos0 [295003829134594916;603648225337656254;691127427598065350;221855053100000000]; pos0 [249706001379752338;211329207094485299;984703293188462320;768708885300000000]];
  [pos0 [386374388979815778;627028743828320702;12799265300484698;675607842100000000]; pos0 [67129961489816210;637602053424466163;901212812484713143;257651719440000000]; pos0 [447554701431680116;161953670596345617;561191380270291994;198920138800000000]];
  [pos0 [3832581510357447;889904504351868570;935404838669904050;597105811527000000]; pos0 [509533524317006653;434747776105542119;970195349402421542;875208239100000000]; pos0 [270962805878978741;337839152229499125;303038061746793088;796697475600000000]];
  [pos0 [115075346172256066;926377009043025224;662559861314626744;152316731300000000]; pos0 [643873749433378590;505615410113691564;54936103779300372;361496519200000000]; pos0 [135262538922063812;415780312701385412;821176038325948898;584030213600000000]];
  [pos0 [428346311961631945;968535075895403778;269178916908360135;752765269800000000]; pos0 [79173416971759365;903254755912338846;578940946078545651;868663818190000000]; pos0 [180608092289693136;934778423139470575;327270525015952349;766178370900000000]];
  [pos0 [198598321945072948;405517854631763914;406315455819588042;192362172600000000]; pos0 [139127045316723448;791517322238464919;216885328473795822;962108424100000000]; pos0 [156661524552131751;908738491108661266;556792932735455211;817998935800000000]];
  [pos0 [600247045756412896;106318543451448558;894153597399923790;280605682800000000]; pos0 [222038786121608930;963241983598542617;645920351975108466;893046041000000000]; pos0 [140390558938141648;568209302657205556;393240693756083185;708510513100000000]];
  [pos0 [112856594206062775;291836063375363270;4876911426496562;975800938300000000]; pos0 [316719498141303847;972128046839818373;259171505382233464;240781406700000000]; pos0 [373972279572468637;165836085522752744;120809491019427373;140783856700000000]];
  [pos0 [210319231662136084;517046795864317392;439337635405837757;287426669600000000]; pos0 [15524748374894540;423550433589282445;871733789473396439;774425867880000000]; pos0 [136302654045608459;495264650993235924;711336217171289211;417449639300000000]];
  [pos0 [13717533178074805;467323521804383911;371275735684775885;588955856240000000]; pos0 [40094131292303686;373675699714059862;513453828229408983;34410455910000000]; pos0 [892136481753516397;21252540618997288;884915396274568479;75888367000000000]];
  [pos0 [409553254676322423;949524019457050535;739646001077818877;512458771800000000]; pos0 [140108807108483545;203366623346610794;813484426415528527;976662522600000000]; pos0 [444599772117567484;437341212586234806;437016991063752851;634977377400000000]];
  [pos0 [102042587894381764;560446829272911159;58540392431261946;72447095000000000]; pos0 [410153472615071092;784518380119348765;637690370215826102;305260378200000000]; pos0 [262538533513406395;139496606321259336;545830536141696268;524781208000000000]];
  [pos0 [279422658824280443;944711827074175271;774358715400259936;370286040300000000]; pos0 [476260665764366885;514489755580116259;41053437761076112;119507313500000000]; pos0 [35126850539124618;285362623888935648;209309204351768962;850074559270000000]];
  [pos0 [88085813247913143;566499802184466049;885195386622188216;794060238450000000]; pos0 [89450546010506884;593422052769704544;680717534031029057;806239703580000000]; pos0 [162116730003220103;213945249815770203;691671824769011222;550085589900000000]];
  [pos0 [445641418887679525;80137634492795658;535582761598330487;837858352100000000]; pos0 [242839017640216144;177746304212770569;464916380899340729;571694013400000000]; pos0 [107132543434990119;277029384563206322;720074766083612708;853674106900000000]];
  [pos0 [462566193475494597;919643906957158865;352194017785575584;551643904900000000]; pos0 [47230061493282806;985271515095668176;652302368079912216;407811504850000000]; pos0 [98224176406919730;171485176362053851;55710509731517136;294278070850000000]];
  [pos0 [328833289357301280;740891123670402280;59566026925931482;680007888700000000]; pos0 [48349667259200905;545890574769396135;945056800752253099;238933721280000000]; pos0 [575617686430920134;525249146750854131;599718719457021142;54219515300000000]];
  [pos0 [133565699972236894;999760638944278275;26136236733111638;536161667500000000]; pos0 [50288086987544652;944831680105176079;245802564055218703;122535353980000000]; pos0 [341073845800896595;169170916465003758;391147138278838572;71365696400000000]];
  [pos0 [44121064964733974;816123422258565872;294411293817812724;281790744950000000]; pos0 [331075965894469666;974201330133642228;191545085992424537;363497461400000000]; pos0 [519432068925873605;592460802938663184;635012816893458114;348152081100000000]];
  [pos0 [112937724385709636;736193626963522518;957682467050839310;125230026200000000]; pos0 [2181789853243472;466923800676350337;273475738147240016;56277446151000000]; pos0 [841637025730930351;501380856049218360;398552455032966546;41705429600000000]];
  [pos0 [58353131797460801;623510019491679801;296123171300697614;14832530360000000]; pos0 [333213256626462228;298245968255931638;737519068014919989;538046513100000000]; pos0 [140753381009244980;173441745611297576;693411890091297448;580253851800000000]];
  [pos0 [35546376860974849;877770215381859110;415865003094909643;434353227830000000]; pos0 [844782126322640802;11034261966042074;358739877792122373;521093399500000000]; pos0 [87599802572339393;936701978452824077;466903320375099791;379568417650000000]];
  [pos0 [358592127913742043;14458326463905711;315248246861912738;675966588100000000]; pos0 [217898876719513282;383761014650219621;397207515480275110;322053245800000000]; pos0 [388376495268498717;387847632545682910;782610950496883942;41211116400000000]];
  [pos0 [247651904203605451;278659796662779162;948657105698404577;72894936600000000]; pos0 [83943041393067592;345516032273555785;118088647779160598;448761670070000000]; pos0 [555892638433631823;814240960236111220;248428020485571458;858887813800000000]];
  [pos0 [67423813436371621;57495651507242167;465771663019154873;158754534920000000]; pos0 [1483019495330369;395383713326128399;575173924021155902;237084549208000000]; pos0 [797386518581203508;25973623220144772;559717344059692190;561357151900000000]];
  [pos0 [14713354519151867;41085752019182929;398936558329750980;108045268810000000]; pos0 [196281979032051634;803317396894321184;148062570061791100;928945508000000000]; pos0 [55087567607193359;523289089806046267;270839756834248966;130010708950000000]];
  [pos0 [159667390612482079;336973563368131015;135890801586494739;988310086000000000]; pos0 [601591638038936921;52358095852641376;341400512041306557;421910941900000000]; pos0 [69147553090356571;101538156230105599;456082636935821338;204430301330000000]];
  [pos0 [108329673880162187;656358477897817315;211109673007546724;871588767300000000]; pos0 [44658999227179883;131835154784114854;867185530654540020;4781503310000000]; pos0 [818249040879822680;459915512584368575;558809081986636374;866236112300000000]];
  [pos0 [450969920874998762;682110049090004129;149866739169795330;276662388800000000]; pos0 [472385563531433262;128306055288047779;525976340795896920;888954471500000000]; pos0 [41346530977428184;786690692503953823;615559410970927941;278938286540000000]];
  [pos0 [492867934685285628;728239892334972699;77186397148802513;120277034600000000]; pos0 [165387658189165331;405386070879259256;260771251322475029;804076572000000000]; pos0 [331006210887410023;101827433745296541;951122449476110592;863302718600000000]];
  [pos0 [44302525217087348;804093929796084393;923063081236284168;57936712300000000]; pos0 [419143184267238518;685296378247366605;910780977160753562;94104304300000000]; pos0 [8771364872225592;302274744494442475;859876276334052588;664684298037000000]];
  [pos0 [159645662292809591;502546635838736182;62774217661038822;254260414000000000]; pos0 [682832733304891472;723192996296090043;759128340492479497;906044482700000000]; pos0 [116782842712609052;123045174432664014;934326015363966990;400107165200000000]];
  [pos0 [70346562179145667;81056215933614205;460328654970404016;921054892570000000]; pos0 [22340862743802694;974776083745575199;658954627429202676;712353830860000000]; pos0 [821475899409170154;945645046835079455;498078889558981916;453076152800000000]];
  [pos0 [448291146945796958;617382240360192044;266266983384256366;756673699300000000]; pos0 [208256229480092618;591597666790247899;662826812985306207;708641568300000000]; pos0 [42285237585895275;988500358040473811;400667163572730078;634359833030000000]];
  [pos0 [647744538234801448;801329061164582301;988722410937423878;764376356000000000]; pos0 [65200529336746462;771426551976755432;275264209182702861;421750144890000000]; pos0 [118462975340238746;319134136638029726;594272318647859869;331370596000000000]];
  [pos0 [6193343297247673;558942941454124214;352020037054607223;805156385524000000]; pos0 [79523031297282877;247834603740894224;92945737563667607;95639044830000000]; pos0 [544343076687206923;307313413380972544;146403917909784670;157089743100000000]];
  [pos0 [41163422434640606;201755702812933468;77928317562674668;647518313410000000]; pos0 [863942986929681563;832633200423542673;427298257560091693;559542060800000000]; pos0 [9629994789811983;61194301042948443;20680126733295958;440029024655000000]];
  [pos0 [723130776202002137;153626188178476717;562554398590099536;3703031200000000]; pos0 [8385493595601985;684136214897187211;209758727280571070;517193507993000000]; pos0 [45207546186509043;116143681570235025;446710748756254782;653069636150000000]];
  [pos0 [767213487095914791;766010803948862138;474129601414148124;247685685500000000]; pos0 [47248218491616775;607905220532270486;257483451717751414;178180628480000000]; pos0 [15840904332824626;903245324321508670;567809790689087285;999177243790000000]];
  [pos0 [5478809002120475;461333427655533747;197267159767899222;785062492986000000]; pos0 [41705573387801838;341402909404547515;980816394945435824;50308977630000000]; pos0 [40409089770917669;83569496595747424;551790590674413842;518016028620000000]];
  [pos0 [467112532371427070;189744246540483084;332626570556229860;52002940000000000]; pos0 [12156343790213248;43533242953479608;874401481331297691;394872187890000000]; pos0 [38896899383318321;197214023579000968;92983974428787338;93023974560000000]];
  [pos0 [328654411772444575;746895407690413182;605911239994074806;726798043200000000]; pos0 [309094160895938516;389271179725919542;168524302642310924;477587890800000000]; pos0 [53609487290381733;169822440996055306;448238517573357893;197610762380000000]];
  [pos0 [902650122367755258;61307895635489654;16508488041288079;384657473600000000]; pos0 [20711777498218406;5539467741474779;942367602687838855;435897874960000000]; pos0 [38518468900029428;12879301009680955;506355433576303548;13305881660000000]];
  [pos0 [74916209942535732;44963628429485841;905307629232054821;360792607070000000]; pos0 [6280830980805791;104136832627911403;1997519662939670;15755771888000000]; pos0 [58745857564304782;604252343821317586;549380754536939720;875787175750000000]];
  [pos0 [216794296950939806;543935114748370002;937979307027223787;887446986400000000]; pos0 [664992345379183135;363736882933723815;409504690456577567;417128518200000000]; pos0 [7878962600534706;292485580320865143;325530710318204643;470981790407000000]];
  [pos0 [722126052521525370;988638693398758517;465392121072811607;574996670100000000]; pos0 [139951204176206229;454907025687604074;988475262148494591;138928840600000000]; pos0 [78226798850889932;695762324200057426;38016582364710552;423569591040000000]];
  [pos0 [535179724059620859;695701173231659733;696720870468777155;398892898500000000]; pos0 [39257511457478279;567961294558639546;209318826260001588;355620303330000000]; pos0 [208341787156215342;687258338755232572;234157649428525710;603397674800000000]];
  [pos0 [108097019855207092;442856225221187075;292182557239679782;553952500300000000]; pos0 [602932487895635162;356029451673443450;1015604265326355;478604920100000000]; pos0 [278701351278013253;433932261923110430;433154968353777623;249199735400000000]];
  [pos0 [1726411452423023;51001564002570027;968039467615199673;46958927889000000]; pos0 [227022643959584169;177274324822221661;315942104808972768;557668167600000000]; pos0 [713830700055790074;90056028116039208;808373950415845133;84878230500000000]];
  [pos0 [6991218397476372;885187400966894454;586488624373670253;426814416578000000]; pos0 [386711117193699852;835179828896931064;39453252375563148;814666691000000000]; pos0 [8390873447007354;705654455284669830;768023946183155464;759766604707000000]];
  [pos0 [9756481519933474;266655355744518832;920764417543289590;164536937751000000]; pos0 [500411119900898000;621663563001379538;841124954256083464;874240761300000000]; pos0 [477826859542409344;853435757677361287;11062128064517473;306999429100000000]];
  [pos0 [168921967625174382;625263131146283723;86284952593954747;117414260900000000]; pos0 [55435467678800165;919155602395850634;952883351024683462;972605452860000000]; pos0 [200383517087928763;199633278292259680;236751393784374731;281211921300000000]];
  [pos0 [146630563694995982;892187956174244468;87274222553163281;809966570000000000]; pos0 [143049035944805008;764182368528824946;327437295585611329;32686663300000000]; pos0 [70679864187729891;128769482792061246;392487333076339749;937563721360000000]];
  [pos0 [400761372677358488;181776258747468248;502036465222084980;586245517900000000]; pos0 [383377601000813294;804796666239517904;679591661916570585;673452058700000000]; pos0 [8092022281750748;290980444193184084;424664193181746398;51470591047000000]];
  [pos0 [340535066753746989;547634091810051644;605372917492584792;413621401500000000]; pos0 [159506883149893444;745976759472686298;241402145553295234;984750696500000000]; pos0 [417313905742938783;566212312891250195;324264375717636422;757391737300000000]];
  [pos0 [302826682348878790;21421529023511437;54988273228420232;969091105400000000]; pos0 [269820727231268206;440660111530234307;471501537037957051;983608492500000000]; pos0 [199069200332926240;816300672628144035;990616901380007370;994441535700000000]];
  [pos0 [5580809785040648;826278672325698572;497292728950712184;388646449348000000]; pos0 [341606319919312159;318442635966022871;297062836669221893;91284701400000000]; pos0 [541297119143546949;262033883643859518;451223741646180706;693609168500000000]];
  [pos0 [337851991220257821;768486106999888380;520816765528607739;287752808400000000]; pos0 [115515336513938757;791302154189850423;981508528609119792;451417622500000000]; pos0 [514600118486077108;475937225671977833;30098783429255585;421008560000000000]];
  [pos0 [35639809579674653;708346506765441606;867042546821788118;997306942670000000]; pos0 [827895341621458028;638658539135562111;261178711783229656;25192806800000000]; pos0 [127473756591617347;390067948918136179;382276735846199378;154951853400000000]];
  [pos0 [143187436357819044;559250369062264582;171489106292338131;219151530600000000]; pos0 [107299003491249876;274895750860394547;389052745743579046;383286586900000000]; pos0 [562577102858788162;419818997638056807;989726531574848351;312643917000000000]];
  [pos0 [134172616080224820;167581647829844678;761610291060114901;654632436300000000]; pos0 [133004127767101778;197045892437159468;713642593287219565;54530912600000000]; pos0 [637968494225278150;585513388309406427;520962601603474305;412540847900000000]];
  [pos0 [370156284550333130;6017945372200111;55465423007170402;996990629100000000]; pos0 [114534616307318688;961033864731550604;236056792732306660;891990107300000000]; pos0 [86370728803322653;66708237519160557;324992295371448157;771462125800000000]];
  [pos0 [615126876776550002;494940610453958680;725577780014620227;518209156900000000]; pos0 [11447274748712608;941122826301496587;144259884718272377;131846823570000000]; pos0 [13712127192563214;13230599615374121;328134802327473101;667586055570000000]];
  [pos0 [60852686403522717;115544271607180130;391958585402003787;277715966850000000]; pos0 [921348996086831668;775992281791033544;738083393301490042;499804118200000000]; pos0 [4911339580585479;705205704279412076;509788415545244428;198792135681000000]];
  [pos0 [169184243361363557;73468587124343817;601525902487185745;152359929600000000]; pos0 [15876294807044784;998655146607759806;822910269243604154;302159843350000000]; pos0 [762463724112180653;338346166809804649;623040063389433445;674494721700000000]];
  [pos0 [128445299644649373;822500225291073109;65509440831816475;963180439900000000]; pos0 [460301395409507805;772470183467901560;497599471153115761;458912890500000000]; pos0 [292684005826493230;514201574399411397;701282785809796414;66132838600000000]];
  [pos0 [611006042733670188;245799762188565056;121169449176518978;391352432500000000]; pos0 [130833429530664639;472803959506246837;23478981018890708;767209007200000000]; pos0 [26992038420548277;88739450051255727;88356940467862308;103354563720000000]];
  [pos0 [236420194427633238;86763429905984876;194390017681962785;506914510700000000]; pos0 [520578600856141276;645524210089641673;587965257144574287;509723985500000000]; pos0 [4920592396507445;134765779390309428;200167906326608174;780184155036000000]];
  [pos0 [585795150505079768;97646112307186118;182540359638183351;861597361600000000]; pos0 [334338307461167888;983535879973684005;145713026300932160;326816129100000000]; pos0 [27359766464448337;621779672688689479;257433684381810297;137334714460000000]];
  [pos0 [106578222846113579;623805979881672565;818674817491374239;132387569800000000]; pos0 [762275343771062881;700079503556420881;769124414605473193;322691235500000000]; pos0 [9156528701771215;943669612464717832;310972841069151734;328304802746000000]];
  [pos0 [784598272483403201;163605535380611921;218791545222815757;833587073800000000]; pos0 [170477887782723255;543579463270276752;471935933393134263;972300775000000000]; pos0 [6733042543853002;115503757211615520;123503706299179441;438437258111000000]];
  [pos0 [368920830531553074;515857406269064955;773452231328633134;552610771200000000]; pos0 [136402450789326032;383343853332285009;712363283547219304;534501034400000000]; pos0 [9632929586525418;380481233388129120;585705629542397922;66667471679000000]];
  [pos0 [153827621071010260;192572696705968114;551798572566704589;998470883100000000]; pos0 [172250970575144554;585922621452205799;309376067495686533;335192484300000000]; pos0 [306636433363501911;889747625947999568;296658263742359616;698239191400000000]];
  [pos0 [341818111110201504;737872399502932771;646716947229902661;149185841300000000]; pos0 [599603453601003213;928645130112967056;401801940391804994;868256040300000000]; pos0 [50186854968264294;960711534026820388;675201586609837913;4463300890000000]];
  [pos0 [474494027687738443;114723566514063285;981686125766657654;591713451700000000]; pos0 [286429716826122253;757570295832754785;416727756530519698;618246298400000000]; pos0 [143444180890939098;695292807538937386;867387140779354825;50001100600000000]];
  [pos0 [29295045241337998;587342504554137137;411193294738240453;748348203390000000]; pos0 [34217617208851594;929448589239919094;747985763476282241;599256759840000000]; pos0 [89492444692557168;939543130046701696;915817272113994610;936733307350000000]];
  [pos0 [329880415870854566;894825546281321837;688324141927366089;813456141500000000]; pos0 [3231704083125481;641406750946527398;254682720284579001;394365946032000000]; pos0 [264372805880355062;343073574362872493;561804283719206516;876006643200000000]];
  [pos0 [316647978365318895;609056232791608055;796301312566227573;496485719500000000]; pos0 [574312186992213396;478921698717412156;546009305235718551;87488421400000000]; pos0 [48275732528454578;57309236938214424;370957871107408706;149531947620000000]];
  [pos0 [783045109250225266;323211988650287584;342443892290827342;417902288200000000]; pos0 [40184877679751095;945237866069890705;725904310356325125;39117949860000000]; pos0 [133330558056096639;792868862201053272;675348942455866810;347273190300000000]];
  [pos0 [182481293035686084;695358600815703642;527356576162266019;271791314500000000]; pos0 [461018377687266187;985128197402901647;378007004687030316;554924394500000000]; pos0 [135469881882397895;153411638302611068;782861067538747486;571365260200000000]];
  [pos0 [239688206241456318;164516842796886805;160382513056113908;110694583100000000]; pos0 [1712958789244692;717508908965188127;514926503471016099;883009771085000000]; pos0 [583784952392183826;831689629353029214;948190719252713253;781973513400000000]];
  [pos0 [267152189954766865;166332534647951758;647852512731736222;324106987400000000]; pos0 [145652106186461045;237810356384628553;395094264256020573;841032394100000000]; pos0 [431866297953409587;453833418265080041;266012093724907320;489606974400000000]];
  [pos0 [48629409161556158;410902524684710711;667271270740644473;538664757800000000]; pos0 [209581640658816415;404719352494579515;732067406803354665;949867527700000000]; pos0 [114265494797719492;27269174354602066;537257608767718511;346866275400000000]];
  [pos0 [33919584534767147;799118426150665564;551432074544854622;118824128340000000]; pos0 [234879239116356330;794621877133372604;729418723763918047;89802109000000000]; pos0 [430644195065078113;49240086921245002;957594056092007990;998409476900000000]];
  [pos0 [5948943940372541;756705573676354933;236310826042951514;23955529955000000]; pos0 [13661914119686863;176722206784436063;860858139751380601;732268976990000000]; pos0 [235354019684798338;856776608920405402;340621216569183891;772980020600000000]];
  [pos0 [208345353360083826;900171793535110962;579653610748770043;5850188100000000]; pos0 [90157637409480553;911400557961814139;903472351611597077;878543323100000000]; pos0 [24873161553749617;592287431738079383;551738471209473224;464282247570000000]];
  [pos0 [133845371497062830;116418648034881810;430358025677698543;699726248100000000]; pos0 [333077579885727411;166117600190605416;75892654854507314;794407731600000000]; pos0 [434181718762591440;827080819764078470;4597151333791028;718930298500000000]];
  [pos0 [583658370566126931;120786366239145584;479927056518089943;223912448900000000]; pos0 [35193270540012340;204778504366187578;949545607078724398;336824964820000000]; pos0 [371386689622335878;206379571796680063;66089655588118203;376621804000000000]];
  [pos0 [908966953707793;46888199668827061;552343979797247044;990361411345800000]; pos0 [904399786313392073;501514538903161916;297102599412049415;643505638300000000]; pos0 [36570002136104249;444498638055225257;86570331334590502;8796285790000000]];
  [pos0 [65141841917249622;314110298748411329;965043721767609235;729226900050000000]; pos0 [700339380670481915;6679454837804809;448783864257589666;503201715600000000]; pos0 [37564880148639420;843145941302118672;549232248021721936;977243671100000000]];
  [pos0 [482325185126860970;221902240543165373;285740774218790751;109724090800000000]; pos0 [106387220264766060;608242216691357024;484714221756237757;137683240600000000]; pos0 [366936736110112654;350404239829269210;937213805293431453;614967293600000000]];
  [pos0 [513157180012346542;164990681685600009;423712911878294308;699215702900000000]; pos0 [329371389028941169;963437974194103718;948008059043764184;860912451100000000]; pos0 [156416359778652806;499046386200057943;131098795451181901;512056562000000000]];
  [pos0 [100671062521237853;768231071742347279;284360792461406005;802896583300000000]; pos0 [569572369549470170;472506159539140210;666065434482350107;173783709500000000]; pos0 [43563002977914388;482813260232000561;176586373434156621;884327650400000000]];
  [pos0 [523739697577062230;224719860475792278;350396717479125350;591702130700000000]; pos0 [2650160838497455;364942512463167979;314073963919428457;434616697630000000]; pos0 [181066690901291289;151134562166002629;36990152986600998;327386705600000000]];
  [pos0 [340678001252099267;165076365422142213;839552498799425122;911316714200000000]; pos0 [210190968959266243;91224141674972815;399006543512375465;737362438900000000]; pos0 [115073134066954419;631063668067749890;537246827388629916;723200162000000000]];
  [pos0 [89817969150313796;87110763161799239;705139422778405535;929970927810000000]; pos0 [11824508047490516;633562186342944625;826810343933707588;358969122710000000]; pos0 [356389589168342474;7590287188351510;841423325776371521;646737742200000000]];
  [pos0 [48385628149587447;30085814638027;80749792990566254;871797722360000000]; pos0 [185765386573979325;937847341943471447;550178638404822531;123027993800000000]; pos0 [3216849558420410;40043485814618680;152282387183315338;242804472398000000]];
  [pos0 [60951789937493327;236952553492693460;127354791852476062;720212778050000000]; pos0 [331373377822262675;493121408186490663;650790001324710076;296105961200000000]; pos0 [231289182047354703;334747752269630371;6284480012285704;649915941400000000]];
  [pos0 [11332415151867660;508771162157426366;68119486099713692;578118416710000000]; pos0 [335054759181893043;532237081143150426;371700232847101618;294401132700000000]; pos0 [211845322554316816;906689626921657145;984965463467125470;634126643100000000]];
  [pos0 [562767455560448070;969679675646209958;125100400808389712;138482057600000000]; pos0 [43212454086386396;100693060148671069;85254624485844765;606536435470000000]; pos0 [341913766726978668;94439015941383271;10202030261277496;618325463600000000]];
  [pos0 [919138421912362033;967231016455452696;491667853933304972;219632066500000000]; pos0 [55468170404868316;305129842188323087;530545864349254333;173817608630000000]; pos0 [16953842089790763;326984219844164341;327488957129696525;1333065250000000]];
  [pos0 [14745010830296588;825118210932766045;352425418731435876;759456751610000000]; pos0 [121790534782903326;288686932962411050;328030580832484176;309360903600000000]; pos0 [365966875666705695;133006811270943619;583876171134744066;666466685300000000]];
  [pos0 [225316703607732568;37729606872166253;175871332510824280;245656919500000000]; pos0 [209125417306792353;496768418769886138;336115828577755116;1331990100000000]; pos0 [551181629502047890;42875857530323502;173563376297481982;713350692900000000]];
  [pos0 [30539086372616671;429142071208088613;355342885415378252;958679532080000000]; pos0 [35510040256368274;797400557581186876;299507179939114999;929246188610000000]; pos0 [606027866333030339;927637335221351518;18866589256331131;278093713600000000]]],
 [pos0 [3107085544969521;48852193806528106;447055998045487406;53769472636000000];
  pos0 [1457359171577578;235122973186924307;924986158680740061;590043775897000000];
  pos0 [4102998287258934;908447491838709936;589057304095602074;329822677436000000];
  pos0 [2314025759577693;386804589856771994;420605591549022210;409944518482000000];
  pos0 [2387636875935567;648114230441532491;644578709190101688;354961442546000000];
  pos0 [2082584674997161;175949604424790767;864502196264428872;818950228979000000];
  pos0 [807441086917866;386124478981495583;301727723689455538;688642120746100000];
  pos0 [1525255430642390;708435072830833312;741249896673163300;805917386277000000];
  pos0 [4433041034531512;515469285638687447;344709916081633643;931845786491000000];
  pos0 [1280798861537931;197877761310009550;259349876495245749;765140965772000000];
  pos0 [1373047498209577;496384159807931348;349421858864350908;907430890931000000];
  pos0 [1077358466893312;230312126479169748;75682690872946280;346364964755000000];
  pos0 [434630414945430;839009204549340506;490661764693933609;607587222389200000];
  pos0 [1495681407548904;792487125068282289;972278206961208761;596251914598000000];
  pos0 [4899023309460350;149339587426658834;163998468920994521;277635735823000000];
  pos0 [1319215615288731;74413490784912733;409363787903260109;742845827193000000];
  pos0 [1301910837618921;149014668594436783;900976071842524150;199731454908000000];
  pos0 [454031564902788;434735382128346177;787910544348818732;780601616452600000];
  pos0 [994538874071745;651321709212873873;62310242672118900;99416320016900000];
  pos0 [928411634494907;766676505720000992;859703379060308939;861476867005200000];
  pos0 [2298624236284665;21001217903397710;456412486194522239;580145747134000000];
  pos0 [3872853883294352;636720609968885972;615367576664274857;599400212759000000];
  pos0 [279292926314527;567611455046989728;656566392018642457;434852017332400000];
  pos0 [1166534226610107;152269029283714492;547547584563686465;210718991108000000];
  pos0 [5394824697152904;37293925260714963;32658130610234029;928930256260000000];
  pos0 [850903174958361;974011367303770586;967590931735397235;586014119622700000];
  pos0 [1132496252760835;656411431597923771;561604866712846988;234200814106000000];
  pos0 [950008046353888;268554409728224243;176129475394470527;617864776240700000];
  pos0 [1462792058534693;634779481112340977;490483834777087868;493787960423000000];
  pos0 [282984757858619;846474549776671409;385788584413102842;942458060379400000];
  pos0 [1290903999494937;663725038754948390;695469299415488268;693332989824000000];
  pos0 [779835906859585;259521964002472136;743851955920217064;508551693670400000];
  pos0 [68908370313902;79982810583363873;72535157549332227;345321775960490000];
  pos0 [929469531231542;387872599057755079;603396905951027553;857270350431800000];
  pos0 [221528542196156;165631031167534247;482591876970676228;49003478724500000];
  pos0 [88712290957248;446549734761001105;854066124180722309;311871887756820000];
  pos0 [4303918629837161;18144382598980792;73433298965139882;967619900362000000];
  pos0 [361926978206344;374420866299364014;421368834806730031;798914619389300000];
  pos0 [2141429799569417;447498061778698354;994930230612268903;773002094036000000];
  pos0 [3706038177953958;98983900455237499;825198748318393026;404824557758000000];
  pos0 [2891317887187616;500514022439075689;816259535028162710;16657012168000000];
  pos0 [4817536745952302;4628411462832041;854063111569336357;762464028181000000];
  pos0 [2126959799624318;294866311718700150;373576687132503854;789747850551000000];
  pos0 [2958713205789752;841073225805137281;724766804600130246;902438771686000000];
  pos0 [2801442336951572;526940666598424453;946589030345770902;261083544781000000];
  pos0 [501387814706499;876261194019349377;5568573434340332;399769906906200000];
  pos0 [4563629683466318;612625471908481812;112859139855832292;314117053343000000];
  pos0 [3601270457797034;466192556518071893;870503563715622675;109470740461000000];
  pos0 [232631418731499;403714006533442448;41400510867732415;524951452316200000];
  pos0 [135458395964232;119435326831518267;832947725661317878;602828668225300000];
  pos0 [3904004305001412;65124605362680156;346670140809013831;210354428140000000];
  pos0 [925750866182125;75658424474126792;906137827530168407;637137672629300000];
  pos0 [287277624893579;707437092353480980;699207786289018618;193158508152100000];
  pos0 [548182283524064;499658960052282501;637624881200246604;501496440172000000];
  pos0 [4133000989552432;497160200274779364;505102569282216468;540152351600000000];
  pos0 [1724902483070527;279571836740055317;799572771659753700;279344415843000000];
  pos0 [1728497178567639;362159431799562160;142721223236720595;647710861104000000];
  pos0 [1093285562399677;237959888470816373;316524434525963532;908226827523000000];
  pos0 [855906267268109;472853188357290565;862983096565294119;896727161454600000];
  pos0 [861742423616307;433612458321303841;241244963294982084;868767284835200000];
  pos0 [297983846400592;409937949684974050;960083006642962412;17174221773500000];
  pos0 [5335424242303601;976042871152031783;520952263287940827;569912096159000000];
  pos0 [3937681394715385;520017083842041433;417193642839206577;248816965762000000];
  pos0 [2685956292327512;673482126919511026;106206012791477742;578851911292000000];
  pos0 [602187518630235;905031571108961970;424179882381504095;25843348100700000];
  pos0 [673342136194764;308233570725365155;390079718252987019;682566599920200000];
  pos0 [1387908499150692;204139085589917113;140293598606501149;947494770962000000];
  pos0 [523127926955736;869224886381090213;437349790157625775;430517911202500000];
  pos0 [2643246068787598;398704068794843260;639694038823214519;167096494805000000];
  pos0 [6406698323570838;671855959622656338;38287018108165787;569323786732000000];
  pos0 [2453223286973615;14389972932135324;713887893089008179;780501026941000000];
  pos0 [968329697074772;816162998391114260;444290733784458018;959422405197600000];
  pos0 [5372764191351208;772977322534135376;341900955006994058;38057769143000000];
  pos0 [758035750919835;154827522706145170;179045225794548969;977275633719400000];
  pos0 [220293417877399;581746459851842786;89750293927415645;784918776102300000];
  pos0 [540098112471687;45482956018879232;512693861290076110;953184705979200000];
  pos0 [569313484168360;237745582406491384;855647377401189207;147837395925600000];
  pos0 [3359430123574140;224852898961394103;947541604511932643;710316156741000000];
  pos0 [417058033843078;389868815718224698;88700584182958047;292154819930200000];
  pos0 [586885647791781;218566024053442353;94542745356105150;414990040702100000];
  pos0 [1566674705471749;232511906427942982;981487835998871817;617044197594000000];
  pos0 [1725199538202636;432929876456017556;458226816434398825;999260505907000000];
  pos0 [1304555592208003;72436235634591696;408343345573101935;826548604500000000];
  pos0 [988613963306180;241380134212804049;756581559440798058;539760872993300000];
  pos0 [78145540309354;798131936386015235;919108172525369353;476726256398120000];
  pos0 [1017270612395557;569505230346652785;461334701968311710;43094385904000000];
  pos0 [1931715456331735;496075752476033742;237576886762039155;307800864919000000];
  pos0 [346986299262850;588955135097276008;34418744483432030;830878237486600000];
  pos0 [721102521460965;197431977622012608;187272937033288873;792627856900400000];
  pos0 [665488652118253;632036216278892476;383881166762527157;3887319261600000];
  pos0 [3179983565131586;402443773236843900;411820046846455940;675511704710000000];
  pos0 [1423736935372220;389863879926573851;836503025148571001;956265746628000000];
  pos0 [461677495928851;510550354675789002;926451696801708156;433959351213600000];
  pos0 [721300625453552;240224043303066906;771475442526902277;394029215738000000];
  pos0 [375438151724171;699221745707214446;608268052379945961;517558042823100000];
  pos0 [511872437828556;195534690435062491;719738904858538784;374314664519600000];
  pos0 [3964866116688008;333718957099238326;424201379030777737;420701607269000000];
  pos0 [3870711051509834;637954021948855658;45601238157154311;806855778085000000];
  pos0 [2351340915737442;642442093319136788;396994012186872807;609008873628000000];
  pos0 [1407190660854458;258848855738795028;52506607982940790;694483279004000000];
  pos0 [2203088364673357;906089195831473386;228212052492024499;124747995962000000];
  pos0 [242546140734738;600524831053217009;57742369828564211;633456110749100000];
  pos0 [1846786201713081;97717837681973468;350415861754494403;800770992370000000];
  pos0 [4651979808189261;736287235271548789;223410654563241464;765312849688000000];
  pos0 [283670901666148;337323382140680079;507698546340662825;77923810763500000];
  pos0 [727859439296498;725146712089736926;645753751266838676;615702743855600000];
  pos0 [5583165743900571;968939810092652902;30298752935477419;542258697535000000];
  pos0 [778290845491044;934717653392193414;983019841337356483;309678866296600000];
  pos0 [561441618607662;774717551107079636;320126132572430889;282828332295200000];
  pos0 [2752456699584889;19841836908737237;129561904912709161;220916358829000000];
  pos0 [1033437518781633;341104148462531404;684172731494189390;413446911065000000];
  pos0 [2853437406158075;822768400350354252;891058748209361640;580258274597000000];
  pos0 [1371187995821543;992462502417001473;427761166391616536;140174609872000000];
  pos0 [2899848760738934;693163045833438839;811051018656801698;588947298039000000];
  pos0 [3593729995297211;221586026200506684;277417074298868284;49479318393000000];
  pos0 [1270432092788583;586835602280661041;645130225374590694;334298364926000000];
  pos0 [180353360001188;743196388018655206;513081945926185555;299460025843500000];
  pos0 [5905031044167648;460663868920039308;405332535249516718;141718217627000000];
  pos0 [2690990763869373;562968912869663900;567579097330121853;584090744397000000];
  pos0 [1332039707760451;326739752808813834;416647580472581715;264836430401000000];
  pos0 [1003289429579823;475135440561937797;308209938306547491;619699102226000000];
  pos0 [944862000341809;445118121398391537;865671579681502247;939792163525500000];
  pos0 [2201763851910720;284474554537068757;743808008144902385;48545012036000000];
  pos0 [743551652237445;132190443238097170;956851849695232598;30281258125700000];
  pos0 [1490286741876701;917013630428183670;771673020093549634;109765263300000000];
  pos0 [2440859933656692;264703767608012977;782019383675080221;794943528746000000];
  pos0 [3525454574435088;26249898827397940;477028828739440566;291244257481000000];
  pos0 [1321321141622693;996301284834015540;166892117575153283;266044481196000000];
  pos0 [4083235732951548;295602698180697979;48251460877942385;939192262167000000];
  pos0 [1236835963606517;526314552574904525;330253644351500317;818038411671000000];
  pos0 [440733900772762;819779055038273570;178474823326850580;265158519812300000];
  pos0 [1356455496377926;624131604514586770;33745767921916679;62359032837000000];
  pos0 [1281939525928266;972782290626595937;810836912216438900;817230858911000000];
  pos0 [1366764295806519;303075790892689204;35551544116171142;729453907000000];
  pos0 [498197053704381;364854589691203563;829802189008616289;544252811879000000];
  pos0 [4690225012083130;228063872513666651;276066617255172780;975846965975000000];
  pos0 [4336056589390713;938220086791397587;392624334332076653;506984759706000000];
  pos0 [4422137145033111;862632843669085266;677277974367598369;422075159303000000];
  pos0 [545629163763733;721779811319624867;377865932520667306;254693447559800000];
  pos0 [2197967621693058;106465359219009015;215322982188382138;86984410248000000];
  pos0 [844027880193396;987638519447016901;42701022049567771;41664359650300000];
  pos0 [449122727672188;895739072657603556;1895066126307033;91944943642600000];
  pos0 [3295574170438482;502822331305840194;246358333138837405;975075079486000000];
  pos0 [2851288946792235;463126054571574482;643592120799182587;916165262010000000];
  pos0 [386344290481651;473030807799148278;358273985372114062;524660571769500000];
  pos0 [2560412843156728;951699739460584406;969917353290434680;636769199692000000];
  pos0 [1004991303756126;403011021697056413;723409367097126982;907611893541000000];
  pos0 [1369003623713428;483644643523821644;392737678333741483;135413404962000000];
  pos0 [970257744917296;833396769922412001;914198086122233190;571002360474500000];
  pos0 [713594896589721;145150860967023330;5281750933866913;310962572333100000];
  pos0 [1266407225749180;136113124407707227;178928666291172733;369717937461000000];
  pos0 [1126332222543569;515581970814087786;533193053203158293;568794787399000000];
  pos0 [657742742378132;216880807412141224;653462231545590585;104625440496400000];
  pos0 [739158770243054;467303971558369462;218926147016597088;495430564241700000];
  pos0 [5886211358898821;617519716850144306;358182944162395017;622662170478000000];
  pos0 [2111953429997831;960254459835839905;454599936064471735;355686648847000000];
  pos0 [577864352266440;654741059117134929;774666996209617260;558494925014100000];
  pos0 [124115445374945;971264799440753993;927322949131115277;15112689189300000];
  pos0 [1959202101336870;729206950600231648;777386077450590138;910873509234000000];
  pos0 [2021177281338247;88660574372966519;190906873803030290;365546057405000000];
  pos0 [3918439653540407;157769694866691273;432049702396686132;597487436613000000];
  pos0 [731099952945151;713897854573179529;85714869604626004;225527963581800000];
  pos0 [846653017703031;213824314936980757;428462973316675277;390301229347600000];
  pos0 [1594870420217780;485746104546192161;606417611518481420;255999811030000000];
  pos0 [1934674683397932;241938941585388474;471343070855115481;995180272444000000];
  pos0 [1888061257507424;486716728624759278;478507449461668590;388906670959000000];
  pos0 [69227087885623;114787907000049800;671892616190233562;531343791550140000];
  pos0 [4942888866362724;438192191292681008;134402765920674450;347699429659000000];
  pos0 [2611507757077515;412449897060860415;771681938551882767;481313727519000000];
  pos0 [1284116359707223;354543499845627373;941753176528412193;437874963488000000];
  pos0 [295044724033135;462857164777094787;239317553948023112;393135737340200000];
  pos0 [1859160419150342;762324573665448117;836301010783608300;787644900294000000];
  pos0 [452056926041725;61017610026185226;492527850377356774;864655097396100000];
  pos0 [266920902513517;411401642536181340;69820410246401905;896782925767100000];
  pos0 [460818626596819;443099430578795564;184914764974213503;311340473662700000];
  pos0 [4141577987159988;648175728132292587;843937407662279967;573556502667000000];
  pos0 [3494579148040028;91000726946760725;402840051476387219;695707189805000000];
  pos0 [2096606063967921;967217995766351113;496396311829188884;89373551200000000];
  pos0 [2508973417564114;243547127197677124;888066458354019020;779236758528000000];
  pos0 [914738200726008;805542050763661588;532685292811629467;32937838578200000];
  pos0 [1222478584076633;772942211448370175;758880048423876001;233114352823000000];
  pos0 [3044995885334689;64361489827444273;85160594681876250;762236148733000000];
  pos0 [876900384583699;409200550604649857;268681117148228621;294873163683200000];
  pos0 [286108839729147;278599014450939464;533898352288864045;230876129551000000];
  pos0 [7312407163240606;978934127727048389;277504088073671193;763455355269000000];
  pos0 [1798516378985652;324228895781977270;794194098828296720;251446093402000000];
  pos0 [497901626995709;892166156811543659;755360751994041727;212768039070200000];
  pos0 [2450224935920060;669669955357862857;620740341986924527;625970343478000000];
  pos0 [189642969423481;581671166692561924;989305468331883519;890561123696700000];
  pos0 [877525088765139;352139078400320303;13962978826260027;41892027067800000];
  pos0 [704472292525692;70347643585482694;48683590932486458;588871296580500000];
  pos0 [553173443336285;698604587615590201;8237811101026018;118996517347200000];
  pos0 [1039686622756246;700200710312231636;332926272957763111;563140289610000000];
  pos0 [1270105115227560;194339881643617626;687479462749435332;373090910362000000];
  pos0 [2569867061606507;230112101205808948;302738689710785360;826765614273000000];
  pos0 [939327373235061;574252670230984906;720552083551013587;83585886200900000];
  pos0 [396135056783784;749937058029502124;783084020246769137;999345766651300000];
  pos0 [915894980963758;811079470177789487;154298182103407385;195035684168400000];
  pos0 [1696634278597054;163969364199059898;281906144597126776;811936614073000000];
  pos0 [955599131465127;915569771527540816;148477414660991909;119020985997700000];
  pos0 [139821599616001;890317147043228857;286529851339384191;445761793139200000];
  pos0 [1812251452464922;128799323103311774;411559480590058254;562923046229000000];
  pos0 [2699177971518235;167563678645242166;922413115024262645;969829949796000000];
  pos0 [1500706112702225;356131962226534742;104242707446229752;138842569702000000];
  pos0 [638449445936457;617924927771053070;578670168033100796;809110425073200000];
  pos0 [206786935812877;928178890806367220;507187230585666479;661396919180000000];
  pos0 [2895765391012746;821276364503150917;788746982060902972;250447179697000000];
  pos0 [2950548558603064;243428157820328172;669571111426774872;662381850573000000];
  pos0 [260935812489581;125444174675651625;782227441902107025;38854835923000000];
  pos0 [2465883944676778;397067176503545173;136536445757759540;272805976854000000];
  pos0 [2121838489026089;82872357538850478;611105505474679344;513518065572000000];
  pos0 [290989398031971;721749623074009555;790506520654639991;471082797002800000];
  pos0 [4410216448069014;387540380339525185;191116280479147114;324804905872000000];
  pos0 [4677326144547813;243037860298966913;292448072525683178;230690176460000000];
  pos0 [2867234822482908;677991142307564918;123179966198348419;591284088915000000];
  pos0 [6278559063146218;767362660018863099;486597022979299505;320598265233000000];
  pos0 [1119400809646823;73562029214201028;462932180964225483;98149447819000000];
  pos0 [2079056051400792;278648000163468192;48999790487646160;508999932884000000];
  pos0 [940569346555537;414824686994416354;578032289341791529;349704258565500000];
  pos0 [1018615758177027;982237704532896193;219492940757919895;405399871998000000];
  pos0 [4678507345877932;542489057308919701;311467314392083652;795318627353000000];
  pos0 [394275756606627;263511671509611902;895234280845866748;333225865621700000];
  pos0 [2953505293648205;971016432811234823;690438754972423437;19969089736000000];
  pos0 [5079701000791905;280311887092941997;804724733924005481;592300379589000000];
  pos0 [2151137313142206;300921036563808127;664922732045262925;775530675920000000];
  pos0 [5452635682969574;264716590170110838;773611683959530093;810309595589000000];
  pos0 [405800359697750;291602927268333237;266778815775332504;762790807406100000];
  pos0 [4132601337580603;375982203083279646;132372512855708752;469372039026000000];
  pos0 [2697850205846381;858292287933052951;791007561168465996;798829917129000000];
  pos0 [1093188656118695;91498650346786515;289958386086990089;178454247016000000];
  pos0 [3871547331155341;289918690109990830;892851414781437419;677473794633000000];
  pos0 [1729166965518824;527398147459235546;174390931360264149;903631693596000000];
  pos0 [1190506807682558;643368571727433788;789665516131805237;362390459659000000];
  pos0 [418852779040160;633911264973859131;994808716334265433;883835132210600000];
  pos0 [7355970536254658;225728675151474897;606688388109084802;926387662014000000];
  pos0 [912882982564846;350282080310536410;235317584763901793;209144632107400000];
  pos0 [4511001012047151;406593867939174115;921688324502252170;964654945370000000];
  pos0 [720399989469284;815757602645762544;83284542489171355;648919689647400000];
  pos0 [757827404674194;400098376094071227;514072026525574854;980248548224500000];
  pos0 [1872960216815683;375073588757449114;664905114993516591;262352210846000000];
  pos0 [4449425691183075;917409774638859064;691816581637809302;46671026679000000];
  pos0 [1433319762969361;803308373542070337;183202393704021140;64528933061000000];
  pos0 [218145966153577;422536074378714252;960568946936260147;522370405004400000];
  pos0 [5852648396882095;181540654171788116;459763905892981584;836472710786000000];
  pos0 [7362230489239754;916872863168867762;240649185835721425;921287930442000000];
  pos0 [2120009767612292;328269375001662706;667201281049887060;257048419682000000];
  pos0 [3496628144000879;967766220373113327;535855828032187029;431749162194000000];
  pos0 [1648009787982850;722593824978225911;419915509800809008;693553446651000000];
  pos0 [2442301156486366;750759370100594864;80200655570508126;571857479554000000];
  pos0 [4084365521153371;338028031725800763;684487361956627580;283473825024000000];
  pos0 [5439307675636189;966158333888968485;249800996937149727;534241727348000000];
  pos0 [4625712673718168;925548903358600632;271283410322112338;258029378108000000];
  pos0 [2001889420144780;779417699434517861;30692265305320351;660718834114000000];
  pos0 [3760460930969792;161423594108302474;257886565809467083;330581138250000000];
  pos0 [5746840620022217;291973326152981881;186645497551180732;418460224221000000];
  pos0 [1517457454555533;449201407804391184;383746540877562414;294225013955000000];
  pos0 [5371745563370709;513041405979146600;551267191112001791;655314370005000000];
  pos0 [3587220836191970;468612284499072817;723823513714157548;40763937715000000];
  pos0 [1751994492321467;556232397784585155;943543051306707679;474261363796000000];
  pos0 [905504403017657;35825816570736364;819409354150369269;726207805561200000];
  pos0 [2849568836924699;709714838164329418;310310655034526599;979359094951000000];
  pos0 [1282023431245292;254151193380722825;27583666509218082;85545811503000000];
  pos0 [496501870384884;18187800863258126;472849913944513047;319766676221100000];
  pos0 [925223769165095;123502289338382168;854429295786014376;623004069357500000];
  pos0 [2694003885120917;537429946552138262;429237640687969616;807488297831000000];
  pos0 [4945171878536036;89199716225444702;633940339850072658;866771490436000000];
  pos0 [4836813790922910;757382583766938959;554648995070231216;207579550750000000];
  pos0 [2313598382019313;765939090058707847;565778795865470845;293404362618000000];
  pos0 [3246700904022639;799872252994336562;955549842152000517;592411265343000000];
  pos0 [454295946597823;930263186884383008;855517813344145014;815820887524200000];
  pos0 [2406468042227640;858049449357305733;190618096350268522;38988263895000000];
  pos0 [1368907255599423;292536868320317589;47502618756136882;951673314700000000];
  pos0 [3281748981420506;248364069843525834;832287820720657718;902413267532000000];
  pos0 [3420279960737267;302926303878925055;935484808728831680;270080375120000000];
  pos0 [2797105972416067;697181527019926479;986193694098046545;171149240601000000];
  pos0 [6392556463850251;191822433789841383;966995572895724960;452897779493000000];
  pos0 [2851182390541708;301016861822110484;279238549381047733;995024087694000000];
  pos0 [2841416167776898;37587521798696408;293251208525663057;228021505854000000];
  pos0 [4450013051192151;471037251712049469;146980159132739229;444964185355000000];
  pos0 [734427391293604;482422443522960686;301691541692494370;755088408955500000];
  pos0 [938671752700819;797064574591493713;543913151052539162;410514122578800000];
  pos0 [4995291121766719;539524495307441063;766935572940161104;613407719452000000];
  pos0 [5723091170155212;642818589576682718;213112380855577273;500161420409000000];
  pos0 [5808311044230109;176397893459625641;174092540921767422;418935765942000000];
  pos0 [1837639254849340;204308541932294123;231073336480000056;221397152722000000];
  pos0 [206420546661564;611926767433211607;8732001431799989;140664626365500000];
  pos0 [2843084238134369;323942518769872180;317100735958350109;954334361233000000];
  pos0 [975376677059080;661567543901856095;16118110208994094;62505974006100000];
  pos0 [4910298383883447;733187148171404644;822441047947216148;275173645611000000];
  pos0 [2918453096107860;286974288108025657;107794527870747125;199174068520000000];
  pos0 [583647457154255;693185791580608931;94920817795792211;235847093417300000];
  pos0 [1418391533920987;725958943528524521;469105586370730663;649118917739000000];
  pos0 [1249521945450198;540598917041128982;83893129913021777;683589281464000000];
  pos0 [2367672014251483;862292963476761519;62258765184387738;992853411542000000];
  pos0 [1712400393535437;590168262402885591;648844487293473394;357454671070000000];
  pos0 [2262967500499489;163508134813571481;562924007406018936;144882220035000000];
  pos0 [1301534672885108;524011797785540853;197710082489548956;273867849671000000];
  pos0 [5338872926814101;389821436222244556;375939401266332175;327899980815000000];
  pos0 [2196971742616977;245269957680210091;723084334080332545;691919333671000000];
  pos0 [1124985181844444;801628888119273846;949640588900981813;52961861255000000];
  pos0 [6700604753353523;436162075624012055;547286613521178448;234443174503000000];
  pos0 [6087417480404480;667084706073000762;706960724304310451;144271275521000000];
  pos0 [3817092387699928;683595291397092367;974041031087721034;73855744313000000];
  pos0 [964699485779464;175537339651584313;706543788990486706;783085483450900000];
  pos0 [2311593044717439;243627817710282244;581787968534363838;562568959937000000];
  pos0 [5106647074472658;963073376048493443;930800239710699335;373558903578000000];
  pos0 [5526149518886664;276357519700370677;877701334856790104;406181523908000000];
  pos0 [3392365521179919;283255360212861384;710101411139449968;921502854451000000];
  pos0 [2249580592214828;703397705621151942;63736388986856151;600271740371000000];
  pos0 [6090909248038761;914315372209073119;295829760764566367;900230283707000000];
  pos0 [1255833263438862;824865132519473036;721983010405163811;75518500827000000];
  pos0 [366501964654878;106930287338202769;501769313257047064;444651095800800000];
  pos0 [2084441066379973;362763869598360261;57132983570948787;661717885647000000];
  pos0 [290657986745067;429699500485049540;2718706273244887;285565718855800000];
  pos0 [1806659102175077;246911254912482362;179064623027548013;667306068374000000];
  pos0 [4378675357276637;618142343535033685;780386587849123562;557836017651000000];
  pos0 [2248674981636339;715071394988906947;557852631458517882;112009996080000000];
  pos0 [1206565235477291;994529207304402210;36075285649918128;683287079529000000];
  pos0 [2271407070436375;404264941389784089;294084576172552645;572716641355000000];
  pos0 [302929486667022;834362110452592955;977164496347384913;45962755661500000];
  pos0 [3761972816525272;266217337717142332;176862824754051020;710149625356000000];
  pos0 [869888274238001;525190184458452449;899178267891378112;24166619482200000];
  pos0 [3001976854467972;496253109077469068;647257984558457121;68289690280000000];
  pos0 [1175404607684483;867199887852387852;943822775365402269;362655439711000000];
  pos0 [3893701382682149;315899101224778412;629738732835393397;779806272208000000];
  pos0 [3082607618786085;946783983878304197;242041601238256988;684615021511000000];
  pos0 [3806737375520551;218941323903557266;91792725456178462;831450752968000000];
  pos0 [769583112386039;359568764190687507;303582645475085472;461806236562200000];
  pos0 [2389048666278280;456305634205472060;671248632880069327;652302546268000000];
  pos0 [1197325092050622;477138158295640087;287907741884136901;219982735330000000];
  pos0 [1707016619740958;552646095768083620;883597396264266466;397143903954000000];
  pos0 [2485579315227737;272106372891263440;603100537111690886;562822715714000000];
  pos0 [3795623598621170;760207485022569415;185234645370460826;119822978566000000];
  pos0 [2736623521361724;406696781480953299;333299427546583061;498796712185000000];
  pos0 [3867902026882856;292789921776091029;628652155713661132;557206800900000000];
  pos0 [1125157427674053;212650375739701901;90725906020905684;748524936908000000];
  pos0 [3309006175775688;650575537817496997;724139449034253321;950992547392000000];
  pos0 [454649627037112;169889832049838574;667579705827807730;370662974816100000];
  pos0 [1995251147621976;354068094880050605;309382547288505374;502032508158000000];
  pos0 [1571189888203280;240378348154541386;403347855295138170;34116774573000000];
  pos0 [329934985005755;916943209445053565;282214428564784692;972888671220000000];
  pos0 [2268872641920383;904849110591119469;612420016566581177;997670932613000000];
  pos0 [812778247614345;334054443533116084;497561724271121253;652496118458500000];
  pos0 [1169263579507466;400593889605995229;219892564237580135;16005077987000000];
  pos0 [5995937512478950;479460254811712405;305547957550455540;331429203833000000];
  pos0 [4418128057450593;906626830058163288;850692883495563822;181822270496000000];
  pos0 [1217428683590010;197015531059790459;873014928438687292;551805479213000000];
  pos0 [4013188230286464;43322340388708263;766408300996826300;38985661163000000];
  pos0 [5075338000346275;28997801990507523;961972334713828498;645968124924000000];
  pos0 [5655884190984700;156212906764226695;604903854009172292;575714632791000000];
  pos0 [3111167569598760;42001870536492030;513261638436784848;723907647591000000];
  pos0 [5604374506747772;260273762921568245;316822177520335154;627968208809000000];
  pos0 [2319030414207347;186056855724718444;560946162030706358;770693486502000000];
  pos0 [565517636972124;411030642993375134;822342575150416491;466022976584700000];
  pos0 [1007045366706616;977518376430340595;430879719146252146;840279617055000000];
  pos0 [5419321003960794;510414072658117079;189266386480806738;977921267305000000];
  pos0 [3401887474505065;483252140048616493;55397536662322033;954163343203000000];
  pos0 [3440645109055953;721311243922299920;667121532599817050;414440888997000000];
  pos0 [5929134910155106;883385398170978532;739644813695338423;385080934160000000];
  pos0 [3564198468487837;183081357691980835;136365605513687172;433570843469000000];
  pos0 [1957456173386182;614096915945496603;269433308762385101;900869113135000000];
  pos0 [3904078315128854;536843738456450741;12313694723385515;449441239137000000];
  pos0 [3271426029383576;733719715348799782;269239556916505354;100408686959000000];
  pos0 [308219503351937;367175597579495018;82675845534101086;705579527778900000];
  pos0 [4044052462395890;579309916306890307;789390910235778624;713535678275000000];
  pos0 [616321986483114;500824159662642499;27372725835988104;280988568709200000];
  pos0 [3619883357177967;219139316748311847;401045476086372090;941884384754000000];
  pos0 [4500833120534223;199455517321045578;75988811716806078;525522721196000000];
  pos0 [387528257643999;898889857533901948;427186414203866565;141132118389100000];
  pos0 [1332291820895265;995327850111701980;443038961003702691;309401924398000000];
  pos0 [4335393669013530;687582439532135430;332744679389732141;913529348108000000];
  pos0 [1311875730076925;760905974940743853;684148614164982014;265143981167000000];
  pos0 [2299959410320018;169891416538449104;696563297754059940;867003705587000000];
  pos0 [1792230066583980;749368365473329792;984129270850019171;844855539049000000];
  pos0 [936486324682820;891571900329547004;797519438758968312;543631141732900000];
  pos0 [2808309027881169;810577336651194888;489331491534490328;925434486756000000];
  pos0 [1297056223680144;317923598681601490;397252231360177802;91997585549000000];
  pos0 [3362199073226946;104443586623713681;979126742865799036;802397800826000000];
  pos0 [3468742682912562;357062870182581114;827258859382928425;807614790420000000];
  pos0 [1186669683131997;933746243615889357;761280772507038573;867981525526000000];
  pos0 [554734424407715;823716770815645460;241216404323140295;177618026310800000];
  pos0 [859878198599545;17674438483448036;671835173962092140;558427289062900000];
  pos0 [1186373364452434;444821793394062697;907373633370674353;422099272587000000];
  pos0 [288452518822317;931077276694788683;787295372679598487;941983306396300000];
  pos0 [1407542492198540;435513700608604519;765981485697442510;241997120636000000];
  pos0 [4323818825121486;481452699745404438;127557889241737522;769339783573000000];
  pos0 [481743493216671;972352549695354198;178947925185247491;115599834911200000];
  pos0 [591483794094046;845030483797244077;892802219035214233;259370961251300000];
  pos0 [1249799506378087;97339604180355943;715231639756269967;46260575442000000];
  pos0 [2469774028289573;708259206795018689;867194902319639358;204991624494000000];
  pos0 [3621271784508280;919862406964444457;3639612742754969;849715221331000000];
  pos0 [1527723796927379;761989084990546784;527299665264551463;508058361244000000];
  pos0 [541957170403169;426212190192325218;743013284916096793;944213400815100000];
  pos0 [378863453103924;515985891431787819;171412946036675065;685765522217900000];
  pos0 [682756285610573;868108332473781368;685435269008247421;390366665815100000];
  pos0 [4212483768830363;750226628963756149;978285826225548276;522703721615000000];
  pos0 [3822622606705256;732424279100509054;751269204943809313;146828516491000000];
  pos0 [1869610312204847;156157638256316603;84351155607621452;836916934966000000];
  pos0 [4851463560630363;664699584162003951;898150335122334897;463860061256000000];
  pos0 [7069824656334226;799923871331793183;9916331869524205;458035748864000000];
  pos0 [892324382364676;765954683193027974;923727896583149303;259376758565000000];
  pos0 [3074083767704294;382318532479296462;694331849999672849;326474966797000000];
  pos0 [590604973886878;278326172584382445;679031785776202302;29620479286300000];
  pos0 [5663127792200320;908639239804293067;173194386453292505;219931594088000000];
  pos0 [3224472424827798;128525334408492421;947214916177867393;261897667604000000];
  pos0 [5249165970709499;232944672297572553;228241743880490615;906567455918000000];
  pos0 [776257791991685;960714270739202093;366353982330133369;562067653699700000];
  pos0 [219690446284581;490751074864751684;754776029114720673;546301075299100000];
  pos0 [901206838284076;784750371645329023;109640392960227070;591183535660700000];
  pos0 [4794411321492987;262370368695396684;111544613411215967;690304574341000000];
  pos0 [3369975597521328;772291724157299420;209597813729810273;885972730285000000];
  pos0 [1324351171401327;217105470345179167;264505839759931506;926674296646000000];
  pos0 [2155690260602618;580280203144751468;548934457695756839;473681907793000000];
  pos0 [1171568956296674;107967375987926271;75430597213018104;598967239763000000];
  pos0 [506225484045218;979736183181867225;14897852437515661;264746208531700000];
  pos0 [1943493388212479;754437098151895121;935167107576001829;599361844854000000];
  pos0 [4996983047959258;430424523658337198;335881250450268573;131666248775000000];
  pos0 [1150075893131915;931918522092008920;336436161207790677;421302617831000000];
  pos0 [4969400680796730;655983146827415170;982458280086072864;610186964884000000];
  pos0 [976506964299955;672123005336649819;224916188015832757;567869550901300000];
  pos0 [1033932388978825;919747671138807970;941737373141157413;509394132783000000];
  pos0 [2160761952979495;323751163812721238;368780155487032300;205673091866000000];
  pos0 [1666253341087117;14745101378941838;675977024146738067;618854154369000000];
  pos0 [5972898002766029;949081509304734507;986340571066769357;991019831027000000];
  pos0 [778799969214029;754856412512425319;260903487363468398;72192510040200000];
  pos0 [5382644833895082;196902175265197505;592191501128837842;217063877007000000];
  pos0 [3295764865120781;858124658840135352;21847782712141642;876877451679000000];
  pos0 [3392915168558253;659713410428159739;934830674151238709;940747687479000000];
  pos0 [464697453461204;124408344017918967;344997738908375739;600157161361000000];
  pos0 [1714767805411967;837802816490714173;51538385447859109;553732593938000000];
  pos0 [5486982900161855;251723400113194489;253495078949859148;322625314320000000];
  pos0 [745457841490817;792163636854898051;569663588144530007;892904843183800000];
  pos0 [233062523578147;820412203501497524;162361840667733461;534338809999000000];
  pos0 [2150853522720168;693518139990963954;34834429801133758;143547889000000000];
  pos0 [3595631154518662;712348907472409247;703989117616154270;296974560443000000];
  pos0 [958932600023601;147590290073427486;396336074749743421;657600888528900000];
  pos0 [3036561559826645;559306134840772877;674291593514142234;163221106294000000];
  pos0 [1025959726776522;214835185744708640;989078816811414928;386295020686000000];
  pos0 [6524771824097624;209674343239077570;70388512530283406;408040147778000000];
  pos0 [1581330313774575;160265138340214486;510520637528810729;571294651356000000];
  pos0 [471978809470710;906767610470365088;605490498771450186;493267990190100000];
  pos0 [4644861444207621;250778811999806167;31753850914391671;765809791660000000];
  pos0 [2195869619124833;850836549718693330;197356401677808273;926227174348000000];
  pos0 [1943246365838183;703583382478415741;761117160863087292;585988099906000000];
  pos0 [311685814977148;494399268239344387;463147822672317697;223937643241800000];
  pos0 [2713100110464541;214185567669660966;272569265182737822;255271226258000000];
  pos0 [2191515869678084;559955178675178203;437865231754085531;823828381902000000];
  pos0 [1876388751228706;516592547325560969;538792355931009536;737051203457000000]]).
Definition JS_Tet : raw_table := [(2%nat, JS_Tet_2); (3%nat, JS_Tet_3); (4%nat, JS_Tet_4); (5%nat, JS_Tet_5); (6%nat, JS_Tet_6); (7%nat, JS_Tet_7); (8%nat, JS_Tet_8); (9%nat, JS_Tet_9); (10%nat, JS_Tet_10); (11%nat, JS_Tet_11); (12%nat, JS_Tet_12); (13%nat, JS_Tet_13); (14%nat, JS_Tet_14); (15%nat, JS_Tet_15); (16%nat, JS_Tet_16); (17%nat, JS_Tet_17); (18%nat, JS_Tet_18); (19%nat, JS_Tet_19); (20%nat, JS_Tet_20)].
