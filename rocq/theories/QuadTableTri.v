(** The table of src/quadrules/WitherdenVincent2015_Tri.cpp (generated by tools/gen_quad_tables.py). *)
Require Import List Uint63.
Require Import Verif.QuadTableModel.
Import ListNotations.
Local Open Scope list_scope.
Local Open Scope uint63_scope.
(** WitherdenVincent2015_Tri.cpp:10-12, order 1. *)
Definition WV_Tri_1 : raw_rule := (
 [[neg0 [333333333333333333;333333333333333333;330000000000000000]; neg0 [333333333333333333;333333333333333333;330000000000000000]]],
 [Dec false 2 []]).
(** WitherdenVincent2015_Tri.cpp:13-18, order 2. *)
Definition WV_Tri_2 : raw_rule := (
 [[neg0 [666666666666666666;666666666666666666;670000000000000000]; pos0 [333333333333333333;333333333333333333;330000000000000000]];
  [pos0 [333333333333333333;333333333333333333;330000000000000000]; neg0 [666666666666666666;666666666666666666;670000000000000000]];
  [neg0 [666666666666666666;666666666666666666;670000000000000000]; neg0 [666666666666666666;666666666666666666;670000000000000000]]],
 [pos0 [666666666666666666;666666666666666666;670000000000000000];
  pos0 [666666666666666666;666666666666666666;670000000000000000];
  pos0 [666666666666666666;666666666666666666;670000000000000000]]).
(** WitherdenVincent2015_Tri.cpp:19-28, order 4. *)
Definition WV_Tri_4 : raw_rule := (
 [[neg0 [108103018168070227;363341492233896023;200000000000000000]; neg0 [783793963663859545;273317015532207953;600000000000000000]];
  [neg0 [783793963663859545;273317015532207953;600000000000000000]; neg0 [108103018168070227;363341492233896023;200000000000000000]];
  [neg0 [108103018168070227;363341492233896023;200000000000000000]; neg0 [108103018168070227;363341492233896023;200000000000000000]];
  [neg0 [816847572980458513;80857073195596984;290000000000000000]; pos0 [633695145960917026;161714146391193968;580000000000000000]];
  [pos0 [633695145960917026;161714146391193968;580000000000000000]; neg0 [816847572980458513;80857073195596984;290000000000000000]];
  [neg0 [816847572980458513;80857073195596984;290000000000000000]; neg0 [816847572980458513;80857073195596984;290000000000000000]]],
 [pos0 [446763179356022931;390014016866245608;740000000000000000];
  pos0 [446763179356022931;390014016866245608;740000000000000000];
  pos0 [446763179356022931;390014016866245608;740000000000000000];
  pos0 [219903487310643735;276652649800421057;930000000000000000];
  pos0 [219903487310643735;276652649800421057;930000000000000000];
  pos0 [219903487310643735;276652649800421057;930000000000000000]]).
(** WitherdenVincent2015_Tri.cpp:29-40, order 5. *)
Definition WV_Tri_5 : raw_rule := (
 [[neg0 [333333333333333333;333333333333333333;330000000000000000]; neg0 [333333333333333333;333333333333333333;330000000000000000]];
  [neg0 [797426985353087322;398025276169752343;890000000000000000]; pos0 [594853970706174644;796050552339504687;780000000000000000]];
  [pos0 [594853970706174644;796050552339504687;780000000000000000]; neg0 [797426985353087322;398025276169752343;890000000000000000]];
  [neg0 [797426985353087322;398025276169752343;890000000000000000]; neg0 [797426985353087322;398025276169752343;890000000000000000]];
  [neg0 [59715871789769820;459117580973104798;968000000000000000]; neg0 [880568256420460359;81764838053790402;60000000000000000]];
  [neg0 [880568256420460359;81764838053790402;60000000000000000]; neg0 [59715871789769820;459117580973104798;968000000000000000]];
  [neg0 [59715871789769820;459117580973104798;968000000000000000]; neg0 [59715871789769820;459117580973104798;968000000000000000]]],
 [pos0 [450000000000000000];
  pos0 [251878361089654305;191367891000362667;320000000000000000];
  pos0 [251878361089654305;191367891000362667;320000000000000000];
  pos0 [251878361089654305;191367891000362667;320000000000000000];
  pos0 [264788305577012361;475298775666303999;350000000000000000];
  pos0 [264788305577012361;475298775666303999;350000000000000000];
  pos0 [264788305577012361;475298775666303999;350000000000000000]]).
(** WitherdenVincent2015_Tri.cpp:41-59, order 6. *)
Definition WV_Tri_6 : raw_rule := (
 [[neg0 [873821971016995543;319336794258361685;320000000000000000]; pos0 [747643942033991086;638673588516723370;640000000000000000]];
  [pos0 [747643942033991086;638673588516723370;640000000000000000]; neg0 [873821971016995543;319336794258361685;320000000000000000]];
  [neg0 [873821971016995543;319336794258361685;320000000000000000]; neg0 [873821971016995543;319336794258361685;320000000000000000]];
  [neg0 [501426509658179157;416722893785961847;820000000000000000]; pos0 [2853019316358314;833445787571923695;648100000000000000]];
  [pos0 [2853019316358314;833445787571923695;648100000000000000]; neg0 [501426509658179157;416722893785961847;820000000000000000]];
  [neg0 [501426509658179157;416722893785961847;820000000000000000]; neg0 [501426509658179157;416722893785961847;820000000000000000]];
  [neg0 [893709900310366105;293500656737203706;10000000000000000]; pos0 [273004998242797294;460285188824099399;610000000000000000]];
  [pos0 [273004998242797294;460285188824099399;610000000000000000]; neg0 [893709900310366105;293500656737203706;10000000000000000]];
  [neg0 [379295097932431189;166784532086895693;590000000000000000]; pos0 [273004998242797294;460285188824099399;610000000000000000]];
  [pos0 [273004998242797294;460285188824099399;610000000000000000]; neg0 [379295097932431189;166784532086895693;590000000000000000]];
  [neg0 [379295097932431189;166784532086895693;590000000000000000]; neg0 [893709900310366105;293500656737203706;10000000000000000]];
  [neg0 [893709900310366105;293500656737203706;10000000000000000]; neg0 [379295097932431189;166784532086895693;590000000000000000]]],
 [pos0 [101689812740413633;841873618213737968;90000000000000000];
  pos0 [101689812740413633;841873618213737968;90000000000000000];
  pos0 [101689812740413633;841873618213737968;90000000000000000];
  pos0 [233572551452758732;50579222771158882;650000000000000000];
  pos0 [233572551452758732;50579222771158882;650000000000000000];
  pos0 [233572551452758732;50579222771158882;650000000000000000];
  pos0 [165702151236747150;387106912840884907;960000000000000000];
  pos0 [165702151236747150;387106912840884907;960000000000000000];
  pos0 [165702151236747150;387106912840884907;960000000000000000];
  pos0 [165702151236747150;387106912840884907;960000000000000000];
  pos0 [165702151236747150;387106912840884907;960000000000000000];
  pos0 [165702151236747150;387106912840884907;960000000000000000]]).
(** WitherdenVincent2015_Tri.cpp:60-83, order 7. *)
Definition WV_Tri_7 : raw_rule := (
 [[neg0 [932538702890824302;570056547398367523;850000000000000000]; pos0 [865077405781648605;140113094796735047;700000000000000000]];
  [pos0 [865077405781648605;140113094796735047;700000000000000000]; neg0 [932538702890824302;570056547398367523;850000000000000000]];
  [neg0 [932538702890824302;570056547398367523;850000000000000000]; neg0 [932538702890824302;570056547398367523;850000000000000000]];
  [neg0 [516845234809192882;99626460324436000;820000000000000000]; pos0 [33690469618385764;199252920648872001;638000000000000000]];
  [pos0 [33690469618385764;199252920648872001;638000000000000000]; neg0 [516845234809192882;99626460324436000;820000000000000000]];
  [neg0 [516845234809192882;99626460324436000;820000000000000000]; neg0 [516845234809192882;99626460324436000;820000000000000000]];
  [neg0 [51380614990563531;580838528101628435;36000000000000000]; neg0 [897238770018872936;838322943796743129;930000000000000000]];
  [neg0 [897238770018872936;838322943796743129;930000000000000000]; neg0 [51380614990563531;580838528101628435;36000000000000000]];
  [neg0 [51380614990563531;580838528101628435;36000000000000000]; neg0 [51380614990563531;580838528101628435;36000000000000000]];
  [neg0 [905926710694809533;317180049286230048;970000000000000000]; pos0 [508560081100106354;712478649256239927;380000000000000000]];
  [pos0 [508560081100106354;712478649256239927;380000000000000000]; neg0 [905926710694809533;317180049286230048;970000000000000000]];
  [neg0 [602633370405296821;395298599970009878;420000000000000000]; pos0 [508560081100106354;712478649256239927;380000000000000000]];
  [pos0 [508560081100106354;712478649256239927;380000000000000000]; neg0 [602633370405296821;395298599970009878;420000000000000000]];
  [neg0 [602633370405296821;395298599970009878;420000000000000000]; neg0 [905926710694809533;317180049286230048;970000000000000000]];
  [neg0 [905926710694809533;317180049286230048;970000000000000000]; neg0 [602633370405296821;395298599970009878;420000000000000000]]],
 [pos0 [33090100221584262;71955896945834891;238000000000000000];
  pos0 [33090100221584262;71955896945834891;238000000000000000];
  pos0 [33090100221584262;71955896945834891;238000000000000000];
  pos0 [255888342460311145;565802470369292621;330000000000000000];
  pos0 [255888342460311145;565802470369292621;330000000000000000];
  pos0 [255888342460311145;565802470369292621;330000000000000000];
  pos0 [154173292371972135;669643041667482772;930000000000000000];
  pos0 [154173292371972135;669643041667482772;930000000000000000];
  pos0 [154173292371972135;669643041667482772;930000000000000000];
  pos0 [111757465806399561;679632628842028190;590000000000000000];
  pos0 [111757465806399561;679632628842028190;590000000000000000];
  pos0 [111757465806399561;679632628842028190;590000000000000000];
  pos0 [111757465806399561;679632628842028190;590000000000000000];
  pos0 [111757465806399561;679632628842028190;590000000000000000];
  pos0 [111757465806399561;679632628842028190;590000000000000000]]).
(** WitherdenVincent2015_Tri.cpp:84-108, order 8. *)
Definition WV_Tri_8 : raw_rule := (
 [[neg0 [333333333333333333;333333333333333333;330000000000000000]; neg0 [333333333333333333;333333333333333333;330000000000000000]];
  [neg0 [81414823414553687;942368971011661355;879000000000000000]; neg0 [837170353170892624;115262057976677288;240000000000000000]];
  [neg0 [837170353170892624;115262057976677288;240000000000000000]; neg0 [81414823414553687;942368971011661355;879000000000000000]];
  [neg0 [81414823414553687;942368971011661355;879000000000000000]; neg0 [81414823414553687;942368971011661355;879000000000000000]];
  [neg0 [658861384496479586;755412997017070997;960000000000000000]; pos0 [317722768992959173;510825994034141995;930000000000000000]];
  [pos0 [317722768992959173;510825994034141995;930000000000000000]; neg0 [658861384496479586;755412997017070997;960000000000000000]];
  [neg0 [658861384496479586;755412997017070997;960000000000000000]; neg0 [658861384496479586;755412997017070997;960000000000000000]];
  [neg0 [898905543365938049;83152898806802106;310000000000000000]; pos0 [797811086731876098;166305797613604212;620000000000000000]];
  [pos0 [797811086731876098;166305797613604212;620000000000000000]; neg0 [898905543365938049;83152898806802106;310000000000000000]];
  [neg0 [898905543365938049;83152898806802106;310000000000000000]; neg0 [898905543365938049;83152898806802106;310000000000000000]];
  [neg0 [983210445180084789;325572330921411101;620000000000000000]; pos0 [456984785910808562;482000758352123926;40000000000000000]];
  [pos0 [456984785910808562;482000758352123926;40000000000000000]; neg0 [983210445180084789;325572330921411101;620000000000000000]];
  [neg0 [473774340730723773;156428427430712824;420000000000000000]; pos0 [456984785910808562;482000758352123926;40000000000000000]];
  [pos0 [456984785910808562;482000758352123926;40000000000000000]; neg0 [473774340730723773;156428427430712824;420000000000000000]];
  [neg0 [473774340730723773;156428427430712824;420000000000000000]; neg0 [983210445180084789;325572330921411101;620000000000000000]];
  [neg0 [983210445180084789;325572330921411101;620000000000000000]; neg0 [473774340730723773;156428427430712824;420000000000000000]]],
 [pos0 [288631215355574336;502182220978129249;600000000000000000];
  pos0 [190183268534569249;587792208777168633;200000000000000000];
  pos0 [190183268534569249;587792208777168633;200000000000000000];
  pos0 [190183268534569249;587792208777168633;200000000000000000];
  pos0 [206434741069436500;563583100584258060;30000000000000000];
  pos0 [206434741069436500;563583100584258060;30000000000000000];
  pos0 [206434741069436500;563583100584258060;30000000000000000];
  pos0 [64916995246396160;621851856683561193;593000000000000000];
  pos0 [64916995246396160;621851856683561193;593000000000000000];
  pos0 [64916995246396160;621851856683561193;593000000000000000];
  pos0 [54460628348869988;529689380147817848;320000000000000000];
  pos0 [54460628348869988;529689380147817848;320000000000000000];
  pos0 [54460628348869988;529689380147817848;320000000000000000];
  pos0 [54460628348869988;529689380147817848;320000000000000000];
  pos0 [54460628348869988;529689380147817848;320000000000000000];
  pos0 [54460628348869988;529689380147817848;320000000000000000]]).
(** WitherdenVincent2015_Tri.cpp:109-138, order 9. *)
Definition WV_Tri_9 : raw_rule := (
 [[neg0 [333333333333333333;333333333333333333;330000000000000000]; neg0 [333333333333333333;333333333333333333;330000000000000000]];
  [neg0 [125820817014126725;460139271129290054;640000000000000000]; neg0 [748358365971746549;79721457741419890;720000000000000000]];
  [neg0 [748358365971746549;79721457741419890;720000000000000000]; neg0 [125820817014126725;460139271129290054;640000000000000000]];
  [neg0 [125820817014126725;460139271129290054;640000000000000000]; neg0 [125820817014126725;460139271129290054;640000000000000000]];
  [neg0 [623592928761934539;518077439065328863;780000000000000000]; pos0 [247185857523869079;36154878130657727;550000000000000000]];
  [pos0 [247185857523869079;36154878130657727;550000000000000000]; neg0 [623592928761934539;518077439065328863;780000000000000000]];
  [neg0 [623592928761934539;518077439065328863;780000000000000000]; neg0 [623592928761934539;518077439065328863;780000000000000000]];
  [neg0 [20634961602524744;432586150327614401;262000000000000000]; neg0 [958730076794950511;134827699344771197;480000000000000000]];
  [neg0 [958730076794950511;134827699344771197;480000000000000000]; neg0 [20634961602524744;432586150327614401;262000000000000000]];
  [neg0 [20634961602524744;432586150327614401;262000000000000000]; neg0 [20634961602524744;432586150327614401;262000000000000000]];
  [neg0 [910540973211094580;269786820067447270]; pos0 [821081946422189160;539573640134894540]];
  [pos0 [821081946422189160;539573640134894540]; neg0 [910540973211094580;269786820067447270]];
  [neg0 [910540973211094580;269786820067447270]; neg0 [910540973211094580;269786820067447270]];
  [neg0 [926323175890527432;730364802433229795;380000000000000000]; pos0 [482397197568996041;380159747046847654;870000000000000000]];
  [pos0 [482397197568996041;380159747046847654;870000000000000000]; neg0 [926323175890527432;730364802433229795;380000000000000000]];
  [neg0 [556074021678468608;649794944613617859;490000000000000000]; pos0 [482397197568996041;380159747046847654;870000000000000000]];
  [pos0 [482397197568996041;380159747046847654;870000000000000000]; neg0 [556074021678468608;649794944613617859;490000000000000000]];
  [neg0 [556074021678468608;649794944613617859;490000000000000000]; neg0 [926323175890527432;730364802433229795;380000000000000000]];
  [neg0 [926323175890527432;730364802433229795;380000000000000000]; neg0 [556074021678468608;649794944613617859;490000000000000000]]],
 [pos0 [194271592565597667;638483965014577259;480000000000000000];
  pos0 [155655082009548558;633478712598807912;240000000000000000];
  pos0 [155655082009548558;633478712598807912;240000000000000000];
  pos0 [155655082009548558;633478712598807912;240000000000000000];
  pos0 [159295477854420506;65783548528090546;500000000000000000];
  pos0 [159295477854420506;65783548528090546;500000000000000000];
  pos0 [159295477854420506;65783548528090546;500000000000000000];
  pos0 [62669400454278141;73709662574418630;986000000000000000];
  pos0 [62669400454278141;73709662574418630;986000000000000000];
  pos0 [62669400454278141;73709662574418630;986000000000000000];
  pos0 [51155351317396062;523357597117999647;955000000000000000];
  pos0 [51155351317396062;523357597117999647;955000000000000000];
  pos0 [51155351317396062;523357597117999647;955000000000000000];
  pos0 [86567078754578754;578754578754578754;579000000000000000];
  pos0 [86567078754578754;578754578754578754;579000000000000000];
  pos0 [86567078754578754;578754578754578754;579000000000000000];
  pos0 [86567078754578754;578754578754578754;579000000000000000];
  pos0 [86567078754578754;578754578754578754;579000000000000000];
  pos0 [86567078754578754;578754578754578754;579000000000000000]]).
(** WitherdenVincent2015_Tri.cpp:139-177, order 10. *)
Definition WV_Tri_10 : raw_rule := (
 [[neg0 [333333333333333333;333333333333333333;330000000000000000]; neg0 [333333333333333333;333333333333333333;330000000000000000]];
  [neg0 [935889253566112974;138030821327020522;70000000000000000]; pos0 [871778507132225948;276061642654041044;140000000000000000]];
  [pos0 [871778507132225948;276061642654041044;140000000000000000]; neg0 [935889253566112974;138030821327020522;70000000000000000]];
  [neg0 [935889253566112974;138030821327020522;70000000000000000]; neg0 [935889253566112974;138030821327020522;70000000000000000]];
  [neg0 [715677797886871229;815675793618083356;560000000000000000]; pos0 [431355595773742459;631351587236166713;120000000000000000]];
  [pos0 [431355595773742459;631351587236166713;120000000000000000]; neg0 [715677797886871229;815675793618083356;560000000000000000]];
  [neg0 [715677797886871229;815675793618083356;560000000000000000]; neg0 [715677797886871229;815675793618083356;560000000000000000]];
  [neg0 [356374009422329157;549804878027902572;530000000000000000]; pos0 [60108237854688056;554191347891388233;782000000000000000]];
  [pos0 [60108237854688056;554191347891388233;782000000000000000]; neg0 [356374009422329157;549804878027902572;530000000000000000]];
  [neg0 [703734228432358899;4386469863485661;250000000000000000]; pos0 [60108237854688056;554191347891388233;782000000000000000]];
  [pos0 [60108237854688056;554191347891388233;782000000000000000]; neg0 [703734228432358899;4386469863485661;250000000000000000]];
  [neg0 [703734228432358899;4386469863485661;250000000000000000]; neg0 [356374009422329157;549804878027902572;530000000000000000]];
  [neg0 [356374009422329157;549804878027902572;530000000000000000]; neg0 [703734228432358899;4386469863485661;250000000000000000]];
  [neg0 [940760221022540464;732327461147914398;950000000000000000]; pos0 [202466657366918490;909485786917375618;750000000000000000]];
  [pos0 [202466657366918490;909485786917375618;750000000000000000]; neg0 [940760221022540464;732327461147914398;950000000000000000]];
  [neg0 [261706436344378026;177158325769461219;800000000000000000]; pos0 [202466657366918490;909485786917375618;750000000000000000]];
  [pos0 [202466657366918490;909485786917375618;750000000000000000]; neg0 [261706436344378026;177158325769461219;800000000000000000]];
  [neg0 [261706436344378026;177158325769461219;800000000000000000]; neg0 [940760221022540464;732327461147914398;950000000000000000]];
  [neg0 [940760221022540464;732327461147914398;950000000000000000]; neg0 [261706436344378026;177158325769461219;800000000000000000]];
  [neg0 [943264669320123121;499128488843739588;810000000000000000]; pos0 [615861201845758130;159899805763488218;140000000000000000]];
  [pos0 [615861201845758130;159899805763488218;140000000000000000]; neg0 [943264669320123121;499128488843739588;810000000000000000]];
  [neg0 [672596532525635008;660771316919748629;320000000000000000]; pos0 [615861201845758130;159899805763488218;140000000000000000]];
  [pos0 [615861201845758130;159899805763488218;140000000000000000]; neg0 [672596532525635008;660771316919748629;320000000000000000]];
  [neg0 [672596532525635008;660771316919748629;320000000000000000]; neg0 [943264669320123121;499128488843739588;810000000000000000]];
  [neg0 [943264669320123121;499128488843739588;810000000000000000]; neg0 [672596532525635008;660771316919748629;320000000000000000]]],
 [pos0 [163486658292571932;856237369968355224;390000000000000000];
  pos0 [26705937626299132;551145956798137306;994000000000000000];
  pos0 [26705937626299132;551145956798137306;994000000000000000];
  pos0 [26705937626299132;551145956798137306;994000000000000000];
  pos0 [91915927209489456;27575819265095632;800000000000000000];
  pos0 [91915927209489456;27575819265095632;800000000000000000];
  pos0 [91915927209489456;27575819265095632;800000000000000000];
  pos0 [127809812792848090;865797467525306643;730000000000000000];
  pos0 [127809812792848090;865797467525306643;730000000000000000];
  pos0 [127809812792848090;865797467525306643;730000000000000000];
  pos0 [127809812792848090;865797467525306643;730000000000000000];
  pos0 [127809812792848090;865797467525306643;730000000000000000];
  pos0 [127809812792848090;865797467525306643;730000000000000000];
  pos0 [68369296325918857;257383168082684580;517000000000000000];
  pos0 [68369296325918857;257383168082684580;517000000000000000];
  pos0 [68369296325918857;257383168082684580;517000000000000000];
  pos0 [68369296325918857;257383168082684580;517000000000000000];
  pos0 [68369296325918857;257383168082684580;517000000000000000];
  pos0 [68369296325918857;257383168082684580;517000000000000000];
  pos0 [50595515414576768;778085581365666435;125000000000000000];
  pos0 [50595515414576768;778085581365666435;125000000000000000];
  pos0 [50595515414576768;778085581365666435;125000000000000000];
  pos0 [50595515414576768;778085581365666435;125000000000000000];
  pos0 [50595515414576768;778085581365666435;125000000000000000];
  pos0 [50595515414576768;778085581365666435;125000000000000000]]).
(** WitherdenVincent2015_Tri.cpp:178-221, order 11. *)
Definition WV_Tri_11 : raw_rule := (
 [[neg0 [333333333333333333;333333333333333333;330000000000000000]; neg0 [333333333333333333;333333333333333333;330000000000000000]];
  [neg0 [943029164771256181;40367266389819018;650000000000000000]; pos0 [886058329542512362;80734532779638037;300000000000000000]];
  [pos0 [886058329542512362;80734532779638037;300000000000000000]; neg0 [943029164771256181;40367266389819018;650000000000000000]];
  [neg0 [943029164771256181;40367266389819018;650000000000000000]; neg0 [943029164771256181;40367266389819018;650000000000000000]];
  [neg0 [579560086593643485;983875463308414779;730000000000000000]; pos0 [159120173187286971;967750926616829559;460000000000000000]];
  [pos0 [159120173187286971;967750926616829559;460000000000000000]; neg0 [579560086593643485;983875463308414779;730000000000000000]];
  [neg0 [579560086593643485;983875463308414779;730000000000000000]; neg0 [579560086593643485;983875463308414779;730000000000000000]];
  [neg0 [794729034575507139;101769860230111675;940000000000000000]; pos0 [589458069151014278;203539720460223351;890000000000000000]];
  [pos0 [589458069151014278;203539720460223351;890000000000000000]; neg0 [794729034575507139;101769860230111675;940000000000000000]];
  [neg0 [794729034575507139;101769860230111675;940000000000000000]; neg0 [794729034575507139;101769860230111675;940000000000000000]];
  [neg0 [8216198068218173;870119761992768014;727800000000000000]; neg0 [983567603863563652;259760476014463970;540000000000000000]];
  [neg0 [983567603863563652;259760476014463970;540000000000000000]; neg0 [8216198068218173;870119761992768014;727800000000000000]];
  [neg0 [8216198068218173;870119761992768014;727800000000000000]; neg0 [8216198068218173;870119761992768014;727800000000000000]];
  [neg0 [123068146471295617;953328274314961091;660000000000000000]; neg0 [753863707057408764;93343451370077816;670000000000000000]];
  [neg0 [753863707057408764;93343451370077816;670000000000000000]; neg0 [123068146471295617;953328274314961091;660000000000000000]];
  [neg0 [123068146471295617;953328274314961091;660000000000000000]; neg0 [123068146471295617;953328274314961091;660000000000000000]];
  [neg0 [701350422695835227;608548424245652954;740000000000000000]; pos0 [686699567323706324;397982872797649861;80000000000000000]];
  [pos0 [686699567323706324;397982872797649861;80000000000000000]; neg0 [701350422695835227;608548424245652954;740000000000000000]];
  [neg0 [985349144627871096;789434448551996906;330000000000000000]; pos0 [686699567323706324;397982872797649861;80000000000000000]];
  [pos0 [686699567323706324;397982872797649861;80000000000000000]; neg0 [985349144627871096;789434448551996906;330000000000000000]];
  [neg0 [985349144627871096;789434448551996906;330000000000000000]; neg0 [701350422695835227;608548424245652954;740000000000000000]];
  [neg0 [701350422695835227;608548424245652954;740000000000000000]; neg0 [985349144627871096;789434448551996906;330000000000000000]];
  [neg0 [907978999669140088;220080447410265489;760000000000000000]; pos0 [328816748393728394;807095352665031572;300000000000000000]];
  [pos0 [328816748393728394;807095352665031572;300000000000000000]; neg0 [907978999669140088;220080447410265489;760000000000000000]];
  [neg0 [420837748724588306;587014905254766082;540000000000000000]; pos0 [328816748393728394;807095352665031572;300000000000000000]];
  [pos0 [328816748393728394;807095352665031572;300000000000000000]; neg0 [420837748724588306;587014905254766082;540000000000000000]];
  [neg0 [420837748724588306;587014905254766082;540000000000000000]; neg0 [907978999669140088;220080447410265489;760000000000000000]];
  [neg0 [907978999669140088;220080447410265489;760000000000000000]; neg0 [420837748724588306;587014905254766082;540000000000000000]]],
 [pos0 [171522359464448434;276398250730653988;950000000000000000];
  pos0 [20863741025789391;746056984197324633;703000000000000000];
  pos0 [20863741025789391;746056984197324633;703000000000000000];
  pos0 [20863741025789391;746056984197324633;703000000000000000];
  pos0 [141031368223433156;684147718345856739;630000000000000000];
  pos0 [141031368223433156;684147718345856739;630000000000000000];
  pos0 [141031368223433156;684147718345856739;630000000000000000];
  pos0 [77261518474038644;953267609178802298;293000000000000000];
  pos0 [77261518474038644;953267609178802298;293000000000000000];
  pos0 [77261518474038644;953267609178802298;293000000000000000];
  pos0 [33212546109170739;152751678550112121;730000000000000000];
  pos0 [33212546109170739;152751678550112121;730000000000000000];
  pos0 [33212546109170739;152751678550112121;730000000000000000];
  pos0 [134632308158936602;395674411246575571;770000000000000000];
  pos0 [134632308158936602;395674411246575571;770000000000000000];
  pos0 [134632308158936602;395674411246575571;770000000000000000];
  pos0 [20580579145906554;986161254967959059;438000000000000000];
  pos0 [20580579145906554;986161254967959059;438000000000000000];
  pos0 [20580579145906554;986161254967959059;438000000000000000];
  pos0 [20580579145906554;986161254967959059;438000000000000000];
  pos0 [20580579145906554;986161254967959059;438000000000000000];
  pos0 [20580579145906554;986161254967959059;438000000000000000];
  pos0 [80664953281001105;168489835817596259;842000000000000000];
  pos0 [80664953281001105;168489835817596259;842000000000000000];
  pos0 [80664953281001105;168489835817596259;842000000000000000];
  pos0 [80664953281001105;168489835817596259;842000000000000000];
  pos0 [80664953281001105;168489835817596259;842000000000000000];
  pos0 [80664953281001105;168489835817596259;842000000000000000]]).
(** WitherdenVincent2015_Tri.cpp:222-272, order 12. *)
Definition WV_Tri_12 : raw_rule := (
 [[neg0 [23592498108916896;443983752262370486;151000000000000000]; neg0 [952815003782166207;112032495475259027;700000000000000000]];
  [neg0 [952815003782166207;112032495475259027;700000000000000000]; neg0 [23592498108916896;443983752262370486;151000000000000000]];
  [neg0 [23592498108916896;443983752262370486;151000000000000000]; neg0 [23592498108916896;443983752262370486;151000000000000000]];
  [neg0 [781484344681291418;832505375991382509;380000000000000000]; pos0 [562968689362582837;665010751982765018;760000000000000000]];
  [pos0 [562968689362582837;665010751982765018;760000000000000000]; neg0 [781484344681291418;832505375991382509;380000000000000000]];
  [neg0 [781484344681291418;832505375991382509;380000000000000000]; neg0 [781484344681291418;832505375991382509;380000000000000000]];
  [neg0 [457074985970147830;244008103954909802;930000000000000000]; neg0 [85850028059704339;511983792090180394;140000000000000000]];
  [neg0 [85850028059704339;511983792090180394;140000000000000000]; neg0 [457074985970147830;244008103954909802;930000000000000000]];
  [neg0 [457074985970147830;244008103954909802;930000000000000000]; neg0 [457074985970147830;244008103954909802;930000000000000000]];
  [neg0 [950707273127328810;466537605571330843;600000000000000000]; pos0 [901414546254657620;933075211142661687;190000000000000000]];
  [pos0 [901414546254657620;933075211142661687;190000000000000000]; neg0 [950707273127328810;466537605571330843;600000000000000000]];
  [neg0 [950707273127328810;466537605571330843;600000000000000000]; neg0 [950707273127328810;466537605571330843;600000000000000000]];
  [neg0 [119776702682813777;973092593854183617;890000000000000000]; neg0 [760446594634372444;53814812291632764;210000000000000000]];
  [neg0 [760446594634372444;53814812291632764;210000000000000000]; neg0 [119776702682813777;973092593854183617;890000000000000000]];
  [neg0 [119776702682813777;973092593854183617;890000000000000000]; neg0 [119776702682813777;973092593854183617;890000000000000000]];
  [neg0 [416688640523318078;932172376132118765;630000000000000000]; pos0 [370620327812783799;968889372274260501;400000000000000000]];
  [pos0 [370620327812783799;968889372274260501;400000000000000000]; neg0 [416688640523318078;932172376132118765;630000000000000000]];
  [neg0 [953931687289465721;36716996142141735;770000000000000000]; pos0 [370620327812783799;968889372274260501;400000000000000000]];
  [pos0 [370620327812783799;968889372274260501;400000000000000000]; neg0 [953931687289465721;36716996142141735;770000000000000000]];
  [neg0 [953931687289465721;36716996142141735;770000000000000000]; neg0 [416688640523318078;932172376132118765;630000000000000000]];
  [neg0 [416688640523318078;932172376132118765;630000000000000000]; neg0 [953931687289465721;36716996142141735;770000000000000000]];
  [neg0 [767407960644146826;738503731700597722;200000000000000000]; pos0 [256499503367112133;675792276734458396;750000000000000000]];
  [pos0 [256499503367112133;675792276734458396;750000000000000000]; neg0 [767407960644146826;738503731700597722;200000000000000000]];
  [neg0 [489091542722965306;937288545033860674;540000000000000000]; pos0 [256499503367112133;675792276734458396;750000000000000000]];
  [pos0 [256499503367112133;675792276734458396;750000000000000000]; neg0 [489091542722965306;937288545033860674;540000000000000000]];
  [neg0 [489091542722965306;937288545033860674;540000000000000000]; neg0 [767407960644146826;738503731700597722;200000000000000000]];
  [neg0 [767407960644146826;738503731700597722;200000000000000000]; neg0 [489091542722965306;937288545033860674;540000000000000000]];
  [pos0 [702675585020480083;236007220864116897;190000000000000000]; neg0 [745440565532821262;424316250505235322;130000000000000000]];
  [neg0 [745440565532821262;424316250505235322;130000000000000000]; pos0 [702675585020480083;236007220864116897;190000000000000000]];
  [neg0 [957235019487658820;811690970358881575;60000000000000000]; neg0 [745440565532821262;424316250505235322;130000000000000000]];
  [neg0 [745440565532821262;424316250505235322;130000000000000000]; neg0 [957235019487658820;811690970358881575;60000000000000000]];
  [neg0 [957235019487658820;811690970358881575;60000000000000000]; pos0 [702675585020480083;236007220864116897;190000000000000000]];
  [pos0 [702675585020480083;236007220864116897;190000000000000000]; neg0 [957235019487658820;811690970358881575;60000000000000000]]],
 [pos0 [48533676162904066;301435945151216167;798000000000000000];
  pos0 [48533676162904066;301435945151216167;798000000000000000];
  pos0 [48533676162904066;301435945151216167;798000000000000000];
  pos0 [56972104137755089;999388947815030892;501000000000000000];
  pos0 [56972104137755089;999388947815030892;501000000000000000];
  pos0 [56972104137755089;999388947815030892;501000000000000000];
  pos0 [125082426391805520;938647562891039678;260000000000000000];
  pos0 [125082426391805520;938647562891039678;260000000000000000];
  pos0 [125082426391805520;938647562891039678;260000000000000000];
  pos0 [15863285019947276;918629575811719468;968000000000000000];
  pos0 [15863285019947276;918629575811719468;968000000000000000];
  pos0 [15863285019947276;918629575811719468;968000000000000000];
  pos0 [99836669856121884;238103444121988601;916000000000000000];
  pos0 [99836669856121884;238103444121988601;916000000000000000];
  pos0 [99836669856121884;238103444121988601;916000000000000000];
  pos0 [43567170077215115;865262872678583643;728000000000000000];
  pos0 [43567170077215115;865262872678583643;728000000000000000];
  pos0 [43567170077215115;865262872678583643;728000000000000000];
  pos0 [43567170077215115;865262872678583643;728000000000000000];
  pos0 [43567170077215115;865262872678583643;728000000000000000];
  pos0 [43567170077215115;865262872678583643;728000000000000000];
  pos0 [86454727318828421;98266541833718459;270000000000000000];
  pos0 [86454727318828421;98266541833718459;270000000000000000];
  pos0 [86454727318828421;98266541833718459;270000000000000000];
  pos0 [86454727318828421;98266541833718459;270000000000000000];
  pos0 [86454727318828421;98266541833718459;270000000000000000];
  pos0 [86454727318828421;98266541833718459;270000000000000000];
  pos0 [30167355153022877;171701180925533825;614000000000000000];
  pos0 [30167355153022877;171701180925533825;614000000000000000];
  pos0 [30167355153022877;171701180925533825;614000000000000000];
  pos0 [30167355153022877;171701180925533825;614000000000000000];
  pos0 [30167355153022877;171701180925533825;614000000000000000];
  pos0 [30167355153022877;171701180925533825;614000000000000000]]).
(** WitherdenVincent2015_Tri.cpp:273-329, order 13. *)
Definition WV_Tri_13 : raw_rule := (
 [[neg0 [333333333333333333;333333333333333333;330000000000000000]; neg0 [333333333333333333;333333333333333333;330000000000000000]];
  [neg0 [21846107094921300;198620561819591224;690000000000000000]; neg0 [956307785810157399;602758876360817550;620000000000000000]];
  [neg0 [956307785810157399;602758876360817550;620000000000000000]; neg0 [21846107094921300;198620561819591224;690000000000000000]];
  [neg0 [21846107094921300;198620561819591224;690000000000000000]; neg0 [21846107094921300;198620561819591224;690000000000000000]];
  [neg0 [557255427416334198;690374890589841844;480000000000000000]; pos0 [114510854832668397;380749781179683688;960000000000000000]];
  [pos0 [114510854832668397;380749781179683688;960000000000000000]; neg0 [557255427416334198;690374890589841844;480000000000000000]];
  [neg0 [557255427416334198;690374890589841844;480000000000000000]; neg0 [557255427416334198;690374890589841844;480000000000000000]];
  [neg0 [146117171480399187;958374929937251577;190000000000000000]; neg0 [707765657039201624;83250140125496845;620000000000000000]];
  [neg0 [707765657039201624;83250140125496845;620000000000000000]; neg0 [146117171480399187;958374929937251577;190000000000000000]];
  [neg0 [146117171480399187;958374929937251577;190000000000000000]; neg0 [146117171480399187;958374929937251577;190000000000000000]];
  [neg0 [956980637782313632;261417372931895834;800000000000000000]; pos0 [913961275564627264;522834745863791669;610000000000000000]];
  [pos0 [913961275564627264;522834745863791669;610000000000000000]; neg0 [956980637782313632;261417372931895834;800000000000000000]];
  [neg0 [956980637782313632;261417372931895834;800000000000000000]; neg0 [956980637782313632;261417372931895834;800000000000000000]];
  [neg0 [824209033935605350;813812994999333797;770000000000000000]; pos0 [497014231799904390;346037191577419300;90000000000000000]];
  [pos0 [497014231799904390;346037191577419300;90000000000000000]; neg0 [824209033935605350;813812994999333797;770000000000000000]];
  [neg0 [672805197864299039;532224196578085502;320000000000000000]; pos0 [497014231799904390;346037191577419300;90000000000000000]];
  [pos0 [497014231799904390;346037191577419300;90000000000000000]; neg0 [672805197864299039;532224196578085502;320000000000000000]];
  [neg0 [672805197864299039;532224196578085502;320000000000000000]; neg0 [824209033935605350;813812994999333797;770000000000000000]];
  [neg0 [824209033935605350;813812994999333797;770000000000000000]; neg0 [672805197864299039;532224196578085502;320000000000000000]];
  [neg0 [778155914393073209;174260909556650956;440000000000000000]; pos0 [729415540590885550;605091901791386366;670000000000000000]];
  [pos0 [729415540590885550;605091901791386366;670000000000000000]; neg0 [778155914393073209;174260909556650956;440000000000000000]];
  [neg0 [951259626197812341;430830992234735410;230000000000000000]; pos0 [729415540590885550;605091901791386366;670000000000000000]];
  [pos0 [729415540590885550;605091901791386366;670000000000000000]; neg0 [951259626197812341;430830992234735410;230000000000000000]];
  [neg0 [951259626197812341;430830992234735410;230000000000000000]; neg0 [778155914393073209;174260909556650956;440000000000000000]];
  [neg0 [778155914393073209;174260909556650956;440000000000000000]; neg0 [951259626197812341;430830992234735410;230000000000000000]];
  [neg0 [383116478215764450;683056294917509380;560000000000000000]; pos0 [247091991107351141;631708706372473171;660000000000000000]];
  [pos0 [247091991107351141;631708706372473171;660000000000000000]; neg0 [383116478215764450;683056294917509380;560000000000000000]];
  [neg0 [863975512891586690;948652411454963791;100000000000000000]; pos0 [247091991107351141;631708706372473171;660000000000000000]];
  [pos0 [247091991107351141;631708706372473171;660000000000000000]; neg0 [863975512891586690;948652411454963791;100000000000000000]];
  [neg0 [863975512891586690;948652411454963791;100000000000000000]; neg0 [383116478215764450;683056294917509380;560000000000000000]];
  [neg0 [383116478215764450;683056294917509380;560000000000000000]; neg0 [863975512891586690;948652411454963791;100000000000000000]];
  [neg0 [989747221795235262;881341193317741788;50000000000000000]; pos0 [444715586248375930;521240264609568097;250000000000000000]];
  [pos0 [444715586248375930;521240264609568097;250000000000000000]; neg0 [989747221795235262;881341193317741788;50000000000000000]];
  [neg0 [454968364453140667;639899071291826309;200000000000000000]; pos0 [444715586248375930;521240264609568097;250000000000000000]];
  [pos0 [444715586248375930;521240264609568097;250000000000000000]; neg0 [454968364453140667;639899071291826309;200000000000000000]];
  [neg0 [454968364453140667;639899071291826309;200000000000000000]; neg0 [989747221795235262;881341193317741788;50000000000000000]];
  [neg0 [989747221795235262;881341193317741788;50000000000000000]; neg0 [454968364453140667;639899071291826309;200000000000000000]]],
 [pos0 [135920073173663288;563548849361769759;20000000000000000];
  pos0 [47988803857789461;547421598901919307;449000000000000000];
  pos0 [47988803857789461;547421598901919307;449000000000000000];
  pos0 [47988803857789461;547421598901919307;449000000000000000];
  pos0 [116556970238399962;809534167026679619;30000000000000000];
  pos0 [116556970238399962;809534167026679619;30000000000000000];
  pos0 [116556970238399962;809534167026679619;30000000000000000];
  pos0 [111203935060906657;414514932020922935;60000000000000000];
  pos0 [111203935060906657;414514932020922935;60000000000000000];
  pos0 [111203935060906657;414514932020922935;60000000000000000];
  pos0 [12104674207078343;683585600064581648;939000000000000000];
  pos0 [12104674207078343;683585600064581648;939000000000000000];
  pos0 [12104674207078343;683585600064581648;939000000000000000];
  pos0 [48358079623187638;274891491146121518;585000000000000000];
  pos0 [48358079623187638;274891491146121518;585000000000000000];
  pos0 [48358079623187638;274891491146121518;585000000000000000];
  pos0 [48358079623187638;274891491146121518;585000000000000000];
  pos0 [48358079623187638;274891491146121518;585000000000000000];
  pos0 [48358079623187638;274891491146121518;585000000000000000];
  pos0 [29930802210331334;526491714265806876;9000000000000000];
  pos0 [29930802210331334;526491714265806876;9000000000000000];
  pos0 [29930802210331334;526491714265806876;9000000000000000];
  pos0 [29930802210331334;526491714265806876;9000000000000000];
  pos0 [29930802210331334;526491714265806876;9000000000000000];
  pos0 [29930802210331334;526491714265806876;9000000000000000];
  pos0 [69282552281696740;931973657021836440;891000000000000000];
  pos0 [69282552281696740;931973657021836440;891000000000000000];
  pos0 [69282552281696740;931973657021836440;891000000000000000];
  pos0 [69282552281696740;931973657021836440;891000000000000000];
  pos0 [69282552281696740;931973657021836440;891000000000000000];
  pos0 [69282552281696740;931973657021836440;891000000000000000];
  pos0 [19181362007086525;445190180332221782;772000000000000000];
  pos0 [19181362007086525;445190180332221782;772000000000000000];
  pos0 [19181362007086525;445190180332221782;772000000000000000];
  pos0 [19181362007086525;445190180332221782;772000000000000000];
  pos0 [19181362007086525;445190180332221782;772000000000000000];
  pos0 [19181362007086525;445190180332221782;772000000000000000]]).
(** WitherdenVincent2015_Tri.cpp:330-393, order 14. *)
Definition WV_Tri_14 : raw_rule := (
 [[neg0 [645588935174913126;86778619069881847;830000000000000000]; pos0 [291177870349826252;173557238139763695;670000000000000000]];
  [pos0 [291177870349826252;173557238139763695;670000000000000000]; neg0 [645588935174913126;86778619069881847;830000000000000000]];
  [neg0 [645588935174913126;86778619069881847;830000000000000000]; neg0 [645588935174913126;86778619069881847;830000000000000000]];
  [neg0 [164710561319092154;981118355628713121;780000000000000000]; neg0 [670578877361815690;37763288742573756;440000000000000000]];
  [neg0 [670578877361815690;37763288742573756;440000000000000000]; neg0 [164710561319092154;981118355628713121;780000000000000000]];
  [neg0 [164710561319092154;981118355628713121;780000000000000000]; neg0 [164710561319092154;981118355628713121;780000000000000000]];
  [neg0 [876400233818254797;465042343126128423;230000000000000000]; pos0 [752800467636509594;930084686252256846;470000000000000000]];
  [pos0 [752800467636509594;930084686252256846;470000000000000000]; neg0 [876400233818254797;465042343126128423;230000000000000000]];
  [neg0 [876400233818254797;465042343126128423;230000000000000000]; neg0 [876400233818254797;465042343126128423;230000000000000000]];
  [neg0 [22072179275642722;645247959095219528;414000000000000000]; neg0 [955855641448714554;709504081809560943;170000000000000000]];
  [neg0 [955855641448714554;709504081809560943;170000000000000000]; neg0 [22072179275642722;645247959095219528;414000000000000000]];
  [neg0 [22072179275642722;645247959095219528;414000000000000000]; neg0 [22072179275642722;645247959095219528;414000000000000000]];
  [neg0 [453044943382322680;490111433474602887;610000000000000000]; neg0 [93910113235354639;19777133050794224;782000000000000000]];
  [neg0 [93910113235354639;19777133050794224;782000000000000000]; neg0 [453044943382322680;490111433474602887;610000000000000000]];
  [neg0 [453044943382322680;490111433474602887;610000000000000000]; neg0 [453044943382322680;490111433474602887;610000000000000000]];
  [neg0 [961218077502597903;643499809890940977;850000000000000000]; pos0 [922436155005195807;286999619781881955;700000000000000000]];
  [pos0 [922436155005195807;286999619781881955;700000000000000000]; neg0 [961218077502597903;643499809890940977;850000000000000000]];
  [neg0 [961218077502597903;643499809890940977;850000000000000000]; neg0 [961218077502597903;643499809890940977;850000000000000000]];
  [neg0 [403254235727484494;58336963880774542;820000000000000000]; pos0 [373960335616175674;717254308040626119;520000000000000000]];
  [pos0 [373960335616175674;717254308040626119;520000000000000000]; neg0 [403254235727484494;58336963880774542;820000000000000000]];
  [neg0 [970706099888691180;658917344159851576;690000000000000000]; pos0 [373960335616175674;717254308040626119;520000000000000000]];
  [pos0 [373960335616175674;717254308040626119;520000000000000000]; neg0 [970706099888691180;658917344159851576;690000000000000000]];
  [neg0 [970706099888691180;658917344159851576;690000000000000000]; neg0 [403254235727484494;58336963880774542;820000000000000000]];
  [neg0 [403254235727484494;58336963880774542;820000000000000000]; neg0 [970706099888691180;658917344159851576;690000000000000000]];
  [neg0 [885750485192704121;928645751562170579;370000000000000000]; pos0 [541217109549992965;178066548334855912;650000000000000000]];
  [pos0 [541217109549992965;178066548334855912;650000000000000000]; neg0 [885750485192704121;928645751562170579;370000000000000000]];
  [neg0 [655466624357288843;249420796772685333;290000000000000000]; pos0 [541217109549992965;178066548334855912;650000000000000000]];
  [pos0 [541217109549992965;178066548334855912;650000000000000000]; neg0 [655466624357288843;249420796772685333;290000000000000000]];
  [neg0 [655466624357288843;249420796772685333;290000000000000000]; neg0 [885750485192704121;928645751562170579;370000000000000000]];
  [neg0 [885750485192704121;928645751562170579;370000000000000000]; neg0 [655466624357288843;249420796772685333;290000000000000000]];
  [neg0 [326277080407309996;511889605822149221;880000000000000000]; pos0 [140444581693366346;995392426724708519;280000000000000000]];
  [pos0 [140444581693366346;995392426724708519;280000000000000000]; neg0 [326277080407309996;511889605822149221;880000000000000000]];
  [neg0 [814167501286056350;483502820902559297;400000000000000000]; pos0 [140444581693366346;995392426724708519;280000000000000000]];
  [pos0 [140444581693366346;995392426724708519;280000000000000000]; neg0 [814167501286056350;483502820902559297;400000000000000000]];
  [neg0 [814167501286056350;483502820902559297;400000000000000000]; neg0 [326277080407309996;511889605822149221;880000000000000000]];
  [neg0 [326277080407309996;511889605822149221;880000000000000000]; neg0 [814167501286056350;483502820902559297;400000000000000000]];
  [neg0 [997463338134255949;825507197809014614;650000000000000000]; pos0 [759514342740342259;29143273949203652;10000000000000000]];
  [pos0 [759514342740342259;29143273949203652;10000000000000000]; neg0 [997463338134255949;825507197809014614;650000000000000000]];
  [neg0 [762051004606086309;203636076140189037;350000000000000000]; pos0 [759514342740342259;29143273949203652;10000000000000000]];
  [pos0 [759514342740342259;29143273949203652;10000000000000000]; neg0 [762051004606086309;203636076140189037;350000000000000000]];
  [neg0 [762051004606086309;203636076140189037;350000000000000000]; neg0 [997463338134255949;825507197809014614;650000000000000000]];
  [neg0 [997463338134255949;825507197809014614;650000000000000000]; neg0 [762051004606086309;203636076140189037;350000000000000000]]],
 [pos0 [84325177473986035;76460874648372259;691000000000000000];
  pos0 [84325177473986035;76460874648372259;691000000000000000];
  pos0 [84325177473986035;76460874648372259;691000000000000000];
  pos0 [65576707088250701;282621957477250686;472000000000000000];
  pos0 [65576707088250701;282621957477250686;472000000000000000];
  pos0 [65576707088250701;282621957477250686;472000000000000000];
  pos0 [28867399339553335;203419842961306633;228000000000000000];
  pos0 [28867399339553335;203419842961306633;228000000000000000];
  pos0 [28867399339553335;203419842961306633;228000000000000000];
  pos0 [43767162738857781;281689891926651943;66000000000000000];
  pos0 [43767162738857781;281689891926651943;66000000000000000];
  pos0 [43767162738857781;281689891926651943;66000000000000000];
  pos0 [103548209014583172;629569820332792804;830000000000000000];
  pos0 [103548209014583172;629569820332792804;830000000000000000];
  pos0 [103548209014583172;629569820332792804;830000000000000000];
  pos0 [9846807204800163;363652047018084309;531000000000000000];
  pos0 [9846807204800163;363652047018084309;531000000000000000];
  pos0 [9846807204800163;363652047018084309;531000000000000000];
  pos0 [28872616227067680;992177383998031606;893000000000000000];
  pos0 [28872616227067680;992177383998031606;893000000000000000];
  pos0 [28872616227067680;992177383998031606;893000000000000000];
  pos0 [28872616227067680;992177383998031606;893000000000000000];
  pos0 [28872616227067680;992177383998031606;893000000000000000];
  pos0 [28872616227067680;992177383998031606;893000000000000000];
  pos0 [49331506425127347;925750490367272456;636000000000000000];
  pos0 [49331506425127347;925750490367272456;636000000000000000];
  pos0 [49331506425127347;925750490367272456;636000000000000000];
  pos0 [49331506425127347;925750490367272456;636000000000000000];
  pos0 [49331506425127347;925750490367272456;636000000000000000];
  pos0 [49331506425127347;925750490367272456;636000000000000000];
  pos0 [77143021574121366;456978055620821718;469000000000000000];
  pos0 [77143021574121366;456978055620821718;469000000000000000];
  pos0 [77143021574121366;456978055620821718;469000000000000000];
  pos0 [77143021574121366;456978055620821718;469000000000000000];
  pos0 [77143021574121366;456978055620821718;469000000000000000];
  pos0 [77143021574121366;456978055620821718;469000000000000000];
  pos0 [10020457677001343;539720186164978232;925000000000000000];
  pos0 [10020457677001343;539720186164978232;925000000000000000];
  pos0 [10020457677001343;539720186164978232;925000000000000000];
  pos0 [10020457677001343;539720186164978232;925000000000000000];
  pos0 [10020457677001343;539720186164978232;925000000000000000];
  pos0 [10020457677001343;539720186164978232;925000000000000000]]).
(** WitherdenVincent2015_Tri.cpp:394-468, order 15. *)
Definition WV_Tri_15 : raw_rule := (
 [[neg0 [333333333333333333;333333333333333333;330000000000000000]; neg0 [333333333333333333;333333333333333333;330000000000000000]];
  [neg0 [189275571732049044;266487778560498282;70000000000000000]; neg0 [621448856535901911;467024442879003435;860000000000000000]];
  [neg0 [621448856535901911;467024442879003435;860000000000000000]; neg0 [189275571732049044;266487778560498282;70000000000000000]];
  [neg0 [189275571732049044;266487778560498282;70000000000000000]; neg0 [189275571732049044;266487778560498282;70000000000000000]];
  [neg0 [859652894200027965;31280495713142790;730000000000000000]; pos0 [719305788400055930;62560991426285581;460000000000000000]];
  [pos0 [719305788400055930;62560991426285581;460000000000000000]; neg0 [859652894200027965;31280495713142790;730000000000000000]];
  [neg0 [859652894200027965;31280495713142790;730000000000000000]; neg0 [859652894200027965;31280495713142790;730000000000000000]];
  [neg0 [51658637123960416;42618609451788188;253000000000000000]; neg0 [896682725752079167;914762781096423623;490000000000000000]];
  [neg0 [896682725752079167;914762781096423623;490000000000000000]; neg0 [51658637123960416;42618609451788188;253000000000000000]];
  [neg0 [51658637123960416;42618609451788188;253000000000000000]; neg0 [51658637123960416;42618609451788188;253000000000000000]];
  [neg0 [547242573159300803;418548837830761394;550000000000000000]; pos0 [94485146318601606;837097675661522789;95000000000000000]];
  [pos0 [94485146318601606;837097675661522789;95000000000000000]; neg0 [547242573159300803;418548837830761394;550000000000000000]];
  [neg0 [547242573159300803;418548837830761394;550000000000000000]; neg0 [547242573159300803;418548837830761394;550000000000000000]];
  [neg0 [10006086461747631;524400704632178282;105000000000000000]; neg0 [979987827076504736;951198590735643435;790000000000000000]];
  [neg0 [979987827076504736;951198590735643435;790000000000000000]; neg0 [10006086461747631;524400704632178282;105000000000000000]];
  [neg0 [10006086461747631;524400704632178282;105000000000000000]; neg0 [10006086461747631;524400704632178282;105000000000000000]];
  [neg0 [968376547498022708;882096532432264939;690000000000000000]; pos0 [936753094996045417;764193064864529879;380000000000000000]];
  [pos0 [936753094996045417;764193064864529879;380000000000000000]; neg0 [968376547498022708;882096532432264939;690000000000000000]];
  [neg0 [968376547498022708;882096532432264939;690000000000000000]; neg0 [968376547498022708;882096532432264939;690000000000000000]];
  [neg0 [963247775228637816;77911208837208163;400000000000000000]; pos0 [333951289603736179;892647078407424200;140000000000000000]];
  [pos0 [333951289603736179;892647078407424200;140000000000000000]; neg0 [963247775228637816;77911208837208163;400000000000000000]];
  [neg0 [370703514375098363;814735869570216036;740000000000000000]; pos0 [333951289603736179;892647078407424200;140000000000000000]];
  [pos0 [333951289603736179;892647078407424200;140000000000000000]; neg0 [370703514375098363;814735869570216036;740000000000000000]];
  [neg0 [370703514375098363;814735869570216036;740000000000000000]; neg0 [963247775228637816;77911208837208163;400000000000000000]];
  [neg0 [963247775228637816;77911208837208163;400000000000000000]; neg0 [370703514375098363;814735869570216036;740000000000000000]];
  [neg0 [981721525925383209;926896365018026963;810000000000000000]; pos0 [839824315452472129;805721190593584747;920000000000000000]];
  [pos0 [839824315452472129;805721190593584747;920000000000000000]; neg0 [981721525925383209;926896365018026963;810000000000000000]];
  [neg0 [858102789527088919;878824825575557784;110000000000000000]; pos0 [839824315452472129;805721190593584747;920000000000000000]];
  [pos0 [839824315452472129;805721190593584747;920000000000000000]; neg0 [858102789527088919;878824825575557784;110000000000000000]];
  [neg0 [858102789527088919;878824825575557784;110000000000000000]; neg0 [981721525925383209;926896365018026963;810000000000000000]];
  [neg0 [981721525925383209;926896365018026963;810000000000000000]; neg0 [858102789527088919;878824825575557784;110000000000000000]];
  [neg0 [618928821047212133;138619500628071719;700000000000000000]; pos0 [430444713862901403;767958737567460883;330000000000000000]];
  [pos0 [430444713862901403;767958737567460883;330000000000000000]; neg0 [618928821047212133;138619500628071719;700000000000000000]];
  [neg0 [811515892815689270;629339236939389163;630000000000000000]; pos0 [430444713862901403;767958737567460883;330000000000000000]];
  [pos0 [430444713862901403;767958737567460883;330000000000000000]; neg0 [811515892815689270;629339236939389163;630000000000000000]];
  [neg0 [811515892815689270;629339236939389163;630000000000000000]; neg0 [618928821047212133;138619500628071719;700000000000000000]];
  [neg0 [618928821047212133;138619500628071719;700000000000000000]; neg0 [811515892815689270;629339236939389163;630000000000000000]];
  [neg0 [663862709555171289;70444822832741078;790000000000000000]; pos0 [626585282098838539;824516626026715937;230000000000000000]];
  [pos0 [626585282098838539;824516626026715937;230000000000000000]; neg0 [663862709555171289;70444822832741078;790000000000000000]];
  [neg0 [962722572543667250;754071803193974858;440000000000000000]; pos0 [626585282098838539;824516626026715937;230000000000000000]];
  [pos0 [626585282098838539;824516626026715937;230000000000000000]; neg0 [962722572543667250;754071803193974858;440000000000000000]];
  [neg0 [962722572543667250;754071803193974858;440000000000000000]; neg0 [663862709555171289;70444822832741078;790000000000000000]];
  [neg0 [663862709555171289;70444822832741078;790000000000000000]; neg0 [962722572543667250;754071803193974858;440000000000000000]];
  [neg0 [322098777049445621;570813990659096035;870000000000000000]; pos0 [130505329754228428;903703868733512575;60000000000000000]];
  [pos0 [130505329754228428;903703868733512575;60000000000000000]; neg0 [322098777049445621;570813990659096035;870000000000000000]];
  [neg0 [808406552704782807;332889878074416539;190000000000000000]; pos0 [130505329754228428;903703868733512575;60000000000000000]];
  [pos0 [130505329754228428;903703868733512575;60000000000000000]; neg0 [808406552704782807;332889878074416539;190000000000000000]];
  [neg0 [808406552704782807;332889878074416539;190000000000000000]; neg0 [322098777049445621;570813990659096035;870000000000000000]];
  [neg0 [322098777049445621;570813990659096035;870000000000000000]; neg0 [808406552704782807;332889878074416539;190000000000000000]]],
 [pos0 [88670774764368150;775198681314064807;950000000000000000];
  pos0 [85427563142921134;82725838745668360;696000000000000000];
  pos0 [85427563142921134;82725838745668360;696000000000000000];
  pos0 [85427563142921134;82725838745668360;696000000000000000];
  pos0 [32889475125250327;537360017377018258;920000000000000000];
  pos0 [32889475125250327;537360017377018258;920000000000000000];
  pos0 [32889475125250327;537360017377018258;920000000000000000];
  pos0 [34792296001526829;115453101768509506;658000000000000000];
  pos0 [34792296001526829;115453101768509506;658000000000000000];
  pos0 [34792296001526829;115453101768509506;658000000000000000];
  pos0 [93566723457419264;712537789561548478;374000000000000000];
  pos0 [93566723457419264;712537789561548478;374000000000000000];
  pos0 [93566723457419264;712537789561548478;374000000000000000];
  pos0 [19147692364920172;413138507253187117;414000000000000000];
  pos0 [19147692364920172;413138507253187117;414000000000000000];
  pos0 [19147692364920172;413138507253187117;414000000000000000];
  pos0 [5921549275810751;138552605276729878;773900000000000000];
  pos0 [5921549275810751;138552605276729878;773900000000000000];
  pos0 [5921549275810751;138552605276729878;773900000000000000];
  pos0 [31205145661151929;503549831657000846;318000000000000000];
  pos0 [31205145661151929;503549831657000846;318000000000000000];
  pos0 [31205145661151929;503549831657000846;318000000000000000];
  pos0 [31205145661151929;503549831657000846;318000000000000000];
  pos0 [31205145661151929;503549831657000846;318000000000000000];
  pos0 [31205145661151929;503549831657000846;318000000000000000];
  pos0 [8059706744036199;236728669821713015;656400000000000000];
  pos0 [8059706744036199;236728669821713015;656400000000000000];
  pos0 [8059706744036199;236728669821713015;656400000000000000];
  pos0 [8059706744036199;236728669821713015;656400000000000000];
  pos0 [8059706744036199;236728669821713015;656400000000000000];
  pos0 [8059706744036199;236728669821713015;656400000000000000];
  pos0 [57441173850402680;461331283343301712;8000000000000000];
  pos0 [57441173850402680;461331283343301712;8000000000000000];
  pos0 [57441173850402680;461331283343301712;8000000000000000];
  pos0 [57441173850402680;461331283343301712;8000000000000000];
  pos0 [57441173850402680;461331283343301712;8000000000000000];
  pos0 [57441173850402680;461331283343301712;8000000000000000];
  pos0 [23345242363151690;679154011088673171;842000000000000000];
  pos0 [23345242363151690;679154011088673171;842000000000000000];
  pos0 [23345242363151690;679154011088673171;842000000000000000];
  pos0 [23345242363151690;679154011088673171;842000000000000000];
  pos0 [23345242363151690;679154011088673171;842000000000000000];
  pos0 [23345242363151690;679154011088673171;842000000000000000];
  pos0 [62630952569938568;823485827212302985;766000000000000000];
  pos0 [62630952569938568;823485827212302985;766000000000000000];
  pos0 [62630952569938568;823485827212302985;766000000000000000];
  pos0 [62630952569938568;823485827212302985;766000000000000000];
  pos0 [62630952569938568;823485827212302985;766000000000000000];
  pos0 [62630952569938568;823485827212302985;766000000000000000]]).
(** WitherdenVincent2015_Tri.cpp:469-553, order 16. *)
Definition WV_Tri_16 : raw_rule := (
 [[neg0 [333333333333333333;333333333333333333;330000000000000000]; neg0 [333333333333333333;333333333333333333;330000000000000000]];
  [neg0 [508019859065716531;56564440465839641]; pos0 [16039718131433062;113128880931679281;991000000000000000]];
  [pos0 [16039718131433062;113128880931679281;991000000000000000]; neg0 [508019859065716531;56564440465839641]];
  [neg0 [508019859065716531;56564440465839641]; neg0 [508019859065716531;56564440465839641]];
  [neg0 [168830206229158973;558038647631974528;600000000000000000]; neg0 [662339587541682052;883922704736050942;800000000000000000]];
  [neg0 [662339587541682052;883922704736050942;800000000000000000]; neg0 [168830206229158973;558038647631974528;600000000000000000]];
  [neg0 [168830206229158973;558038647631974528;600000000000000000]; neg0 [168830206229158973;558038647631974528;600000000000000000]];
  [neg0 [829288866826599356;489350228957269397;790000000000000000]; pos0 [658577733653198712;978700457914538795;580000000000000000]];
  [pos0 [658577733653198712;978700457914538795;580000000000000000]; neg0 [829288866826599356;489350228957269397;790000000000000000]];
  [neg0 [829288866826599356;489350228957269397;790000000000000000]; neg0 [829288866826599356;489350228957269397;790000000000000000]];
  [neg0 [676162711617457546;246233465975315128;830000000000000000]; pos0 [352325423234915092;492466931950630257;660000000000000000]];
  [pos0 [352325423234915092;492466931950630257;660000000000000000]; neg0 [676162711617457546;246233465975315128;830000000000000000]];
  [neg0 [676162711617457546;246233465975315128;830000000000000000]; neg0 [676162711617457546;246233465975315128;830000000000000000]];
  [neg0 [0;0;0;0;0;0;538156636754329352;387502888599028342;820000000000000000]; Dec true 1 []];
  [Dec true 1 []; neg0 [0;0;0;0;0;0;538156636754329352;387502888599028342;820000000000000000]];
  [neg0 [0;0;0;0;0;0;538156636754329352;387502888599028342;820000000000000000]; neg0 [0;0;0;0;0;0;538156636754329352;387502888599028342;820000000000000000]];
  [neg0 [49438544908115791;823484418930976089;946000000000000000]; neg0 [901122910183768416;353031162138047820;110000000000000000]];
  [neg0 [901122910183768416;353031162138047820;110000000000000000]; neg0 [49438544908115791;823484418930976089;946000000000000000]];
  [neg0 [49438544908115791;823484418930976089;946000000000000000]; neg0 [49438544908115791;823484418930976089;946000000000000000]];
  [neg0 [890489650170593774;216552577206832589;710000000000000000]; pos0 [508340122889535615;709978073258290550;30000000000000000]];
  [pos0 [508340122889535615;709978073258290550;30000000000000000]; neg0 [890489650170593774;216552577206832589;710000000000000000]];
  [neg0 [617850472718941841;493425496051457960;320000000000000000]; pos0 [508340122889535615;709978073258290550;30000000000000000]];
  [pos0 [508340122889535615;709978073258290550;30000000000000000]; neg0 [617850472718941841;493425496051457960;320000000000000000]];
  [neg0 [617850472718941841;493425496051457960;320000000000000000]; neg0 [890489650170593774;216552577206832589;710000000000000000]];
  [neg0 [890489650170593774;216552577206832589;710000000000000000]; neg0 [617850472718941841;493425496051457960;320000000000000000]];
  [neg0 [953593144462372581;925022917456799213;630000000000000000]; pos0 [936488736061917358;369195188416251978;840000000000000000]];
  [pos0 [936488736061917358;369195188416251978;840000000000000000]; neg0 [953593144462372581;925022917456799213;630000000000000000]];
  [neg0 [982895591599544776;444172270959452765;210000000000000000]; pos0 [936488736061917358;369195188416251978;840000000000000000]];
  [pos0 [936488736061917358;369195188416251978;840000000000000000]; neg0 [982895591599544776;444172270959452765;210000000000000000]];
  [neg0 [982895591599544776;444172270959452765;210000000000000000]; neg0 [953593144462372581;925022917456799213;630000000000000000]];
  [neg0 [953593144462372581;925022917456799213;630000000000000000]; neg0 [982895591599544776;444172270959452765;210000000000000000]];
  [neg0 [962136443439188170;36569458945223674;290000000000000000]; pos0 [298607396490892816;259252991563815969;480000000000000000]];
  [pos0 [298607396490892816;259252991563815969;480000000000000000]; neg0 [962136443439188170;36569458945223674;290000000000000000]];
  [neg0 [336470953051704646;222683532618592295;200000000000000000]; pos0 [298607396490892816;259252991563815969;480000000000000000]];
  [pos0 [298607396490892816;259252991563815969;480000000000000000]; neg0 [336470953051704646;222683532618592295;200000000000000000]];
  [neg0 [336470953051704646;222683532618592295;200000000000000000]; neg0 [962136443439188170;36569458945223674;290000000000000000]];
  [neg0 [962136443439188170;36569458945223674;290000000000000000]; neg0 [336470953051704646;222683532618592295;200000000000000000]];
  [neg0 [961939740512605102;418129575685036520;640000000000000000]; pos0 [800547406540859252;274013834387743655;250000000000000000]];
  [pos0 [800547406540859252;274013834387743655;250000000000000000]; neg0 [961939740512605102;418129575685036520;640000000000000000]];
  [neg0 [838607666028254149;855884258702707134;610000000000000000]; pos0 [800547406540859252;274013834387743655;250000000000000000]];
  [pos0 [800547406540859252;274013834387743655;250000000000000000]; neg0 [838607666028254149;855884258702707134;610000000000000000]];
  [neg0 [838607666028254149;855884258702707134;610000000000000000]; neg0 [961939740512605102;418129575685036520;640000000000000000]];
  [neg0 [961939740512605102;418129575685036520;640000000000000000]; neg0 [838607666028254149;855884258702707134;610000000000000000]];
  [neg0 [794787619521203807;396550296770856454;70000000000000000]; pos0 [178297681128495837;580573401256855643;270000000000000000]];
  [pos0 [178297681128495837;580573401256855643;270000000000000000]; neg0 [794787619521203807;396550296770856454;70000000000000000]];
  [neg0 [383510061607292030;184023104485999189;200000000000000000]; pos0 [178297681128495837;580573401256855643;270000000000000000]];
  [pos0 [178297681128495837;580573401256855643;270000000000000000]; neg0 [383510061607292030;184023104485999189;200000000000000000]];
  [neg0 [383510061607292030;184023104485999189;200000000000000000]; neg0 [794787619521203807;396550296770856454;70000000000000000]];
  [neg0 [794787619521203807;396550296770856454;70000000000000000]; neg0 [383510061607292030;184023104485999189;200000000000000000]];
  [neg0 [988127299966355460;185036064778683968]; pos0 [613243734998791284;902860652614129377;570000000000000000]];
  [pos0 [613243734998791284;902860652614129377;570000000000000000]; neg0 [988127299966355460;185036064778683968]];
  [neg0 [625116435032435824;717824587835445409;580000000000000000]; pos0 [613243734998791284;902860652614129377;570000000000000000]];
  [pos0 [613243734998791284;902860652614129377;570000000000000000]; neg0 [625116435032435824;717824587835445409;580000000000000000]];
  [neg0 [625116435032435824;717824587835445409;580000000000000000]; neg0 [988127299966355460;185036064778683968]];
  [neg0 [988127299966355460;185036064778683968]; neg0 [625116435032435824;717824587835445409;580000000000000000]]],
 [pos0 [90529132147637585;798682804751497905;871000000000000000];
  pos0 [82185846287397899;82859837743846349;856000000000000000];
  pos0 [82185846287397899;82859837743846349;856000000000000000];
  pos0 [82185846287397899;82859837743846349;856000000000000000];
  pos0 [81423666624850718;504727604609892231;433000000000000000];
  pos0 [81423666624850718;504727604609892231;433000000000000000];
  pos0 [81423666624850718;504727604609892231;433000000000000000];
  pos0 [29563269380448807;960364375206438726;749000000000000000];
  pos0 [29563269380448807;960364375206438726;749000000000000000];
  pos0 [29563269380448807;960364375206438726;749000000000000000];
  pos0 [58836819397976195;721222704445565411;515000000000000000];
  pos0 [58836819397976195;721222704445565411;515000000000000000];
  pos0 [58836819397976195;721222704445565411;515000000000000000];
  pos0 [8837092624301137;850768463578309218;171400000000000000];
  pos0 [8837092624301137;850768463578309218;171400000000000000];
  pos0 [8837092624301137;850768463578309218;171400000000000000];
  pos0 [51948666596554316;640604583694066880;977000000000000000];
  pos0 [51948666596554316;640604583694066880;977000000000000000];
  pos0 [51948666596554316;640604583694066880;977000000000000000];
  pos0 [37876544928831397;939092427613418818;28000000000000000];
  pos0 [37876544928831397;939092427613418818;28000000000000000];
  pos0 [37876544928831397;939092427613418818;28000000000000000];
  pos0 [37876544928831397;939092427613418818;28000000000000000];
  pos0 [37876544928831397;939092427613418818;28000000000000000];
  pos0 [37876544928831397;939092427613418818;28000000000000000];
  pos0 [3308933429670096;384791627896204430;822900000000000000];
  pos0 [3308933429670096;384791627896204430;822900000000000000];
  pos0 [3308933429670096;384791627896204430;822900000000000000];
  pos0 [3308933429670096;384791627896204430;822900000000000000];
  pos0 [3308933429670096;384791627896204430;822900000000000000];
  pos0 [3308933429670096;384791627896204430;822900000000000000];
  pos0 [30017203568571612;165136964521714949;941000000000000000];
  pos0 [30017203568571612;165136964521714949;941000000000000000];
  pos0 [30017203568571612;165136964521714949;941000000000000000];
  pos0 [30017203568571612;165136964521714949;941000000000000000];
  pos0 [30017203568571612;165136964521714949;941000000000000000];
  pos0 [30017203568571612;165136964521714949;941000000000000000];
  pos0 [15895187866784997;621199196218108093;516000000000000000];
  pos0 [15895187866784997;621199196218108093;516000000000000000];
  pos0 [15895187866784997;621199196218108093;516000000000000000];
  pos0 [15895187866784997;621199196218108093;516000000000000000];
  pos0 [15895187866784997;621199196218108093;516000000000000000];
  pos0 [15895187866784997;621199196218108093;516000000000000000];
  pos0 [63967220158740137;569628123287866229;484000000000000000];
  pos0 [63967220158740137;569628123287866229;484000000000000000];
  pos0 [63967220158740137;569628123287866229;484000000000000000];
  pos0 [63967220158740137;569628123287866229;484000000000000000];
  pos0 [63967220158740137;569628123287866229;484000000000000000];
  pos0 [63967220158740137;569628123287866229;484000000000000000];
  pos0 [10782374233697622;806764075031711751;212000000000000000];
  pos0 [10782374233697622;806764075031711751;212000000000000000];
  pos0 [10782374233697622;806764075031711751;212000000000000000];
  pos0 [10782374233697622;806764075031711751;212000000000000000];
  pos0 [10782374233697622;806764075031711751;212000000000000000];
  pos0 [10782374233697622;806764075031711751;212000000000000000]]).
(** WitherdenVincent2015_Tri.cpp:554-644, order 17. *)
Definition WV_Tri_17 : raw_rule := (
 [[neg0 [165793111276801596;789754167256000766;790000000000000000]; neg0 [668413777446396806;420491665487998466;410000000000000000]];
  [neg0 [668413777446396806;420491665487998466;410000000000000000]; neg0 [165793111276801596;789754167256000766;790000000000000000]];
  [neg0 [165793111276801596;789754167256000766;790000000000000000]; neg0 [165793111276801596;789754167256000766;790000000000000000]];
  [neg0 [970489016678492093;193691641398409398;160000000000000000]; pos0 [940978033356984186;387383282796818796;310000000000000000]];
  [pos0 [940978033356984186;387383282796818796;310000000000000000]; neg0 [970489016678492093;193691641398409398;160000000000000000]];
  [neg0 [970489016678492093;193691641398409398;160000000000000000]; neg0 [970489016678492093;193691641398409398;160000000000000000]];
  [neg0 [68804256762219396;208216818306124542;516000000000000000]; neg0 [862391486475561207;583566363387750914;970000000000000000]];
  [neg0 [862391486475561207;583566363387750914;970000000000000000]; neg0 [68804256762219396;208216818306124542;516000000000000000]];
  [neg0 [68804256762219396;208216818306124542;516000000000000000]; neg0 [68804256762219396;208216818306124542;516000000000000000]];
  [neg0 [639283767467258759;628313855541239122;130000000000000000]; pos0 [278567534934517519;256627711082478244;270000000000000000]];
  [pos0 [278567534934517519;256627711082478244;270000000000000000]; neg0 [639283767467258759;628313855541239122;130000000000000000]];
  [neg0 [639283767467258759;628313855541239122;130000000000000000]; neg0 [639283767467258759;628313855541239122;130000000000000000]];
  [neg0 [866691873040806140;486466503203002306;10000000000000000]; pos0 [733383746081612280;972933006406004612;20000000000000000]];
  [pos0 [733383746081612280;972933006406004612;20000000000000000]; neg0 [866691873040806140;486466503203002306;10000000000000000]];
  [neg0 [866691873040806140;486466503203002306;10000000000000000]; neg0 [866691873040806140;486466503203002306;10000000000000000]];
  [neg0 [428586995126826743;996324242510615958;210000000000000000]; neg0 [142826009746346512;7351514978768083;580000000000000000]];
  [neg0 [142826009746346512;7351514978768083;580000000000000000]; neg0 [428586995126826743;996324242510615958;210000000000000000]];
  [neg0 [428586995126826743;996324242510615958;210000000000000000]; neg0 [428586995126826743;996324242510615958;210000000000000000]];
  [neg0 [967964715275761406;315185375733470426;930000000000000000]; pos0 [649580140330176048;868581216361640245;700000000000000000]];
  [pos0 [649580140330176048;868581216361640245;700000000000000000]; neg0 [967964715275761406;315185375733470426;930000000000000000]];
  [neg0 [681615425054414642;553395840628169818;780000000000000000]; pos0 [649580140330176048;868581216361640245;700000000000000000]];
  [pos0 [649580140330176048;868581216361640245;700000000000000000]; neg0 [681615425054414642;553395840628169818;780000000000000000]];
  [neg0 [681615425054414642;553395840628169818;780000000000000000]; neg0 [967964715275761406;315185375733470426;930000000000000000]];
  [neg0 [967964715275761406;315185375733470426;930000000000000000]; neg0 [681615425054414642;553395840628169818;780000000000000000]];
  [neg0 [387436816507626916;929381012290253254;850000000000000000]; pos0 [252738060772904524;137444605595624650;370000000000000000]];
  [pos0 [252738060772904524;137444605595624650;370000000000000000]; neg0 [387436816507626916;929381012290253254;850000000000000000]];
  [neg0 [865301244265277607;208063593305371395;520000000000000000]; pos0 [252738060772904524;137444605595624650;370000000000000000]];
  [pos0 [252738060772904524;137444605595624650;370000000000000000]; neg0 [865301244265277607;208063593305371395;520000000000000000]];
  [neg0 [865301244265277607;208063593305371395;520000000000000000]; neg0 [387436816507626916;929381012290253254;850000000000000000]];
  [neg0 [387436816507626916;929381012290253254;850000000000000000]; neg0 [865301244265277607;208063593305371395;520000000000000000]];
  [neg0 [973540654479826213;385966573301788826;60000000000000000]; pos0 [142589735889368103;701298223391917194;840000000000000000]];
  [pos0 [142589735889368103;701298223391917194;840000000000000000]; neg0 [973540654479826213;385966573301788826;60000000000000000]];
  [neg0 [169049081409541890;315331650090128368;780000000000000000]; pos0 [142589735889368103;701298223391917194;840000000000000000]];
  [pos0 [142589735889368103;701298223391917194;840000000000000000]; neg0 [169049081409541890;315331650090128368;780000000000000000]];
  [neg0 [169049081409541890;315331650090128368;780000000000000000]; neg0 [973540654479826213;385966573301788826;60000000000000000]];
  [neg0 [973540654479826213;385966573301788826;60000000000000000]; neg0 [169049081409541890;315331650090128368;780000000000000000]];
  [neg0 [843915318863435151;657338258961373769;780000000000000000]; pos0 [506470291872916237;792854798228719798;690000000000000000]];
  [pos0 [506470291872916237;792854798228719798;690000000000000000]; neg0 [843915318863435151;657338258961373769;780000000000000000]];
  [neg0 [662554973009481086;135516539267346028;910000000000000000]; pos0 [506470291872916237;792854798228719798;690000000000000000]];
  [pos0 [506470291872916237;792854798228719798;690000000000000000]; neg0 [662554973009481086;135516539267346028;910000000000000000]];
  [neg0 [662554973009481086;135516539267346028;910000000000000000]; neg0 [843915318863435151;657338258961373769;780000000000000000]];
  [neg0 [843915318863435151;657338258961373769;780000000000000000]; neg0 [662554973009481086;135516539267346028;910000000000000000]];
  [neg0 [973728258331994610;66792721140060654;700000000000000000]; pos0 [430144518221284923;31849240752726043;990000000000000000]];
  [pos0 [430144518221284923;31849240752726043;990000000000000000]; neg0 [973728258331994610;66792721140060654;700000000000000000]];
  [neg0 [456416259889290312;965056519612665389;290000000000000000]; pos0 [430144518221284923;31849240752726043;990000000000000000]];
  [pos0 [430144518221284923;31849240752726043;990000000000000000]; neg0 [456416259889290312;965056519612665389;290000000000000000]];
  [neg0 [456416259889290312;965056519612665389;290000000000000000]; neg0 [973728258331994610;66792721140060654;700000000000000000]];
  [neg0 [973728258331994610;66792721140060654;700000000000000000]; neg0 [456416259889290312;965056519612665389;290000000000000000]];
  [neg0 [976849648193638769;303915763196771082;200000000000000000]; pos0 [831838706595633916;754864478278286679;240000000000000000]];
  [pos0 [831838706595633916;754864478278286679;240000000000000000]; neg0 [976849648193638769;303915763196771082;200000000000000000]];
  [neg0 [854989058401995147;450948715081515597;40000000000000000]; pos0 [831838706595633916;754864478278286679;240000000000000000]];
  [pos0 [831838706595633916;754864478278286679;240000000000000000]; neg0 [854989058401995147;450948715081515597;40000000000000000]];
  [neg0 [854989058401995147;450948715081515597;40000000000000000]; neg0 [976849648193638769;303915763196771082;200000000000000000]];
  [neg0 [976849648193638769;303915763196771082;200000000000000000]; neg0 [854989058401995147;450948715081515597;40000000000000000]];
  [neg0 [684989044146260189;944778168952598571;350000000000000000]; pos0 [86551159192319548;209296799380484667;575000000000000000]];
  [pos0 [86551159192319548;209296799380484667;575000000000000000]; neg0 [684989044146260189;944778168952598571;350000000000000000]];
  [neg0 [401562115046059358;264518630427886096;220000000000000000]; pos0 [86551159192319548;209296799380484667;575000000000000000]];
  [pos0 [86551159192319548;209296799380484667;575000000000000000]; neg0 [401562115046059358;264518630427886096;220000000000000000]];
  [neg0 [401562115046059358;264518630427886096;220000000000000000]; neg0 [684989044146260189;944778168952598571;350000000000000000]];
  [neg0 [684989044146260189;944778168952598571;350000000000000000]; neg0 [401562115046059358;264518630427886096;220000000000000000]]],
 [pos0 [54621853056204215;47557695108059484;685000000000000000];
  pos0 [54621853056204215;47557695108059484;685000000000000000];
  pos0 [54621853056204215;47557695108059484;685000000000000000];
  pos0 [5547775155275284;309224985184659289;913600000000000000];
  pos0 [5547775155275284;309224985184659289;913600000000000000];
  pos0 [5547775155275284;309224985184659289;913600000000000000];
  pos0 [50038901900994715;594115060352765454;535000000000000000];
  pos0 [50038901900994715;594115060352765454;535000000000000000];
  pos0 [50038901900994715;594115060352765454;535000000000000000];
  pos0 [52625261176035969;912068830347159305;457000000000000000];
  pos0 [52625261176035969;912068830347159305;457000000000000000];
  pos0 [52625261176035969;912068830347159305;457000000000000000];
  pos0 [24918001604610884;190500085730827367;33000000000000000];
  pos0 [24918001604610884;190500085730827367;33000000000000000];
  pos0 [24918001604610884;190500085730827367;33000000000000000];
  pos0 [75432474305590560;32857611935910459;517000000000000000];
  pos0 [75432474305590560;32857611935910459;517000000000000000];
  pos0 [75432474305590560;32857611935910459;517000000000000000];
  pos0 [15956600411859186;648565244290131049;809000000000000000];
  pos0 [15956600411859186;648565244290131049;809000000000000000];
  pos0 [15956600411859186;648565244290131049;809000000000000000];
  pos0 [15956600411859186;648565244290131049;809000000000000000];
  pos0 [15956600411859186;648565244290131049;809000000000000000];
  pos0 [15956600411859186;648565244290131049;809000000000000000];
  pos0 [44975545093382132;884644311560338005;954000000000000000];
  pos0 [44975545093382132;884644311560338005;954000000000000000];
  pos0 [44975545093382132;884644311560338005;954000000000000000];
  pos0 [44975545093382132;884644311560338005;954000000000000000];
  pos0 [44975545093382132;884644311560338005;954000000000000000];
  pos0 [44975545093382132;884644311560338005;954000000000000000];
  pos0 [20796879911679072;927257130756176547;979000000000000000];
  pos0 [20796879911679072;927257130756176547;979000000000000000];
  pos0 [20796879911679072;927257130756176547;979000000000000000];
  pos0 [20796879911679072;927257130756176547;979000000000000000];
  pos0 [20796879911679072;927257130756176547;979000000000000000];
  pos0 [20796879911679072;927257130756176547;979000000000000000];
  pos0 [41115796640909034;992011659162843848;261000000000000000];
  pos0 [41115796640909034;992011659162843848;261000000000000000];
  pos0 [41115796640909034;992011659162843848;261000000000000000];
  pos0 [41115796640909034;992011659162843848;261000000000000000];
  pos0 [41115796640909034;992011659162843848;261000000000000000];
  pos0 [41115796640909034;992011659162843848;261000000000000000];
  pos0 [17384429002002383;137547850880991473;289000000000000000];
  pos0 [17384429002002383;137547850880991473;289000000000000000];
  pos0 [17384429002002383;137547850880991473;289000000000000000];
  pos0 [17384429002002383;137547850880991473;289000000000000000];
  pos0 [17384429002002383;137547850880991473;289000000000000000];
  pos0 [17384429002002383;137547850880991473;289000000000000000];
  pos0 [9168696803471733;685899214741559201;616200000000000000];
  pos0 [9168696803471733;685899214741559201;616200000000000000];
  pos0 [9168696803471733;685899214741559201;616200000000000000];
  pos0 [9168696803471733;685899214741559201;616200000000000000];
  pos0 [9168696803471733;685899214741559201;616200000000000000];
  pos0 [9168696803471733;685899214741559201;616200000000000000];
  pos0 [52343251870673974;514245787611602525;856000000000000000];
  pos0 [52343251870673974;514245787611602525;856000000000000000];
  pos0 [52343251870673974;514245787611602525;856000000000000000];
  pos0 [52343251870673974;514245787611602525;856000000000000000];
  pos0 [52343251870673974;514245787611602525;856000000000000000];
  pos0 [52343251870673974;514245787611602525;856000000000000000]]).
(** WitherdenVincent2015_Tri.cpp:645-746, order 18. *)
Definition WV_Tri_18 : raw_rule := (
 [[neg0 [333333333333333333;333333333333333333;330000000000000000]; neg0 [333333333333333333;333333333333333333;330000000000000000]];
  [neg0 [200088743864847536;639267756460387223;470000000000000000]; neg0 [599822512270304926;721464487079225553;50000000000000000]];
  [neg0 [599822512270304926;721464487079225553;50000000000000000]; neg0 [200088743864847536;639267756460387223;470000000000000000]];
  [neg0 [200088743864847536;639267756460387223;470000000000000000]; neg0 [200088743864847536;639267756460387223;470000000000000000]];
  [neg0 [24839396850260875;373628934599793544;657000000000000000]; neg0 [950321206299478249;252742130800412910;690000000000000000]];
  [neg0 [950321206299478249;252742130800412910;690000000000000000]; neg0 [24839396850260875;373628934599793544;657000000000000000]];
  [neg0 [24839396850260875;373628934599793544;657000000000000000]; neg0 [24839396850260875;373628934599793544;657000000000000000]];
  [neg0 [76380987187101537;262574124416325864;243000000000000000]; neg0 [847238025625796925;474851751167348271;510000000000000000]];
  [neg0 [847238025625796925;474851751167348271;510000000000000000]; neg0 [76380987187101537;262574124416325864;243000000000000000]];
  [neg0 [76380987187101537;262574124416325864;243000000000000000]; neg0 [76380987187101537;262574124416325864;243000000000000000]];
  [neg0 [515470594971456075;590121533405721048;780000000000000000]; pos0 [30941189942912151;180243066811442097;565000000000000000]];
  [pos0 [30941189942912151;180243066811442097;565000000000000000]; neg0 [515470594971456075;590121533405721048;780000000000000000]];
  [neg0 [515470594971456075;590121533405721048;780000000000000000]; neg0 [515470594971456075;590121533405721048;780000000000000000]];
  [neg0 [922339487822628810;579558359401738208;820000000000000000]; pos0 [844678975645257621;159116718803476417;640000000000000000]];
  [pos0 [844678975645257621;159116718803476417;640000000000000000]; neg0 [922339487822628810;579558359401738208;820000000000000000]];
  [neg0 [922339487822628810;579558359401738208;820000000000000000]; neg0 [922339487822628810;579558359401738208;820000000000000000]];
  [neg0 [816104515756713606;528231210996636930;880000000000000000]; pos0 [632209031513427213;56462421993273861;770000000000000000]];
  [pos0 [632209031513427213;56462421993273861;770000000000000000]; neg0 [816104515756713606;528231210996636930;880000000000000000]];
  [neg0 [816104515756713606;528231210996636930;880000000000000000]; neg0 [816104515756713606;528231210996636930;880000000000000000]];
  [neg0 [908390168280278437;742815814988084520;910000000000000000]; pos0 [540744752429350426;458619915011684245;480000000000000000]];
  [pos0 [540744752429350426;458619915011684245;480000000000000000]; neg0 [908390168280278437;742815814988084520;910000000000000000]];
  [neg0 [632354584149071988;715804100023599724;570000000000000000]; pos0 [540744752429350426;458619915011684245;480000000000000000]];
  [pos0 [540744752429350426;458619915011684245;480000000000000000]; neg0 [632354584149071988;715804100023599724;570000000000000000]];
  [neg0 [632354584149071988;715804100023599724;570000000000000000]; neg0 [908390168280278437;742815814988084520;910000000000000000]];
  [neg0 [908390168280278437;742815814988084520;910000000000000000]; neg0 [632354584149071988;715804100023599724;570000000000000000]];
  [neg0 [587301485132324133;161309629648845149;780000000000000000]; pos0 [341907970388469026;322311395534002187;600000000000000000]];
  [pos0 [341907970388469026;322311395534002187;600000000000000000]; neg0 [587301485132324133;161309629648845149;780000000000000000]];
  [neg0 [754606485256144893;161001765885157037;820000000000000000]; pos0 [341907970388469026;322311395534002187;600000000000000000]];
  [pos0 [341907970388469026;322311395534002187;600000000000000000]; neg0 [754606485256144893;161001765885157037;820000000000000000]];
  [neg0 [754606485256144893;161001765885157037;820000000000000000]; neg0 [587301485132324133;161309629648845149;780000000000000000]];
  [neg0 [587301485132324133;161309629648845149;780000000000000000]; neg0 [754606485256144893;161001765885157037;820000000000000000]];
  [neg0 [992204777933053234;926156617314378675;960000000000000000]; pos0 [200837909268513829;531725936240801894;630000000000000000]];
  [pos0 [200837909268513829;531725936240801894;630000000000000000]; neg0 [992204777933053234;926156617314378675;960000000000000000]];
  [neg0 [208633131335460594;605569318926423218;670000000000000000]; pos0 [200837909268513829;531725936240801894;630000000000000000]];
  [pos0 [200837909268513829;531725936240801894;630000000000000000]; neg0 [208633131335460594;605569318926423218;670000000000000000]];
  [neg0 [208633131335460594;605569318926423218;670000000000000000]; neg0 [992204777933053234;926156617314378675;960000000000000000]];
  [neg0 [992204777933053234;926156617314378675;960000000000000000]; neg0 [208633131335460594;605569318926423218;670000000000000000]];
  [neg0 [973075966517110021;571279789807423499;440000000000000000]; pos0 [756684378935043435;511700703355656647;900000000000000000]];
  [pos0 [756684378935043435;511700703355656647;900000000000000000]; neg0 [973075966517110021;571279789807423499;440000000000000000]];
  [neg0 [783608412417933413;940420913548233148;470000000000000000]; pos0 [756684378935043435;511700703355656647;900000000000000000]];
  [pos0 [756684378935043435;511700703355656647;900000000000000000]; neg0 [783608412417933413;940420913548233148;470000000000000000]];
  [neg0 [783608412417933413;940420913548233148;470000000000000000]; neg0 [973075966517110021;571279789807423499;440000000000000000]];
  [neg0 [973075966517110021;571279789807423499;440000000000000000]; neg0 [783608412417933413;940420913548233148;470000000000000000]];
  [neg0 [919479433060183873;711232795194908512;150000000000000000]; pos0 [279976184009429189;822092586676379552;330000000000000000]];
  [pos0 [279976184009429189;822092586676379552;330000000000000000]; neg0 [919479433060183873;711232795194908512;150000000000000000]];
  [neg0 [360496750949245316;110859791481471040;180000000000000000]; pos0 [279976184009429189;822092586676379552;330000000000000000]];
  [pos0 [279976184009429189;822092586676379552;330000000000000000]; neg0 [360496750949245316;110859791481471040;180000000000000000]];
  [neg0 [360496750949245316;110859791481471040;180000000000000000]; neg0 [919479433060183873;711232795194908512;150000000000000000]];
  [neg0 [919479433060183873;711232795194908512;150000000000000000]; neg0 [360496750949245316;110859791481471040;180000000000000000]];
  [neg0 [989403329626780469;398425798207529412;790000000000000000]; pos0 [517858959710396988;90298907668722519;420000000000000000]];
  [pos0 [517858959710396988;90298907668722519;420000000000000000]; neg0 [989403329626780469;398425798207529412;790000000000000000]];
  [neg0 [528455630083616518;691873109461193106;640000000000000000]; pos0 [517858959710396988;90298907668722519;420000000000000000]];
  [pos0 [517858959710396988;90298907668722519;420000000000000000]; neg0 [528455630083616518;691873109461193106;640000000000000000]];
  [neg0 [528455630083616518;691873109461193106;640000000000000000]; neg0 [989403329626780469;398425798207529412;790000000000000000]];
  [neg0 [989403329626780469;398425798207529412;790000000000000000]; neg0 [528455630083616518;691873109461193106;640000000000000000]];
  [neg0 [998903279915915362;15163980450626013;340000000000000000]; pos0 [944721457925591333;563597260116345535;540000000000000000]];
  [pos0 [944721457925591333;563597260116345535;540000000000000000]; neg0 [998903279915915362;15163980450626013;340000000000000000]];
  [neg0 [945818178009675971;548433279665719522;200000000000000000]; pos0 [944721457925591333;563597260116345535;540000000000000000]];
  [pos0 [944721457925591333;563597260116345535;540000000000000000]; neg0 [945818178009675971;548433279665719522;200000000000000000]];
  [neg0 [945818178009675971;548433279665719522;200000000000000000]; neg0 [998903279915915362;15163980450626013;340000000000000000]];
  [neg0 [998903279915915362;15163980450626013;340000000000000000]; neg0 [945818178009675971;548433279665719522;200000000000000000]];
  [neg0 [758824609672150713;646429893578712494;140000000000000000]; pos0 [91837550772389199;617388042151854332;785000000000000000]];
  [pos0 [91837550772389199;617388042151854332;785000000000000000]; neg0 [758824609672150713;646429893578712494;140000000000000000]];
  [neg0 [333012941100238485;970958148573141838;650000000000000000]; pos0 [91837550772389199;617388042151854332;785000000000000000]];
  [pos0 [91837550772389199;617388042151854332;785000000000000000]; neg0 [333012941100238485;970958148573141838;650000000000000000]];
  [neg0 [333012941100238485;970958148573141838;650000000000000000]; neg0 [758824609672150713;646429893578712494;140000000000000000]];
  [neg0 [758824609672150713;646429893578712494;140000000000000000]; neg0 [333012941100238485;970958148573141838;650000000000000000]]],
 [pos0 [72711470602853332;335988402976151320;416000000000000000];
  pos0 [66608940066780270;570831020513249877;437000000000000000];
  pos0 [66608940066780270;570831020513249877;437000000000000000];
  pos0 [66608940066780270;570831020513249877;437000000000000000];
  pos0 [24093295267999420;236853581306803869;378000000000000000];
  pos0 [24093295267999420;236853581306803869;378000000000000000];
  pos0 [24093295267999420;236853581306803869;378000000000000000];
  pos0 [37898343013557732;52184724503582760;819000000000000000];
  pos0 [37898343013557732;52184724503582760;819000000000000000];
  pos0 [37898343013557732;52184724503582760;819000000000000000];
  pos0 [72950178817887274;68289295917294690;431000000000000000];
  pos0 [72950178817887274;68289295917294690;431000000000000000];
  pos0 [72950178817887274;68289295917294690;431000000000000000];
  pos0 [14258652039437941;355528309610938991;63000000000000000];
  pos0 [14258652039437941;355528309610938991;63000000000000000];
  pos0 [14258652039437941;355528309610938991;63000000000000000];
  pos0 [33118319904006498;336116111979261819;383000000000000000];
  pos0 [33118319904006498;336116111979261819;383000000000000000];
  pos0 [33118319904006498;336116111979261819;383000000000000000];
  pos0 [27519232469884410;475839046418369773;390000000000000000];
  pos0 [27519232469884410;475839046418369773;390000000000000000];
  pos0 [27519232469884410;475839046418369773;390000000000000000];
  pos0 [27519232469884410;475839046418369773;390000000000000000];
  pos0 [27519232469884410;475839046418369773;390000000000000000];
  pos0 [27519232469884410;475839046418369773;390000000000000000];
  pos0 [47563821800305659;903183394223175954;568000000000000000];
  pos0 [47563821800305659;903183394223175954;568000000000000000];
  pos0 [47563821800305659;903183394223175954;568000000000000000];
  pos0 [47563821800305659;903183394223175954;568000000000000000];
  pos0 [47563821800305659;903183394223175954;568000000000000000];
  pos0 [47563821800305659;903183394223175954;568000000000000000];
  pos0 [9061069004514130;798409108959129558;404100000000000000];
  pos0 [9061069004514130;798409108959129558;404100000000000000];
  pos0 [9061069004514130;798409108959129558;404100000000000000];
  pos0 [9061069004514130;798409108959129558;404100000000000000];
  pos0 [9061069004514130;798409108959129558;404100000000000000];
  pos0 [9061069004514130;798409108959129558;404100000000000000];
  pos0 [13680220239214362;980455516076649575;226000000000000000];
  pos0 [13680220239214362;980455516076649575;226000000000000000];
  pos0 [13680220239214362;980455516076649575;226000000000000000];
  pos0 [13680220239214362;980455516076649575;226000000000000000];
  pos0 [13680220239214362;980455516076649575;226000000000000000];
  pos0 [13680220239214362;980455516076649575;226000000000000000];
  pos0 [35494978204040810;232789924461690967;346000000000000000];
  pos0 [35494978204040810;232789924461690967;346000000000000000];
  pos0 [35494978204040810;232789924461690967;346000000000000000];
  pos0 [35494978204040810;232789924461690967;346000000000000000];
  pos0 [35494978204040810;232789924461690967;346000000000000000];
  pos0 [35494978204040810;232789924461690967;346000000000000000];
  pos0 [10021321749159443;407741271393882052;956000000000000000];
  pos0 [10021321749159443;407741271393882052;956000000000000000];
  pos0 [10021321749159443;407741271393882052;956000000000000000];
  pos0 [10021321749159443;407741271393882052;956000000000000000];
  pos0 [10021321749159443;407741271393882052;956000000000000000];
  pos0 [10021321749159443;407741271393882052;956000000000000000];
  pos0 [2445896253922179;558436048194995742;367400000000000000];
  pos0 [2445896253922179;558436048194995742;367400000000000000];
  pos0 [2445896253922179;558436048194995742;367400000000000000];
  pos0 [2445896253922179;558436048194995742;367400000000000000];
  pos0 [2445896253922179;558436048194995742;367400000000000000];
  pos0 [2445896253922179;558436048194995742;367400000000000000];
  pos0 [50964350623648878;943912767860515151;418000000000000000];
  pos0 [50964350623648878;943912767860515151;418000000000000000];
  pos0 [50964350623648878;943912767860515151;418000000000000000];
  pos0 [50964350623648878;943912767860515151;418000000000000000];
  pos0 [50964350623648878;943912767860515151;418000000000000000];
  pos0 [50964350623648878;943912767860515151;418000000000000000]]).
(** WitherdenVincent2015_Tri.cpp:747-857, order 19. *)
Definition WV_Tri_19 : raw_rule := (
 [[neg0 [333333333333333333;333333333333333333;330000000000000000]; neg0 [333333333333333333;333333333333333333;330000000000000000]];
  [neg0 [894952219297582065;970486987955126622;930000000000000000]; pos0 [789904438595164131;940973975910253245;850000000000000000]];
  [pos0 [789904438595164131;940973975910253245;850000000000000000]; neg0 [894952219297582065;970486987955126622;930000000000000000]];
  [neg0 [894952219297582065;970486987955126622;930000000000000000]; neg0 [894952219297582065;970486987955126622;930000000000000000]];
  [neg0 [14974649917326261;6204672820750524;368000000000000000]; neg0 [970050700165347477;987590654358498951;260000000000000000]];
  [neg0 [970050700165347477;987590654358498951;260000000000000000]; neg0 [14974649917326261;6204672820750524;368000000000000000]];
  [neg0 [14974649917326261;6204672820750524;368000000000000000]; neg0 [14974649917326261;6204672820750524;368000000000000000]];
  [neg0 [777102253353957247;94589408590571350;240000000000000000]; pos0 [554204506707914494;189178817181142700;480000000000000000]];
  [pos0 [554204506707914494;189178817181142700;480000000000000000]; neg0 [777102253353957247;94589408590571350;240000000000000000]];
  [neg0 [777102253353957247;94589408590571350;240000000000000000]; neg0 [777102253353957247;94589408590571350;240000000000000000]];
  [neg0 [81611597920912685;59612142098374044;80000000000000000]; neg0 [836776804158174629;880775715803251911;840000000000000000]];
  [neg0 [836776804158174629;880775715803251911;840000000000000000]; neg0 [81611597920912685;59612142098374044;80000000000000000]];
  [neg0 [81611597920912685;59612142098374044;80000000000000000]; neg0 [81611597920912685;59612142098374044;80000000000000000]];
  [neg0 [192060554896197606;783924982927640930;840000000000000000]; neg0 [615878890207604786;432150034144718138;310000000000000000]];
  [neg0 [615878890207604786;432150034144718138;310000000000000000]; neg0 [192060554896197606;783924982927640930;840000000000000000]];
  [neg0 [192060554896197606;783924982927640930;840000000000000000]; neg0 [192060554896197606;783924982927640930;840000000000000000]];
  [neg0 [643659790436471378;314456317998540427;990000000000000000]; pos0 [287319580872942756;628912635997080855;980000000000000000]];
  [pos0 [287319580872942756;628912635997080855;980000000000000000]; neg0 [643659790436471378;314456317998540427;990000000000000000]];
  [neg0 [643659790436471378;314456317998540427;990000000000000000]; neg0 [643659790436471378;314456317998540427;990000000000000000]];
  [neg0 [976721077632421106;158026600110745236;490000000000000000]; pos0 [953442155264842212;316053200221490472;970000000000000000]];
  [pos0 [953442155264842212;316053200221490472;970000000000000000]; neg0 [976721077632421106;158026600110745236;490000000000000000]];
  [neg0 [976721077632421106;158026600110745236;490000000000000000]; neg0 [976721077632421106;158026600110745236;490000000000000000]];
  [neg0 [489676734172784604;982501101957913402;790000000000000000]; neg0 [20646531654430790;34997796084173194;424000000000000000]];
  [neg0 [20646531654430790;34997796084173194;424000000000000000]; neg0 [489676734172784604;982501101957913402;790000000000000000]];
  [neg0 [489676734172784604;982501101957913402;790000000000000000]; neg0 [489676734172784604;982501101957913402;790000000000000000]];
  [neg0 [738604647463935190;860782115305744735;210000000000000000]; pos0 [660312928800550748;211438373099962709;400000000000000000]];
  [pos0 [660312928800550748;211438373099962709;400000000000000000]; neg0 [738604647463935190;860782115305744735;210000000000000000]];
  [neg0 [921708281336615557;350656257794217974;190000000000000000]; pos0 [660312928800550748;211438373099962709;400000000000000000]];
  [pos0 [660312928800550748;211438373099962709;400000000000000000]; neg0 [921708281336615557;350656257794217974;190000000000000000]];
  [neg0 [921708281336615557;350656257794217974;190000000000000000]; neg0 [738604647463935190;860782115305744735;210000000000000000]];
  [neg0 [738604647463935190;860782115305744735;210000000000000000]; neg0 [921708281336615557;350656257794217974;190000000000000000]];
  [neg0 [377364740380917494;449738700426030892;250000000000000000]; pos0 [118739611440601828;317707596713027968;420000000000000000]];
  [pos0 [118739611440601828;317707596713027968;420000000000000000]; neg0 [377364740380917494;449738700426030892;250000000000000000]];
  [neg0 [741374871059684333;867968896286997076;170000000000000000]; pos0 [118739611440601828;317707596713027968;420000000000000000]];
  [pos0 [118739611440601828;317707596713027968;420000000000000000]; neg0 [741374871059684333;867968896286997076;170000000000000000]];
  [neg0 [741374871059684333;867968896286997076;170000000000000000]; neg0 [377364740380917494;449738700426030892;250000000000000000]];
  [neg0 [377364740380917494;449738700426030892;250000000000000000]; neg0 [741374871059684333;867968896286997076;170000000000000000]];
  [neg0 [995862148206790384;779788596281189042;70000000000000000]; pos0 [266626586257568266;93735317982001138;250000000000000000]];
  [pos0 [266626586257568266;93735317982001138;250000000000000000]; neg0 [995862148206790384;779788596281189042;70000000000000000]];
  [neg0 [270764438050777881;313946721700812096;180000000000000000]; pos0 [266626586257568266;93735317982001138;250000000000000000]];
  [pos0 [266626586257568266;93735317982001138;250000000000000000]; neg0 [270764438050777881;313946721700812096;180000000000000000]];
  [neg0 [270764438050777881;313946721700812096;180000000000000000]; neg0 [995862148206790384;779788596281189042;70000000000000000]];
  [neg0 [995862148206790384;779788596281189042;70000000000000000]; neg0 [270764438050777881;313946721700812096;180000000000000000]];
  [neg0 [850879410796746642;925869749174696431;860000000000000000]; pos0 [408009639932084219;761758381563318453;740000000000000000]];
  [pos0 [408009639932084219;761758381563318453;740000000000000000]; neg0 [850879410796746642;925869749174696431;860000000000000000]];
  [neg0 [557130229135337576;835888632388622021;880000000000000000]; pos0 [408009639932084219;761758381563318453;740000000000000000]];
  [pos0 [408009639932084219;761758381563318453;740000000000000000]; neg0 [557130229135337576;835888632388622021;880000000000000000]];
  [neg0 [557130229135337576;835888632388622021;880000000000000000]; neg0 [850879410796746642;925869749174696431;860000000000000000]];
  [neg0 [850879410796746642;925869749174696431;860000000000000000]; neg0 [557130229135337576;835888632388622021;880000000000000000]];
  [neg0 [989985423485291017;733017811234834221;360000000000000000]; pos0 [705133908753778399;356506630348009861;540000000000000000]];
  [pos0 [705133908753778399;356506630348009861;540000000000000000]; neg0 [989985423485291017;733017811234834221;360000000000000000]];
  [neg0 [715148485268487381;623488819113175640;170000000000000000]; pos0 [705133908753778399;356506630348009861;540000000000000000]];
  [pos0 [705133908753778399;356506630348009861;540000000000000000]; neg0 [715148485268487381;623488819113175640;170000000000000000]];
  [neg0 [715148485268487381;623488819113175640;170000000000000000]; neg0 [989985423485291017;733017811234834221;360000000000000000]];
  [neg0 [989985423485291017;733017811234834221;360000000000000000]; neg0 [715148485268487381;623488819113175640;170000000000000000]];
  [neg0 [918223977607966247;721744208942410767;410000000000000000]; pos0 [210167958137415928;225698838377864914;780000000000000000]];
  [pos0 [210167958137415928;225698838377864914;780000000000000000]; neg0 [918223977607966247;721744208942410767;410000000000000000]];
  [neg0 [291943980529449680;503954629435454147;380000000000000000]; pos0 [210167958137415928;225698838377864914;780000000000000000]];
  [pos0 [210167958137415928;225698838377864914;780000000000000000]; neg0 [291943980529449680;503954629435454147;380000000000000000]];
  [neg0 [291943980529449680;503954629435454147;380000000000000000]; neg0 [918223977607966247;721744208942410767;410000000000000000]];
  [neg0 [918223977607966247;721744208942410767;410000000000000000]; neg0 [291943980529449680;503954629435454147;380000000000000000]];
  [neg0 [516210842078840862;843942005613717235;340000000000000000]; pos0 [486362737914872719;493141233462996012;620000000000000000]];
  [pos0 [486362737914872719;493141233462996012;620000000000000000]; neg0 [516210842078840862;843942005613717235;340000000000000000]];
  [neg0 [970151895836031856;649199227849278777;290000000000000000]; pos0 [486362737914872719;493141233462996012;620000000000000000]];
  [pos0 [486362737914872719;493141233462996012;620000000000000000]; neg0 [970151895836031856;649199227849278777;290000000000000000]];
  [neg0 [970151895836031856;649199227849278777;290000000000000000]; neg0 [516210842078840862;843942005613717235;340000000000000000]];
  [neg0 [516210842078840862;843942005613717235;340000000000000000]; neg0 [970151895836031856;649199227849278777;290000000000000000]];
  [neg0 [879827449355386604;15207508084284138;260000000000000000]; pos0 [860275397753610293;312576050156038100;290000000000000000]];
  [pos0 [860275397753610293;312576050156038100;290000000000000000]; neg0 [879827449355386604;15207508084284138;260000000000000000]];
  [neg0 [980447948398223689;297368542071753962;30000000000000000]; pos0 [860275397753610293;312576050156038100;290000000000000000]];
  [pos0 [860275397753610293;312576050156038100;290000000000000000]; neg0 [980447948398223689;297368542071753962;30000000000000000]];
  [neg0 [980447948398223689;297368542071753962;30000000000000000]; neg0 [879827449355386604;15207508084284138;260000000000000000]];
  [neg0 [879827449355386604;15207508084284138;260000000000000000]; neg0 [980447948398223689;297368542071753962;30000000000000000]]],
 [pos0 [68938795408024669;812026416913714150;21000000000000000];
  pos0 [14218513195596261;75438194944381222;518000000000000000];
  pos0 [14218513195596261;75438194944381222;518000000000000000];
  pos0 [14218513195596261;75438194944381222;518000000000000000];
  pos0 [20643510285888563;379375271511299695;768000000000000000];
  pos0 [20643510285888563;379375271511299695;768000000000000000];
  pos0 [20643510285888563;379375271511299695;768000000000000000];
  pos0 [30468702186036599;162431617970615364;518000000000000000];
  pos0 [30468702186036599;162431617970615364;518000000000000000];
  pos0 [30468702186036599;162431617970615364;518000000000000000];
  pos0 [45967180053483212;460620337545594040;128000000000000000];
  pos0 [45967180053483212;460620337545594040;128000000000000000];
  pos0 [45967180053483212;460620337545594040;128000000000000000];
  pos0 [63075069786309950;153050389763287229;858000000000000000];
  pos0 [63075069786309950;153050389763287229;858000000000000000];
  pos0 [63075069786309950;153050389763287229;858000000000000000];
  pos0 [49303829696381706;581027160328087331;570000000000000000];
  pos0 [49303829696381706;581027160328087331;570000000000000000];
  pos0 [49303829696381706;581027160328087331;570000000000000000];
  pos0 [3530645552885695;319448517789894836;374900000000000000];
  pos0 [3530645552885695;319448517789894836;374900000000000000];
  pos0 [3530645552885695;319448517789894836;374900000000000000];
  pos0 [63506038732006153;941897444999340725;61000000000000000];
  pos0 [63506038732006153;941897444999340725;61000000000000000];
  pos0 [63506038732006153;941897444999340725;61000000000000000];
  pos0 [19390968973710091;597859466457133882;581000000000000000];
  pos0 [19390968973710091;597859466457133882;581000000000000000];
  pos0 [19390968973710091;597859466457133882;581000000000000000];
  pos0 [19390968973710091;597859466457133882;581000000000000000];
  pos0 [19390968973710091;597859466457133882;581000000000000000];
  pos0 [19390968973710091;597859466457133882;581000000000000000];
  pos0 [52692643954781466;370362997690064596;362000000000000000];
  pos0 [52692643954781466;370362997690064596;362000000000000000];
  pos0 [52692643954781466;370362997690064596;362000000000000000];
  pos0 [52692643954781466;370362997690064596;362000000000000000];
  pos0 [52692643954781466;370362997690064596;362000000000000000];
  pos0 [52692643954781466;370362997690064596;362000000000000000];
  pos0 [6564153103671638;511890683462332859;992000000000000000];
  pos0 [6564153103671638;511890683462332859;992000000000000000];
  pos0 [6564153103671638;511890683462332859;992000000000000000];
  pos0 [6564153103671638;511890683462332859;992000000000000000];
  pos0 [6564153103671638;511890683462332859;992000000000000000];
  pos0 [6564153103671638;511890683462332859;992000000000000000];
  pos0 [36215889862424900;129305127397133399;259000000000000000];
  pos0 [36215889862424900;129305127397133399;259000000000000000];
  pos0 [36215889862424900;129305127397133399;259000000000000000];
  pos0 [36215889862424900;129305127397133399;259000000000000000];
  pos0 [36215889862424900;129305127397133399;259000000000000000];
  pos0 [36215889862424900;129305127397133399;259000000000000000];
  pos0 [5852630206940400;812293657698113974;399300000000000000];
  pos0 [5852630206940400;812293657698113974;399300000000000000];
  pos0 [5852630206940400;812293657698113974;399300000000000000];
  pos0 [5852630206940400;812293657698113974;399300000000000000];
  pos0 [5852630206940400;812293657698113974;399300000000000000];
  pos0 [5852630206940400;812293657698113974;399300000000000000];
  pos0 [32204325528048216;419984026965287582;219000000000000000];
  pos0 [32204325528048216;419984026965287582;219000000000000000];
  pos0 [32204325528048216;419984026965287582;219000000000000000];
  pos0 [32204325528048216;419984026965287582;219000000000000000];
  pos0 [32204325528048216;419984026965287582;219000000000000000];
  pos0 [32204325528048216;419984026965287582;219000000000000000];
  pos0 [16911774999072993;635042140907181887;112000000000000000];
  pos0 [16911774999072993;635042140907181887;112000000000000000];
  pos0 [16911774999072993;635042140907181887;112000000000000000];
  pos0 [16911774999072993;635042140907181887;112000000000000000];
  pos0 [16911774999072993;635042140907181887;112000000000000000];
  pos0 [16911774999072993;635042140907181887;112000000000000000];
  pos0 [6654402725718776;517946362510882570;174200000000000000];
  pos0 [6654402725718776;517946362510882570;174200000000000000];
  pos0 [6654402725718776;517946362510882570;174200000000000000];
  pos0 [6654402725718776;517946362510882570;174200000000000000];
  pos0 [6654402725718776;517946362510882570;174200000000000000];
  pos0 [6654402725718776;517946362510882570;174200000000000000]]).
(** WitherdenVincent2015_Tri.cpp:858-977, order 20. *)
Definition WV_Tri_20 : raw_rule := (
 [[neg0 [333333333333333333;333333333333333333;330000000000000000]; neg0 [333333333333333333;333333333333333333;330000000000000000]];
  [neg0 [490841464653321775;230294703745230723;150000000000000000]; neg0 [18317070693356449;539410592509538553;699000000000000000]];
  [neg0 [18317070693356449;539410592509538553;699000000000000000]; neg0 [490841464653321775;230294703745230723;150000000000000000]];
  [neg0 [490841464653321775;230294703745230723;150000000000000000]; neg0 [490841464653321775;230294703745230723;150000000000000000]];
  [neg0 [978047717943204471;920703976282240375;70000000000000000]; pos0 [956095435886408943;841407952564480750;150000000000000000]];
  [pos0 [956095435886408943;841407952564480750;150000000000000000]; neg0 [978047717943204471;920703976282240375;70000000000000000]];
  [neg0 [978047717943204471;920703976282240375;70000000000000000]; neg0 [978047717943204471;920703976282240375;70000000000000000]];
  [neg0 [781232806576570805;966255050200332755;890000000000000000]; pos0 [562465613153141611;932510100400665511;780000000000000000]];
  [pos0 [562465613153141611;932510100400665511;780000000000000000]; neg0 [781232806576570805;966255050200332755;890000000000000000]];
  [neg0 [781232806576570805;966255050200332755;890000000000000000]; neg0 [781232806576570805;966255050200332755;890000000000000000]];
  [neg0 [627410004510918114;456534983884751291;50000000000000000]; pos0 [254820009021836228;913069967769502582;100000000000000000]];
  [pos0 [254820009021836228;913069967769502582;100000000000000000]; neg0 [627410004510918114;456534983884751291;50000000000000000]];
  [neg0 [627410004510918114;456534983884751291;50000000000000000]; neg0 [627410004510918114;456534983884751291;50000000000000000]];
  [neg0 [108897886088150369;625555443131571184;670000000000000000]; neg0 [782204227823699260;748889113736857630;670000000000000000]];
  [neg0 [782204227823699260;748889113736857630;670000000000000000]; neg0 [108897886088150369;625555443131571184;670000000000000000]];
  [neg0 [108897886088150369;625555443131571184;670000000000000000]; neg0 [108897886088150369;625555443131571184;670000000000000000]];
  [neg0 [925378238802230612;12992567425567556;120000000000000000]; pos0 [850756477604461224;25985134851135112;240000000000000000]];
  [pos0 [850756477604461224;25985134851135112;240000000000000000]; neg0 [925378238802230612;12992567425567556;120000000000000000]];
  [neg0 [925378238802230612;12992567425567556;120000000000000000]; neg0 [925378238802230612;12992567425567556;120000000000000000]];
  [neg0 [213149304365800282;642072512993444817;40000000000000000]; neg0 [573701391268399434;715854974013110365;930000000000000000]];
  [neg0 [573701391268399434;715854974013110365;930000000000000000]; neg0 [213149304365800282;642072512993444817;40000000000000000]];
  [neg0 [213149304365800282;642072512993444817;40000000000000000]; neg0 [213149304365800282;642072512993444817;40000000000000000]];
  [neg0 [47508776919001973;579296255534818088;61000000000000000]; neg0 [904982446161996052;841407488930363823;880000000000000000]];
  [neg0 [904982446161996052;841407488930363823;880000000000000000]; neg0 [47508776919001973;579296255534818088;61000000000000000]];
  [neg0 [47508776919001973;579296255534818088;61000000000000000]; neg0 [47508776919001973;579296255534818088;61000000000000000]];
  [neg0 [984858438990606943;473533082942876908;20000000000000000]; pos0 [666591023676472494;344302380086173192;410000000000000000]];
  [pos0 [666591023676472494;344302380086173192;410000000000000000]; neg0 [984858438990606943;473533082942876908;20000000000000000]];
  [neg0 [681732584685865550;870769297143296284;380000000000000000]; pos0 [666591023676472494;344302380086173192;410000000000000000]];
  [pos0 [666591023676472494;344302380086173192;410000000000000000]; neg0 [681732584685865550;870769297143296284;380000000000000000]];
  [neg0 [681732584685865550;870769297143296284;380000000000000000]; neg0 [984858438990606943;473533082942876908;20000000000000000]];
  [neg0 [984858438990606943;473533082942876908;20000000000000000]; neg0 [681732584685865550;870769297143296284;380000000000000000]];
  [neg0 [906879270184671366;972460890789463887;70000000000000000]; pos0 [509843005727095010;212417484773765890;300000000000000000]];
  [pos0 [509843005727095010;212417484773765890;300000000000000000]; neg0 [906879270184671366;972460890789463887;70000000000000000]];
  [neg0 [602963735542423643;239956593984302003;230000000000000000]; pos0 [509843005727095010;212417484773765890;300000000000000000]];
  [pos0 [509843005727095010;212417484773765890;300000000000000000]; neg0 [602963735542423643;239956593984302003;230000000000000000]];
  [neg0 [602963735542423643;239956593984302003;230000000000000000]; neg0 [906879270184671366;972460890789463887;70000000000000000]];
  [neg0 [906879270184671366;972460890789463887;70000000000000000]; neg0 [602963735542423643;239956593984302003;230000000000000000]];
  [neg0 [871818828783131879;900268664764339624;570000000000000000]; pos0 [862108953567884373;323538361606512071;90000000000000000]];
  [pos0 [862108953567884373;323538361606512071;90000000000000000]; neg0 [871818828783131879;900268664764339624;570000000000000000]];
  [neg0 [990290124784752493;423269696842172446;520000000000000000]; pos0 [862108953567884373;323538361606512071;90000000000000000]];
  [pos0 [862108953567884373;323538361606512071;90000000000000000]; neg0 [990290124784752493;423269696842172446;520000000000000000]];
  [neg0 [990290124784752493;423269696842172446;520000000000000000]; neg0 [871818828783131879;900268664764339624;570000000000000000]];
  [neg0 [871818828783131879;900268664764339624;570000000000000000]; neg0 [990290124784752493;423269696842172446;520000000000000000]];
  [neg0 [890025041714026378;731545502968370457;920000000000000000]; pos0 [223755407094851399;876295307643285430;320000000000000000]];
  [pos0 [223755407094851399;876295307643285430;320000000000000000]; neg0 [890025041714026378;731545502968370457;920000000000000000]];
  [neg0 [333730365380825021;144749804674914972;400000000000000000]; pos0 [223755407094851399;876295307643285430;320000000000000000]];
  [pos0 [223755407094851399;876295307643285430;320000000000000000]; neg0 [333730365380825021;144749804674914972;400000000000000000]];
  [neg0 [333730365380825021;144749804674914972;400000000000000000]; neg0 [890025041714026378;731545502968370457;920000000000000000]];
  [neg0 [890025041714026378;731545502968370457;920000000000000000]; neg0 [333730365380825021;144749804674914972;400000000000000000]];
  [neg0 [800095407423722689;234184353305767603;800000000000000000]; pos0 [723368037872973498;488961648411464601;120000000000000000]];
  [pos0 [723368037872973498;488961648411464601;120000000000000000]; neg0 [800095407423722689;234184353305767603;800000000000000000]];
  [neg0 [923272630449250809;254777295105696997;310000000000000000]; pos0 [723368037872973498;488961648411464601;120000000000000000]];
  [pos0 [723368037872973498;488961648411464601;120000000000000000]; neg0 [923272630449250809;254777295105696997;310000000000000000]];
  [neg0 [923272630449250809;254777295105696997;310000000000000000]; neg0 [800095407423722689;234184353305767603;800000000000000000]];
  [neg0 [800095407423722689;234184353305767603;800000000000000000]; neg0 [923272630449250809;254777295105696997;310000000000000000]];
  [neg0 [787545590559459915;274891395892215103;880000000000000000]; pos0 [356331475779271109;215995459991231931;240000000000000000]];
  [pos0 [356331475779271109;215995459991231931;240000000000000000]; neg0 [787545590559459915;274891395892215103;880000000000000000]];
  [neg0 [568785885219811193;941104064099016827;360000000000000000]; pos0 [356331475779271109;215995459991231931;240000000000000000]];
  [pos0 [356331475779271109;215995459991231931;240000000000000000]; neg0 [568785885219811193;941104064099016827;360000000000000000]];
  [neg0 [568785885219811193;941104064099016827;360000000000000000]; neg0 [787545590559459915;274891395892215103;880000000000000000]];
  [neg0 [787545590559459915;274891395892215103;880000000000000000]; neg0 [568785885219811193;941104064099016827;360000000000000000]];
  [neg0 [159952482367551840;707114166105462112;800000000000000000]; pos0 [140289385781946719;550091694648088628;600000000000000000]];
  [pos0 [140289385781946719;550091694648088628;600000000000000000]; neg0 [159952482367551840;707114166105462112;800000000000000000]];
  [neg0 [980336903414394878;842977528542626515;800000000000000000]; pos0 [140289385781946719;550091694648088628;600000000000000000]];
  [pos0 [140289385781946719;550091694648088628;600000000000000000]; neg0 [980336903414394878;842977528542626515;800000000000000000]];
  [neg0 [980336903414394878;842977528542626515;800000000000000000]; neg0 [159952482367551840;707114166105462112;800000000000000000]];
  [neg0 [159952482367551840;707114166105462112;800000000000000000]; neg0 [980336903414394878;842977528542626515;800000000000000000]];
  [neg0 [364279752328455968;48064656739480703;560000000000000000]; pos0 [84663608344856170;859761688802646336;641000000000000000]];
  [pos0 [84663608344856170;859761688802646336;641000000000000000]; neg0 [364279752328455968;48064656739480703;560000000000000000]];
  [neg0 [720383856016400202;811697032063165633;80000000000000000]; pos0 [84663608344856170;859761688802646336;641000000000000000]];
  [pos0 [84663608344856170;859761688802646336;641000000000000000]; neg0 [720383856016400202;811697032063165633;80000000000000000]];
  [neg0 [720383856016400202;811697032063165633;80000000000000000]; neg0 [364279752328455968;48064656739480703;560000000000000000]];
  [neg0 [364279752328455968;48064656739480703;560000000000000000]; neg0 [720383856016400202;811697032063165633;80000000000000000]];
  [neg0 [978525574287977825;338950877984208445;810000000000000000]; pos0 [417362751440647355;663977816896082032;290000000000000000]];
  [pos0 [417362751440647355;663977816896082032;290000000000000000]; neg0 [978525574287977825;338950877984208445;810000000000000000]];
  [neg0 [438837177152669530;325026938911873586;480000000000000000]; pos0 [417362751440647355;663977816896082032;290000000000000000]];
  [pos0 [417362751440647355;663977816896082032;290000000000000000]; neg0 [438837177152669530;325026938911873586;480000000000000000]];
  [neg0 [438837177152669530;325026938911873586;480000000000000000]; neg0 [978525574287977825;338950877984208445;810000000000000000]];
  [neg0 [978525574287977825;338950877984208445;810000000000000000]; neg0 [438837177152669530;325026938911873586;480000000000000000]]],
 [pos0 [55640442805812463;631566788253898051;532000000000000000];
  pos0 [56332805230080990;128641784124730699;360000000000000000];
  pos0 [56332805230080990;128641784124730699;360000000000000000];
  pos0 [56332805230080990;128641784124730699;360000000000000000];
  pos0 [3195363164266479;447894584733065777;72200000000000000];
  pos0 [3195363164266479;447894584733065777;72200000000000000];
  pos0 [3195363164266479;447894584733065777;72200000000000000];
  pos0 [31320923104298133;684407003648894203;447000000000000000];
  pos0 [31320923104298133;684407003648894203;447000000000000000];
  pos0 [31320923104298133;684407003648894203;447000000000000000];
  pos0 [36693851897011657;919252854118138043;537000000000000000];
  pos0 [36693851897011657;919252854118138043;537000000000000000];
  pos0 [36693851897011657;919252854118138043;537000000000000000];
  pos0 [37809599732929790;747314162640799596;721000000000000000];
  pos0 [37809599732929790;747314162640799596;721000000000000000];
  pos0 [37809599732929790;747314162640799596;721000000000000000];
  pos0 [8645101642662310;104692722157806774;508000000000000000];
  pos0 [8645101642662310;104692722157806774;508000000000000000];
  pos0 [8645101642662310;104692722157806774;508000000000000000];
  pos0 [55152202516281836;53550890863277393;79000000000000000];
  pos0 [55152202516281836;53550890863277393;79000000000000000];
  pos0 [55152202516281836;53550890863277393;79000000000000000];
  pos0 [28407301213633761;967680465924479290;382000000000000000];
  pos0 [28407301213633761;967680465924479290;382000000000000000];
  pos0 [28407301213633761;967680465924479290;382000000000000000];
  pos0 [8811589674233990;256131270815785384;648200000000000000];
  pos0 [8811589674233990;256131270815785384;648200000000000000];
  pos0 [8811589674233990;256131270815785384;648200000000000000];
  pos0 [8811589674233990;256131270815785384;648200000000000000];
  pos0 [8811589674233990;256131270815785384;648200000000000000];
  pos0 [8811589674233990;256131270815785384;648200000000000000];
  pos0 [23945594315818760;80585256144999165;493000000000000000];
  pos0 [23945594315818760;80585256144999165;493000000000000000];
  pos0 [23945594315818760;80585256144999165;493000000000000000];
  pos0 [23945594315818760;80585256144999165;493000000000000000];
  pos0 [23945594315818760;80585256144999165;493000000000000000];
  pos0 [23945594315818760;80585256144999165;493000000000000000];
  pos0 [4519478408503462;117923515058392956;48500000000000000];
  pos0 [4519478408503462;117923515058392956;48500000000000000];
  pos0 [4519478408503462;117923515058392956;48500000000000000];
  pos0 [4519478408503462;117923515058392956;48500000000000000];
  pos0 [4519478408503462;117923515058392956;48500000000000000];
  pos0 [4519478408503462;117923515058392956;48500000000000000];
  pos0 [34668902268877332;248730626058035734;221000000000000000];
  pos0 [34668902268877332;248730626058035734;221000000000000000];
  pos0 [34668902268877332;248730626058035734;221000000000000000];
  pos0 [34668902268877332;248730626058035734;221000000000000000];
  pos0 [34668902268877332;248730626058035734;221000000000000000];
  pos0 [34668902268877332;248730626058035734;221000000000000000];
  pos0 [16582846110455430;851049450635630476;598000000000000000];
  pos0 [16582846110455430;851049450635630476;598000000000000000];
  pos0 [16582846110455430;851049450635630476;598000000000000000];
  pos0 [16582846110455430;851049450635630476;598000000000000000];
  pos0 [16582846110455430;851049450635630476;598000000000000000];
  pos0 [16582846110455430;851049450635630476;598000000000000000];
  pos0 [30890431288396919;377481650650853417;183000000000000000];
  pos0 [30890431288396919;377481650650853417;183000000000000000];
  pos0 [30890431288396919;377481650650853417;183000000000000000];
  pos0 [30890431288396919;377481650650853417;183000000000000000];
  pos0 [30890431288396919;377481650650853417;183000000000000000];
  pos0 [30890431288396919;377481650650853417;183000000000000000];
  pos0 [14782726001021191;912876874452770381;690000000000000000];
  pos0 [14782726001021191;912876874452770381;690000000000000000];
  pos0 [14782726001021191;912876874452770381;690000000000000000];
  pos0 [14782726001021191;912876874452770381;690000000000000000];
  pos0 [14782726001021191;912876874452770381;690000000000000000];
  pos0 [14782726001021191;912876874452770381;690000000000000000];
  pos0 [46766982927310947;730184310937781849;814000000000000000];
  pos0 [46766982927310947;730184310937781849;814000000000000000];
  pos0 [46766982927310947;730184310937781849;814000000000000000];
  pos0 [46766982927310947;730184310937781849;814000000000000000];
  pos0 [46766982927310947;730184310937781849;814000000000000000];
  pos0 [46766982927310947;730184310937781849;814000000000000000];
  pos0 [14312800953830741;459725346431171736;663000000000000000];
  pos0 [14312800953830741;459725346431171736;663000000000000000];
  pos0 [14312800953830741;459725346431171736;663000000000000000];
  pos0 [14312800953830741;459725346431171736;663000000000000000];
  pos0 [14312800953830741;459725346431171736;663000000000000000];
  pos0 [14312800953830741;459725346431171736;663000000000000000]]).
Definition WV_Tri : raw_table := [(1%nat, WV_Tri_1); (2%nat, WV_Tri_2); (4%nat, WV_Tri_4); (5%nat, WV_Tri_5); (6%nat, WV_Tri_6); (7%nat, WV_Tri_7); (8%nat, WV_Tri_8); (9%nat, WV_Tri_9); (10%nat, WV_Tri_10); (11%nat, WV_Tri_11); (12%nat, WV_Tri_12); (13%nat, WV_Tri_13); (14%nat, WV_Tri_14); (15%nat, WV_Tri_15); (16%nat, WV_Tri_16); (17%nat, WV_Tri_17); (18%nat, WV_Tri_18); (19%nat, WV_Tri_19); (20%nat, WV_Tri_20)].
