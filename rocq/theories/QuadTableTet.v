(** The table of src/quadrules/WitherdenVincent2015_Tet.cpp (generated by tools/gen_quad_tables.py). *)
Require Import List Uint63.
Require Import Verif.QuadTableModel.
Import ListNotations.
Local Open Scope list_scope.
Local Open Scope uint63_scope.
(** WitherdenVincent2015_Tet.cpp:10-10, order 1. *)
Definition WV_Tet_1 : raw_rule := (
 [[neg0 [500000000000000000]; neg0 [500000000000000000]; neg0 [500000000000000000]]],
 [Dec false 1 [333333333333333333;333333333333333333;300000000000000000]]).
(** WitherdenVincent2015_Tet.cpp:11-21, order 2. *)
Definition WV_Tet_2 : raw_rule := (
 [[neg0 [723606797749978969;640917366873127623;540000000000000000]; neg0 [723606797749978969;640917366873127623;540000000000000000]; pos0 [170820393249936908;922752100619382870;630000000000000000]];
  [neg0 [723606797749978969;640917366873127623;540000000000000000]; pos0 [170820393249936908;922752100619382870;630000000000000000]; neg0 [723606797749978969;640917366873127623;540000000000000000]];
  [pos0 [170820393249936908;922752100619382870;630000000000000000]; neg0 [723606797749978969;640917366873127623;540000000000000000]; neg0 [723606797749978969;640917366873127623;540000000000000000]];
  [neg0 [723606797749978969;640917366873127623;540000000000000000]; neg0 [723606797749978969;640917366873127623;540000000000000000]; neg0 [723606797749978969;640917366873127623;540000000000000000]]],
 [pos0 [333333333333333333;333333333333333333;330000000000000000];
  pos0 [333333333333333333;333333333333333333;330000000000000000];
  pos0 [333333333333333333;333333333333333333;330000000000000000];
  pos0 [333333333333333333;333333333333333333;330000000000000000]]).
(** WitherdenVincent2015_Tet.cpp:22-42, order 3. *)
Definition WV_Tet_3 : raw_rule := (
 [[neg0 [343673394967236626;420728270836932430;930000000000000000]; neg0 [343673394967236626;420728270836932430;930000000000000000]; neg0 [968979815098290120;737815187489202707;200000000000000000]];
  [neg0 [343673394967236626;420728270836932430;930000000000000000]; neg0 [968979815098290120;737815187489202707;200000000000000000]; neg0 [343673394967236626;420728270836932430;930000000000000000]];
  [neg0 [968979815098290120;737815187489202707;200000000000000000]; neg0 [343673394967236626;420728270836932430;930000000000000000]; neg0 [343673394967236626;420728270836932430;930000000000000000]];
  [neg0 [343673394967236626;420728270836932430;930000000000000000]; neg0 [343673394967236626;420728270836932430;930000000000000000]; neg0 [343673394967236626;420728270836932430;930000000000000000]];
  [neg0 [783905500203142791;764873221588373383;440000000000000000]; neg0 [783905500203142791;764873221588373383;440000000000000000]; pos0 [351716500609428375;294619664765120150;330000000000000000]];
  [neg0 [783905500203142791;764873221588373383;440000000000000000]; pos0 [351716500609428375;294619664765120150;330000000000000000]; neg0 [783905500203142791;764873221588373383;440000000000000000]];
  [pos0 [351716500609428375;294619664765120150;330000000000000000]; neg0 [783905500203142791;764873221588373383;440000000000000000]; neg0 [783905500203142791;764873221588373383;440000000000000000]];
  [neg0 [783905500203142791;764873221588373383;440000000000000000]; neg0 [783905500203142791;764873221588373383;440000000000000000]; neg0 [783905500203142791;764873221588373383;440000000000000000]]],
 [pos0 [181623790049449809;423428720255620694;270000000000000000];
  pos0 [181623790049449809;423428720255620694;270000000000000000];
  pos0 [181623790049449809;423428720255620694;270000000000000000];
  pos0 [181623790049449809;423428720255620694;270000000000000000];
  pos0 [151709543283883523;909904613077712639;60000000000000000];
  pos0 [151709543283883523;909904613077712639;60000000000000000];
  pos0 [151709543283883523;909904613077712639;60000000000000000];
  pos0 [151709543283883523;909904613077712639;60000000000000000]]).
(** WitherdenVincent2015_Tet.cpp:43-78, order 5. *)
Definition WV_Tet_5 : raw_rule := (
 [[neg0 [378228161473398780;405308532473084334;10000000000000000]; neg0 [378228161473398780;405308532473084334;10000000000000000]; neg0 [865315515579803658;784074402580746997;960000000000000000]];
  [neg0 [378228161473398780;405308532473084334;10000000000000000]; neg0 [865315515579803658;784074402580746997;960000000000000000]; neg0 [378228161473398780;405308532473084334;10000000000000000]];
  [neg0 [865315515579803658;784074402580746997;960000000000000000]; neg0 [378228161473398780;405308532473084334;10000000000000000]; neg0 [378228161473398780;405308532473084334;10000000000000000]];
  [neg0 [378228161473398780;405308532473084334;10000000000000000]; neg0 [378228161473398780;405308532473084334;10000000000000000]; neg0 [378228161473398780;405308532473084334;10000000000000000]];
  [neg0 [814529499378217547;195352172525938789;510000000000000000]; neg0 [814529499378217547;195352172525938789;510000000000000000]; pos0 [443588498134652641;586056517577816368;530000000000000000]];
  [neg0 [814529499378217547;195352172525938789;510000000000000000]; pos0 [443588498134652641;586056517577816368;530000000000000000]; neg0 [814529499378217547;195352172525938789;510000000000000000]];
  [pos0 [443588498134652641;586056517577816368;530000000000000000]; neg0 [814529499378217547;195352172525938789;510000000000000000]; neg0 [814529499378217547;195352172525938789;510000000000000000]];
  [neg0 [814529499378217547;195352172525938789;510000000000000000]; neg0 [814529499378217547;195352172525938789;510000000000000000]; neg0 [814529499378217547;195352172525938789;510000000000000000]];
  [neg0 [908992591748700701;16238947441321121;870000000000000000]; neg0 [91007408251299298;983761052558678878;131000000000000000]; neg0 [91007408251299298;983761052558678878;131000000000000000]];
  [neg0 [91007408251299298;983761052558678878;131000000000000000]; neg0 [908992591748700701;16238947441321121;870000000000000000]; neg0 [91007408251299298;983761052558678878;131000000000000000]];
  [neg0 [908992591748700701;16238947441321121;870000000000000000]; neg0 [908992591748700701;16238947441321121;870000000000000000]; neg0 [91007408251299298;983761052558678878;131000000000000000]];
  [neg0 [908992591748700701;16238947441321121;870000000000000000]; neg0 [91007408251299298;983761052558678878;131000000000000000]; neg0 [908992591748700701;16238947441321121;870000000000000000]];
  [neg0 [91007408251299298;983761052558678878;131000000000000000]; neg0 [908992591748700701;16238947441321121;870000000000000000]; neg0 [908992591748700701;16238947441321121;870000000000000000]];
  [neg0 [91007408251299298;983761052558678878;131000000000000000]; neg0 [91007408251299298;983761052558678878;131000000000000000]; neg0 [908992591748700701;16238947441321121;870000000000000000]]],
 [pos0 [150250567624021134;398914203111048445;80000000000000000];
  pos0 [150250567624021134;398914203111048445;80000000000000000];
  pos0 [150250567624021134;398914203111048445;80000000000000000];
  pos0 [150250567624021134;398914203111048445;80000000000000000];
  pos0 [97990724155149266;58280273981770004;697000000000000000];
  pos0 [97990724155149266;58280273981770004;697000000000000000];
  pos0 [97990724155149266;58280273981770004;697000000000000000];
  pos0 [97990724155149266;58280273981770004;697000000000000000];
  pos0 [56728027702775288;584092570827009922;370000000000000000];
  pos0 [56728027702775288;584092570827009922;370000000000000000];
  pos0 [56728027702775288;584092570827009922;370000000000000000];
  pos0 [56728027702775288;584092570827009922;370000000000000000];
  pos0 [56728027702775288;584092570827009922;370000000000000000];
  pos0 [56728027702775288;584092570827009922;370000000000000000]]).
(** WitherdenVincent2015_Tet.cpp:79-139, order 6. *)
Definition WV_Tet_6 : raw_rule := (
 [[neg0 [918652082930777293;768841102087179881;440000000000000000]; neg0 [918652082930777293;768841102087179881;440000000000000000]; pos0 [755956248792331881;306523306261539644;330000000000000000]];
  [neg0 [918652082930777293;768841102087179881;440000000000000000]; pos0 [755956248792331881;306523306261539644;330000000000000000]; neg0 [918652082930777293;768841102087179881;440000000000000000]];
  [pos0 [755956248792331881;306523306261539644;330000000000000000]; neg0 [918652082930777293;768841102087179881;440000000000000000]; neg0 [918652082930777293;768841102087179881;440000000000000000]];
  [neg0 [918652082930777293;768841102087179881;440000000000000000]; neg0 [918652082930777293;768841102087179881;440000000000000000]; neg0 [918652082930777293;768841102087179881;440000000000000000]];
  [neg0 [355324219715448979;312011058475015749;510000000000000000]; neg0 [355324219715448979;312011058475015749;510000000000000000]; neg0 [934027340853653062;63966824574952751;460000000000000000]];
  [neg0 [355324219715448979;312011058475015749;510000000000000000]; neg0 [934027340853653062;63966824574952751;460000000000000000]; neg0 [355324219715448979;312011058475015749;510000000000000000]];
  [neg0 [934027340853653062;63966824574952751;460000000000000000]; neg0 [355324219715448979;312011058475015749;510000000000000000]; neg0 [355324219715448979;312011058475015749;510000000000000000]];
  [neg0 [355324219715448979;312011058475015749;510000000000000000]; neg0 [355324219715448979;312011058475015749;510000000000000000]; neg0 [355324219715448979;312011058475015749;510000000000000000]];
  [neg0 [570794257481695941;422321561227430017;200000000000000000]; neg0 [570794257481695941;422321561227430017;200000000000000000]; neg0 [287617227554912175;733035316317709948;390000000000000000]];
  [neg0 [570794257481695941;422321561227430017;200000000000000000]; neg0 [287617227554912175;733035316317709948;390000000000000000]; neg0 [570794257481695941;422321561227430017;200000000000000000]];
  [neg0 [287617227554912175;733035316317709948;390000000000000000]; neg0 [570794257481695941;422321561227430017;200000000000000000]; neg0 [570794257481695941;422321561227430017;200000000000000000]];
  [neg0 [570794257481695941;422321561227430017;200000000000000000]; neg0 [570794257481695941;422321561227430017;200000000000000000]; neg0 [570794257481695941;422321561227430017;200000000000000000]];
  [pos0 [206011329583298282;734862278121879372;570000000000000000]; neg0 [872677996249964949;401528944788546039;240000000000000000]; neg0 [460655337083368383;931804388544787294;90000000000000000]];
  [pos0 [206011329583298282;734862278121879372;570000000000000000]; neg0 [872677996249964949;401528944788546039;240000000000000000]; neg0 [872677996249964949;401528944788546039;240000000000000000]];
  [neg0 [872677996249964949;401528944788546039;240000000000000000]; neg0 [872677996249964949;401528944788546039;240000000000000000]; pos0 [206011329583298282;734862278121879372;570000000000000000]];
  [neg0 [460655337083368383;931804388544787294;90000000000000000]; pos0 [206011329583298282;734862278121879372;570000000000000000]; neg0 [872677996249964949;401528944788546039;240000000000000000]];
  [neg0 [872677996249964949;401528944788546039;240000000000000000]; neg0 [460655337083368383;931804388544787294;90000000000000000]; pos0 [206011329583298282;734862278121879372;570000000000000000]];
  [neg0 [872677996249964949;401528944788546039;240000000000000000]; pos0 [206011329583298282;734862278121879372;570000000000000000]; neg0 [872677996249964949;401528944788546039;240000000000000000]];
  [neg0 [460655337083368383;931804388544787294;90000000000000000]; neg0 [872677996249964949;401528944788546039;240000000000000000]; pos0 [206011329583298282;734862278121879372;570000000000000000]];
  [neg0 [872677996249964949;401528944788546039;240000000000000000]; neg0 [460655337083368383;931804388544787294;90000000000000000]; neg0 [872677996249964949;401528944788546039;240000000000000000]];
  [neg0 [872677996249964949;401528944788546039;240000000000000000]; neg0 [872677996249964949;401528944788546039;240000000000000000]; neg0 [460655337083368383;931804388544787294;90000000000000000]];
  [neg0 [872677996249964949;401528944788546039;240000000000000000]; pos0 [206011329583298282;734862278121879372;570000000000000000]; neg0 [460655337083368383;931804388544787294;90000000000000000]];
  [neg0 [460655337083368383;931804388544787294;90000000000000000]; neg0 [872677996249964949;401528944788546039;240000000000000000]; neg0 [872677996249964949;401528944788546039;240000000000000000]];
  [pos0 [206011329583298282;734862278121879372;570000000000000000]; neg0 [460655337083368383;931804388544787294;90000000000000000]; neg0 [872677996249964949;401528944788546039;240000000000000000]]],
 [pos0 [13436281407094190;597350983261249151;23000000000000000];
  pos0 [13436281407094190;597350983261249151;23000000000000000];
  pos0 [13436281407094190;597350983261249151;23000000000000000];
  pos0 [13436281407094190;597350983261249151;23000000000000000];
  pos0 [73809575391539629;460204370471634688;549000000000000000];
  pos0 [73809575391539629;460204370471634688;549000000000000000];
  pos0 [73809575391539629;460204370471634688;549000000000000000];
  pos0 [73809575391539629;460204370471634688;549000000000000000];
  pos0 [53230333677556656;132920836743306636;618000000000000000];
  pos0 [53230333677556656;132920836743306636;618000000000000000];
  pos0 [53230333677556656;132920836743306636;618000000000000000];
  pos0 [53230333677556656;132920836743306636;618000000000000000];
  pos0 [64285714285714285;714285714285714285;714000000000000000];
  pos0 [64285714285714285;714285714285714285;714000000000000000];
  pos0 [64285714285714285;714285714285714285;714000000000000000];
  pos0 [64285714285714285;714285714285714285;714000000000000000];
  pos0 [64285714285714285;714285714285714285;714000000000000000];
  pos0 [64285714285714285;714285714285714285;714000000000000000];
  pos0 [64285714285714285;714285714285714285;714000000000000000];
  pos0 [64285714285714285;714285714285714285;714000000000000000];
  pos0 [64285714285714285;714285714285714285;714000000000000000];
  pos0 [64285714285714285;714285714285714285;714000000000000000];
  pos0 [64285714285714285;714285714285714285;714000000000000000];
  pos0 [64285714285714285;714285714285714285;714000000000000000]]).
(** WitherdenVincent2015_Tet.cpp:140-227, order 7. *)
Definition WV_Tet_7 : raw_rule := (
 [[neg0 [500000000000000000]; neg0 [500000000000000000]; neg0 [500000000000000000]];
  [neg0 [368597700443594401;153140000813377023;150000000000000000]; neg0 [368597700443594401;153140000813377023;150000000000000000]; neg0 [894206898669216796;540579997559868930;560000000000000000]];
  [neg0 [368597700443594401;153140000813377023;150000000000000000]; neg0 [894206898669216796;540579997559868930;560000000000000000]; neg0 [368597700443594401;153140000813377023;150000000000000000]];
  [neg0 [894206898669216796;540579997559868930;560000000000000000]; neg0 [368597700443594401;153140000813377023;150000000000000000]; neg0 [368597700443594401;153140000813377023;150000000000000000]];
  [neg0 [368597700443594401;153140000813377023;150000000000000000]; neg0 [368597700443594401;153140000813377023;150000000000000000]; neg0 [368597700443594401;153140000813377023;150000000000000000]];
  [neg0 [899020354803207262;473892354026875068;50000000000000000]; neg0 [100979645196792737;526107645973124931;950000000000000000]; neg0 [100979645196792737;526107645973124931;950000000000000000]];
  [neg0 [100979645196792737;526107645973124931;950000000000000000]; neg0 [899020354803207262;473892354026875068;50000000000000000]; neg0 [100979645196792737;526107645973124931;950000000000000000]];
  [neg0 [899020354803207262;473892354026875068;50000000000000000]; neg0 [899020354803207262;473892354026875068;50000000000000000]; neg0 [100979645196792737;526107645973124931;950000000000000000]];
  [neg0 [899020354803207262;473892354026875068;50000000000000000]; neg0 [100979645196792737;526107645973124931;950000000000000000]; neg0 [899020354803207262;473892354026875068;50000000000000000]];
  [neg0 [100979645196792737;526107645973124931;950000000000000000]; neg0 [899020354803207262;473892354026875068;50000000000000000]; neg0 [899020354803207262;473892354026875068;50000000000000000]];
  [neg0 [100979645196792737;526107645973124931;950000000000000000]; neg0 [100979645196792737;526107645973124931;950000000000000000]; neg0 [899020354803207262;473892354026875068;50000000000000000]];
  [pos0 [150343275174000046;966483154044615039;330000000000000000]; neg0 [622332337947997904;527137792290828489;990000000000000000]; neg0 [905678599278004237;912207569462958059;350000000000000000]];
  [pos0 [150343275174000046;966483154044615039;330000000000000000]; neg0 [622332337947997904;527137792290828489;990000000000000000]; neg0 [622332337947997904;527137792290828489;990000000000000000]];
  [neg0 [622332337947997904;527137792290828489;990000000000000000]; neg0 [622332337947997904;527137792290828489;990000000000000000]; pos0 [150343275174000046;966483154044615039;330000000000000000]];
  [neg0 [905678599278004237;912207569462958059;350000000000000000]; pos0 [150343275174000046;966483154044615039;330000000000000000]; neg0 [622332337947997904;527137792290828489;990000000000000000]];
  [neg0 [622332337947997904;527137792290828489;990000000000000000]; neg0 [905678599278004237;912207569462958059;350000000000000000]; pos0 [150343275174000046;966483154044615039;330000000000000000]];
  [neg0 [622332337947997904;527137792290828489;990000000000000000]; pos0 [150343275174000046;966483154044615039;330000000000000000]; neg0 [622332337947997904;527137792290828489;990000000000000000]];
  [neg0 [905678599278004237;912207569462958059;350000000000000000]; neg0 [622332337947997904;527137792290828489;990000000000000000]; pos0 [150343275174000046;966483154044615039;330000000000000000]];
  [neg0 [622332337947997904;527137792290828489;990000000000000000]; neg0 [905678599278004237;912207569462958059;350000000000000000]; neg0 [622332337947997904;527137792290828489;990000000000000000]];
  [neg0 [622332337947997904;527137792290828489;990000000000000000]; neg0 [622332337947997904;527137792290828489;990000000000000000]; neg0 [905678599278004237;912207569462958059;350000000000000000]];
  [neg0 [622332337947997904;527137792290828489;990000000000000000]; pos0 [150343275174000046;966483154044615039;330000000000000000]; neg0 [905678599278004237;912207569462958059;350000000000000000]];
  [neg0 [905678599278004237;912207569462958059;350000000000000000]; neg0 [622332337947997904;527137792290828489;990000000000000000]; neg0 [622332337947997904;527137792290828489;990000000000000000]];
  [pos0 [150343275174000046;966483154044615039;330000000000000000]; neg0 [905678599278004237;912207569462958059;350000000000000000]; neg0 [622332337947997904;527137792290828489;990000000000000000]];
  [pos0 [621660482197097122;236210759696464787;590000000000000000]; neg0 [957469054917033508;22327797000360117;850000000000000000]; neg0 [706722372363030106;191555165695744551;890000000000000000]];
  [pos0 [621660482197097122;236210759696464787;590000000000000000]; neg0 [957469054917033508;22327797000360117;850000000000000000]; neg0 [957469054917033508;22327797000360117;850000000000000000]];
  [neg0 [957469054917033508;22327797000360117;850000000000000000]; neg0 [957469054917033508;22327797000360117;850000000000000000]; pos0 [621660482197097122;236210759696464787;590000000000000000]];
  [neg0 [706722372363030106;191555165695744551;890000000000000000]; pos0 [621660482197097122;236210759696464787;590000000000000000]; neg0 [957469054917033508;22327797000360117;850000000000000000]];
  [neg0 [957469054917033508;22327797000360117;850000000000000000]; neg0 [706722372363030106;191555165695744551;890000000000000000]; pos0 [621660482197097122;236210759696464787;590000000000000000]];
  [neg0 [957469054917033508;22327797000360117;850000000000000000]; pos0 [621660482197097122;236210759696464787;590000000000000000]; neg0 [957469054917033508;22327797000360117;850000000000000000]];
  [neg0 [706722372363030106;191555165695744551;890000000000000000]; neg0 [957469054917033508;22327797000360117;850000000000000000]; pos0 [621660482197097122;236210759696464787;590000000000000000]];
  [neg0 [957469054917033508;22327797000360117;850000000000000000]; neg0 [706722372363030106;191555165695744551;890000000000000000]; neg0 [957469054917033508;22327797000360117;850000000000000000]];
  [neg0 [957469054917033508;22327797000360117;850000000000000000]; neg0 [957469054917033508;22327797000360117;850000000000000000]; neg0 [706722372363030106;191555165695744551;890000000000000000]];
  [neg0 [957469054917033508;22327797000360117;850000000000000000]; pos0 [621660482197097122;236210759696464787;590000000000000000]; neg0 [706722372363030106;191555165695744551;890000000000000000]];
  [neg0 [706722372363030106;191555165695744551;890000000000000000]; neg0 [957469054917033508;22327797000360117;850000000000000000]; neg0 [957469054917033508;22327797000360117;850000000000000000]];
  [pos0 [621660482197097122;236210759696464787;590000000000000000]; neg0 [706722372363030106;191555165695744551;890000000000000000]; neg0 [957469054917033508;22327797000360117;850000000000000000]]],
 [pos0 [127313719285507798;480771248156301842;450000000000000000];
  pos0 [56439441613289372;101714894398062316;650000000000000000];
  pos0 [56439441613289372;101714894398062316;650000000000000000];
  pos0 [56439441613289372;101714894398062316;650000000000000000];
  pos0 [56439441613289372;101714894398062316;650000000000000000];
  pos0 [42529237110476773;245699765443923276;130000000000000000];
  pos0 [42529237110476773;245699765443923276;130000000000000000];
  pos0 [42529237110476773;245699765443923276;130000000000000000];
  pos0 [42529237110476773;245699765443923276;130000000000000000];
  pos0 [42529237110476773;245699765443923276;130000000000000000];
  pos0 [42529237110476773;245699765443923276;130000000000000000];
  pos0 [49609507637779495;159487414921974827;82000000000000000];
  pos0 [49609507637779495;159487414921974827;82000000000000000];
  pos0 [49609507637779495;159487414921974827;82000000000000000];
  pos0 [49609507637779495;159487414921974827;82000000000000000];
  pos0 [49609507637779495;159487414921974827;82000000000000000];
  pos0 [49609507637779495;159487414921974827;82000000000000000];
  pos0 [49609507637779495;159487414921974827;82000000000000000];
  pos0 [49609507637779495;159487414921974827;82000000000000000];
  pos0 [49609507637779495;159487414921974827;82000000000000000];
  pos0 [49609507637779495;159487414921974827;82000000000000000];
  pos0 [49609507637779495;159487414921974827;82000000000000000];
  pos0 [49609507637779495;159487414921974827;82000000000000000];
  pos0 [10814361106537788;754804577988128720;209000000000000000];
  pos0 [10814361106537788;754804577988128720;209000000000000000];
  pos0 [10814361106537788;754804577988128720;209000000000000000];
  pos0 [10814361106537788;754804577988128720;209000000000000000];
  pos0 [10814361106537788;754804577988128720;209000000000000000];
  pos0 [10814361106537788;754804577988128720;209000000000000000];
  pos0 [10814361106537788;754804577988128720;209000000000000000];
  pos0 [10814361106537788;754804577988128720;209000000000000000];
  pos0 [10814361106537788;754804577988128720;209000000000000000];
  pos0 [10814361106537788;754804577988128720;209000000000000000];
  pos0 [10814361106537788;754804577988128720;209000000000000000];
  pos0 [10814361106537788;754804577988128720;209000000000000000]]).
(** WitherdenVincent2015_Tet.cpp:228-343, order 8. *)
Definition WV_Tet_8 : raw_rule := (
 [[neg0 [784094550075578303;35613438545852768;510000000000000000]; neg0 [784094550075578303;35613438545852768;510000000000000000]; pos0 [352283650226734909;106840315637558305;530000000000000000]];
  [neg0 [784094550075578303;35613438545852768;510000000000000000]; pos0 [352283650226734909;106840315637558305;530000000000000000]; neg0 [784094550075578303;35613438545852768;510000000000000000]];
  [pos0 [352283650226734909;106840315637558305;530000000000000000]; neg0 [784094550075578303;35613438545852768;510000000000000000]; neg0 [784094550075578303;35613438545852768;510000000000000000]];
  [neg0 [784094550075578303;35613438545852768;510000000000000000]; neg0 [784094550075578303;35613438545852768;510000000000000000]; neg0 [784094550075578303;35613438545852768;510000000000000000]];
  [neg0 [629781024434826859;446183999496503797]; neg0 [629781024434826859;446183999496503797]; neg0 [110656926695519421;661448001510488609]];
  [neg0 [629781024434826859;446183999496503797]; neg0 [110656926695519421;661448001510488609]; neg0 [629781024434826859;446183999496503797]];
  [neg0 [110656926695519421;661448001510488609]; neg0 [629781024434826859;446183999496503797]; neg0 [629781024434826859;446183999496503797]];
  [neg0 [629781024434826859;446183999496503797]; neg0 [629781024434826859;446183999496503797]; neg0 [629781024434826859;446183999496503797]];
  [neg0 [915366912630465436;751835914318550571;890000000000000000]; neg0 [915366912630465436;751835914318550571;890000000000000000]; pos0 [746100737891396310;255507742955651715;680000000000000000]];
  [neg0 [915366912630465436;751835914318550571;890000000000000000]; pos0 [746100737891396310;255507742955651715;680000000000000000]; neg0 [915366912630465436;751835914318550571;890000000000000000]];
  [pos0 [746100737891396310;255507742955651715;680000000000000000]; neg0 [915366912630465436;751835914318550571;890000000000000000]; neg0 [915366912630465436;751835914318550571;890000000000000000]];
  [neg0 [915366912630465436;751835914318550571;890000000000000000]; neg0 [915366912630465436;751835914318550571;890000000000000000]; neg0 [915366912630465436;751835914318550571;890000000000000000]];
  [neg0 [371636581751922009;273342453123736627;20000000000000000]; neg0 [371636581751922009;273342453123736627;20000000000000000]; neg0 [885090254744233972;179972640628790118;950000000000000000]];
  [neg0 [371636581751922009;273342453123736627;20000000000000000]; neg0 [885090254744233972;179972640628790118;950000000000000000]; neg0 [371636581751922009;273342453123736627;20000000000000000]];
  [neg0 [885090254744233972;179972640628790118;950000000000000000]; neg0 [371636581751922009;273342453123736627;20000000000000000]; neg0 [371636581751922009;273342453123736627;20000000000000000]];
  [neg0 [371636581751922009;273342453123736627;20000000000000000]; neg0 [371636581751922009;273342453123736627;20000000000000000]; neg0 [371636581751922009;273342453123736627;20000000000000000]];
  [neg0 [128817342832339589;543733676406805935;260000000000000000]; neg0 [871182657167660410;456266323593194064;740000000000000000]; neg0 [871182657167660410;456266323593194064;740000000000000000]];
  [neg0 [871182657167660410;456266323593194064;740000000000000000]; neg0 [128817342832339589;543733676406805935;260000000000000000]; neg0 [871182657167660410;456266323593194064;740000000000000000]];
  [neg0 [128817342832339589;543733676406805935;260000000000000000]; neg0 [128817342832339589;543733676406805935;260000000000000000]; neg0 [871182657167660410;456266323593194064;740000000000000000]];
  [neg0 [128817342832339589;543733676406805935;260000000000000000]; neg0 [871182657167660410;456266323593194064;740000000000000000]; neg0 [128817342832339589;543733676406805935;260000000000000000]];
  [neg0 [871182657167660410;456266323593194064;740000000000000000]; neg0 [128817342832339589;543733676406805935;260000000000000000]; neg0 [128817342832339589;543733676406805935;260000000000000000]];
  [neg0 [871182657167660410;456266323593194064;740000000000000000]; neg0 [871182657167660410;456266323593194064;740000000000000000]; neg0 [128817342832339589;543733676406805935;260000000000000000]];
  [pos0 [434928126852616646;580057114251162900;880000000000000000]; neg0 [957132139745738850;311001821153531189;630000000000000000]; neg0 [520663847361138945;958053471944100521;610000000000000000]];
  [pos0 [434928126852616646;580057114251162900;880000000000000000]; neg0 [957132139745738850;311001821153531189;630000000000000000]; neg0 [957132139745738850;311001821153531189;630000000000000000]];
  [neg0 [957132139745738850;311001821153531189;630000000000000000]; neg0 [957132139745738850;311001821153531189;630000000000000000]; pos0 [434928126852616646;580057114251162900;880000000000000000]];
  [neg0 [520663847361138945;958053471944100521;610000000000000000]; pos0 [434928126852616646;580057114251162900;880000000000000000]; neg0 [957132139745738850;311001821153531189;630000000000000000]];
  [neg0 [957132139745738850;311001821153531189;630000000000000000]; neg0 [520663847361138945;958053471944100521;610000000000000000]; pos0 [434928126852616646;580057114251162900;880000000000000000]];
  [neg0 [957132139745738850;311001821153531189;630000000000000000]; pos0 [434928126852616646;580057114251162900;880000000000000000]; neg0 [957132139745738850;311001821153531189;630000000000000000]];
  [neg0 [520663847361138945;958053471944100521;610000000000000000]; neg0 [957132139745738850;311001821153531189;630000000000000000]; pos0 [434928126852616646;580057114251162900;880000000000000000]];
  [neg0 [957132139745738850;311001821153531189;630000000000000000]; neg0 [520663847361138945;958053471944100521;610000000000000000]; neg0 [957132139745738850;311001821153531189;630000000000000000]];
  [neg0 [957132139745738850;311001821153531189;630000000000000000]; neg0 [957132139745738850;311001821153531189;630000000000000000]; neg0 [520663847361138945;958053471944100521;610000000000000000]];
  [neg0 [957132139745738850;311001821153531189;630000000000000000]; pos0 [434928126852616646;580057114251162900;880000000000000000]; neg0 [520663847361138945;958053471944100521;610000000000000000]];
  [neg0 [520663847361138945;958053471944100521;610000000000000000]; neg0 [957132139745738850;311001821153531189;630000000000000000]; neg0 [957132139745738850;311001821153531189;630000000000000000]];
  [pos0 [434928126852616646;580057114251162900;880000000000000000]; neg0 [520663847361138945;958053471944100521;610000000000000000]; neg0 [957132139745738850;311001821153531189;630000000000000000]];
  [pos0 [167594756604288811;853339508414660052;830000000000000000]; neg0 [591721332247941759;139419402439630882;420000000000000000]; neg0 [984152092108405293;574500703535398287;990000000000000000]];
  [pos0 [167594756604288811;853339508414660052;830000000000000000]; neg0 [591721332247941759;139419402439630882;420000000000000000]; neg0 [591721332247941759;139419402439630882;420000000000000000]];
  [neg0 [591721332247941759;139419402439630882;420000000000000000]; neg0 [591721332247941759;139419402439630882;420000000000000000]; pos0 [167594756604288811;853339508414660052;830000000000000000]];
  [neg0 [984152092108405293;574500703535398287;990000000000000000]; pos0 [167594756604288811;853339508414660052;830000000000000000]; neg0 [591721332247941759;139419402439630882;420000000000000000]];
  [neg0 [591721332247941759;139419402439630882;420000000000000000]; neg0 [984152092108405293;574500703535398287;990000000000000000]; pos0 [167594756604288811;853339508414660052;830000000000000000]];
  [neg0 [591721332247941759;139419402439630882;420000000000000000]; pos0 [167594756604288811;853339508414660052;830000000000000000]; neg0 [591721332247941759;139419402439630882;420000000000000000]];
  [neg0 [984152092108405293;574500703535398287;990000000000000000]; neg0 [591721332247941759;139419402439630882;420000000000000000]; pos0 [167594756604288811;853339508414660052;830000000000000000]];
  [neg0 [591721332247941759;139419402439630882;420000000000000000]; neg0 [984152092108405293;574500703535398287;990000000000000000]; neg0 [591721332247941759;139419402439630882;420000000000000000]];
  [neg0 [591721332247941759;139419402439630882;420000000000000000]; neg0 [591721332247941759;139419402439630882;420000000000000000]; neg0 [984152092108405293;574500703535398287;990000000000000000]];
  [neg0 [591721332247941759;139419402439630882;420000000000000000]; pos0 [167594756604288811;853339508414660052;830000000000000000]; neg0 [984152092108405293;574500703535398287;990000000000000000]];
  [neg0 [984152092108405293;574500703535398287;990000000000000000]; neg0 [591721332247941759;139419402439630882;420000000000000000]; neg0 [591721332247941759;139419402439630882;420000000000000000]];
  [pos0 [167594756604288811;853339508414660052;830000000000000000]; neg0 [984152092108405293;574500703535398287;990000000000000000]; neg0 [591721332247941759;139419402439630882;420000000000000000]]],
 [pos0 [35235534544545108;539097313565645827;902000000000000000];
  pos0 [35235534544545108;539097313565645827;902000000000000000];
  pos0 [35235534544545108;539097313565645827;902000000000000000];
  pos0 [35235534544545108;539097313565645827;902000000000000000];
  pos0 [69375663418318043;619861410028472677;606000000000000000];
  pos0 [69375663418318043;619861410028472677;606000000000000000];
  pos0 [69375663418318043;619861410028472677;606000000000000000];
  pos0 [69375663418318043;619861410028472677;606000000000000000];
  pos0 [10033674871386933;40967405110292766;211000000000000000];
  pos0 [10033674871386933;40967405110292766;211000000000000000];
  pos0 [10033674871386933;40967405110292766;211000000000000000];
  pos0 [10033674871386933;40967405110292766;211000000000000000];
  pos0 [55685043809246530;275971813171748834;223000000000000000];
  pos0 [55685043809246530;275971813171748834;223000000000000000];
  pos0 [55685043809246530;275971813171748834;223000000000000000];
  pos0 [55685043809246530;275971813171748834;223000000000000000];
  pos0 [48374573681745097;334959362864457783;412000000000000000];
  pos0 [48374573681745097;334959362864457783;412000000000000000];
  pos0 [48374573681745097;334959362864457783;412000000000000000];
  pos0 [48374573681745097;334959362864457783;412000000000000000];
  pos0 [48374573681745097;334959362864457783;412000000000000000];
  pos0 [48374573681745097;334959362864457783;412000000000000000];
  pos0 [9542537187792577;533625015019151073;519600000000000000];
  pos0 [9542537187792577;533625015019151073;519600000000000000];
  pos0 [9542537187792577;533625015019151073;519600000000000000];
  pos0 [9542537187792577;533625015019151073;519600000000000000];
  pos0 [9542537187792577;533625015019151073;519600000000000000];
  pos0 [9542537187792577;533625015019151073;519600000000000000];
  pos0 [9542537187792577;533625015019151073;519600000000000000];
  pos0 [9542537187792577;533625015019151073;519600000000000000];
  pos0 [9542537187792577;533625015019151073;519600000000000000];
  pos0 [9542537187792577;533625015019151073;519600000000000000];
  pos0 [9542537187792577;533625015019151073;519600000000000000];
  pos0 [9542537187792577;533625015019151073;519600000000000000];
  pos0 [20604648201280446;418040434034344443;905000000000000000];
  pos0 [20604648201280446;418040434034344443;905000000000000000];
  pos0 [20604648201280446;418040434034344443;905000000000000000];
  pos0 [20604648201280446;418040434034344443;905000000000000000];
  pos0 [20604648201280446;418040434034344443;905000000000000000];
  pos0 [20604648201280446;418040434034344443;905000000000000000];
  pos0 [20604648201280446;418040434034344443;905000000000000000];
  pos0 [20604648201280446;418040434034344443;905000000000000000];
  pos0 [20604648201280446;418040434034344443;905000000000000000];
  pos0 [20604648201280446;418040434034344443;905000000000000000];
  pos0 [20604648201280446;418040434034344443;905000000000000000];
  pos0 [20604648201280446;418040434034344443;905000000000000000]]).
(** WitherdenVincent2015_Tet.cpp:344-491, order 9. *)
Definition WV_Tet_9 : raw_rule := (
 [[neg0 [500000000000000000]; neg0 [500000000000000000]; neg0 [500000000000000000]];
  [neg0 [999999998760366011;90698315291619854;230000000000000000]; neg0 [999999998760366011;90698315291619854;230000000000000000]; pos0 [999999996281098033;272094945874859562;700000000000000000]];
  [neg0 [999999998760366011;90698315291619854;230000000000000000]; pos0 [999999996281098033;272094945874859562;700000000000000000]; neg0 [999999998760366011;90698315291619854;230000000000000000]];
  [pos0 [999999996281098033;272094945874859562;700000000000000000]; neg0 [999999998760366011;90698315291619854;230000000000000000]; neg0 [999999998760366011;90698315291619854;230000000000000000]];
  [neg0 [999999998760366011;90698315291619854;230000000000000000]; neg0 [999999998760366011;90698315291619854;230000000000000000]; neg0 [999999998760366011;90698315291619854;230000000000000000]];
  [neg0 [678450929209476811;696017122229216038;530000000000000000]; neg0 [678450929209476811;696017122229216038;530000000000000000]; pos0 [35352787628430435;88051366687648115;583000000000000000]];
  [neg0 [678450929209476811;696017122229216038;530000000000000000]; pos0 [35352787628430435;88051366687648115;583000000000000000]; neg0 [678450929209476811;696017122229216038;530000000000000000]];
  [pos0 [35352787628430435;88051366687648115;583000000000000000]; neg0 [678450929209476811;696017122229216038;530000000000000000]; neg0 [678450929209476811;696017122229216038;530000000000000000]];
  [neg0 [678450929209476811;696017122229216038;530000000000000000]; neg0 [678450929209476811;696017122229216038;530000000000000000]; neg0 [678450929209476811;696017122229216038;530000000000000000]];
  [neg0 [355446956357158051;591863803192221340;270000000000000000]; neg0 [355446956357158051;591863803192221340;270000000000000000]; neg0 [933659130928525845;224408590423335979;190000000000000000]];
  [neg0 [355446956357158051;591863803192221340;270000000000000000]; neg0 [933659130928525845;224408590423335979;190000000000000000]; neg0 [355446956357158051;591863803192221340;270000000000000000]];
  [neg0 [933659130928525845;224408590423335979;190000000000000000]; neg0 [355446956357158051;591863803192221340;270000000000000000]; neg0 [355446956357158051;591863803192221340;270000000000000000]];
  [neg0 [355446956357158051;591863803192221340;270000000000000000]; neg0 [355446956357158051;591863803192221340;270000000000000000]; neg0 [355446956357158051;591863803192221340;270000000000000000]];
  [neg0 [909782163309172834;78073855012006143;310000000000000000]; neg0 [909782163309172834;78073855012006143;310000000000000000]; pos0 [729346489927518502;234221565036018429;940000000000000000]];
  [neg0 [909782163309172834;78073855012006143;310000000000000000]; pos0 [729346489927518502;234221565036018429;940000000000000000]; neg0 [909782163309172834;78073855012006143;310000000000000000]];
  [pos0 [729346489927518502;234221565036018429;940000000000000000]; neg0 [909782163309172834;78073855012006143;310000000000000000]; neg0 [909782163309172834;78073855012006143;310000000000000000]];
  [neg0 [909782163309172834;78073855012006143;310000000000000000]; neg0 [909782163309172834;78073855012006143;310000000000000000]; neg0 [909782163309172834;78073855012006143;310000000000000000]];
  [neg0 [775406907991247909;344020700939688757;290000000000000000]; neg0 [224593092008752090;655979299060311242;710000000000000000]; neg0 [224593092008752090;655979299060311242;710000000000000000]];
  [neg0 [224593092008752090;655979299060311242;710000000000000000]; neg0 [775406907991247909;344020700939688757;290000000000000000]; neg0 [224593092008752090;655979299060311242;710000000000000000]];
  [neg0 [775406907991247909;344020700939688757;290000000000000000]; neg0 [775406907991247909;344020700939688757;290000000000000000]; neg0 [224593092008752090;655979299060311242;710000000000000000]];
  [neg0 [775406907991247909;344020700939688757;290000000000000000]; neg0 [224593092008752090;655979299060311242;710000000000000000]; neg0 [775406907991247909;344020700939688757;290000000000000000]];
  [neg0 [224593092008752090;655979299060311242;710000000000000000]; neg0 [775406907991247909;344020700939688757;290000000000000000]; neg0 [775406907991247909;344020700939688757;290000000000000000]];
  [neg0 [224593092008752090;655979299060311242;710000000000000000]; neg0 [224593092008752090;655979299060311242;710000000000000000]; neg0 [775406907991247909;344020700939688757;290000000000000000]];
  [neg0 [994890841533917338;64711949103255315]; neg0 [82257102495081453;456435781598997046;246000000000000000]; neg0 [840594953475919755;22416487698750592;510000000000000000]];
  [neg0 [994890841533917338;64711949103255315]; neg0 [82257102495081453;456435781598997046;246000000000000000]; neg0 [82257102495081453;456435781598997046;246000000000000000]];
  [neg0 [82257102495081453;456435781598997046;246000000000000000]; neg0 [82257102495081453;456435781598997046;246000000000000000]; neg0 [994890841533917338;64711949103255315]];
  [neg0 [840594953475919755;22416487698750592;510000000000000000]; neg0 [994890841533917338;64711949103255315]; neg0 [82257102495081453;456435781598997046;246000000000000000]];
  [neg0 [82257102495081453;456435781598997046;246000000000000000]; neg0 [840594953475919755;22416487698750592;510000000000000000]; neg0 [994890841533917338;64711949103255315]];
  [neg0 [82257102495081453;456435781598997046;246000000000000000]; neg0 [994890841533917338;64711949103255315]; neg0 [82257102495081453;456435781598997046;246000000000000000]];
  [neg0 [840594953475919755;22416487698750592;510000000000000000]; neg0 [82257102495081453;456435781598997046;246000000000000000]; neg0 [994890841533917338;64711949103255315]];
  [neg0 [82257102495081453;456435781598997046;246000000000000000]; neg0 [840594953475919755;22416487698750592;510000000000000000]; neg0 [82257102495081453;456435781598997046;246000000000000000]];
  [neg0 [82257102495081453;456435781598997046;246000000000000000]; neg0 [82257102495081453;456435781598997046;246000000000000000]; neg0 [840594953475919755;22416487698750592;510000000000000000]];
  [neg0 [82257102495081453;456435781598997046;246000000000000000]; neg0 [994890841533917338;64711949103255315]; neg0 [840594953475919755;22416487698750592;510000000000000000]];
  [neg0 [840594953475919755;22416487698750592;510000000000000000]; neg0 [82257102495081453;456435781598997046;246000000000000000]; neg0 [82257102495081453;456435781598997046;246000000000000000]];
  [neg0 [994890841533917338;64711949103255315]; neg0 [840594953475919755;22416487698750592;510000000000000000]; neg0 [82257102495081453;456435781598997046;246000000000000000]];
  [pos0 [436700652884149018;113544489129287500;120000000000000000]; neg0 [932448258629322844;189027372021594137;190000000000000000]; neg0 [571804135625503329;735489745086099225;740000000000000000]];
  [pos0 [436700652884149018;113544489129287500;120000000000000000]; neg0 [932448258629322844;189027372021594137;190000000000000000]; neg0 [932448258629322844;189027372021594137;190000000000000000]];
  [neg0 [932448258629322844;189027372021594137;190000000000000000]; neg0 [932448258629322844;189027372021594137;190000000000000000]; pos0 [436700652884149018;113544489129287500;120000000000000000]];
  [neg0 [571804135625503329;735489745086099225;740000000000000000]; pos0 [436700652884149018;113544489129287500;120000000000000000]; neg0 [932448258629322844;189027372021594137;190000000000000000]];
  [neg0 [932448258629322844;189027372021594137;190000000000000000]; neg0 [571804135625503329;735489745086099225;740000000000000000]; pos0 [436700652884149018;113544489129287500;120000000000000000]];
  [neg0 [932448258629322844;189027372021594137;190000000000000000]; pos0 [436700652884149018;113544489129287500;120000000000000000]; neg0 [932448258629322844;189027372021594137;190000000000000000]];
  [neg0 [571804135625503329;735489745086099225;740000000000000000]; neg0 [932448258629322844;189027372021594137;190000000000000000]; pos0 [436700652884149018;113544489129287500;120000000000000000]];
  [neg0 [932448258629322844;189027372021594137;190000000000000000]; neg0 [571804135625503329;735489745086099225;740000000000000000]; neg0 [932448258629322844;189027372021594137;190000000000000000]];
  [neg0 [932448258629322844;189027372021594137;190000000000000000]; neg0 [932448258629322844;189027372021594137;190000000000000000]; neg0 [571804135625503329;735489745086099225;740000000000000000]];
  [neg0 [932448258629322844;189027372021594137;190000000000000000]; pos0 [436700652884149018;113544489129287500;120000000000000000]; neg0 [571804135625503329;735489745086099225;740000000000000000]];
  [neg0 [571804135625503329;735489745086099225;740000000000000000]; neg0 [932448258629322844;189027372021594137;190000000000000000]; neg0 [932448258629322844;189027372021594137;190000000000000000]];
  [pos0 [436700652884149018;113544489129287500;120000000000000000]; neg0 [571804135625503329;735489745086099225;740000000000000000]; neg0 [932448258629322844;189027372021594137;190000000000000000]];
  [neg0 [931168178843649459;821589575777136286;690000000000000000]; neg0 [632717260380144220;422062580287261546;830000000000000000]; pos0 [196602699603937900;665714736351659380;350000000000000000]];
  [neg0 [931168178843649459;821589575777136286;690000000000000000]; neg0 [632717260380144220;422062580287261546;830000000000000000]; neg0 [632717260380144220;422062580287261546;830000000000000000]];
  [neg0 [632717260380144220;422062580287261546;830000000000000000]; neg0 [632717260380144220;422062580287261546;830000000000000000]; neg0 [931168178843649459;821589575777136286;690000000000000000]];
  [pos0 [196602699603937900;665714736351659380;350000000000000000]; neg0 [931168178843649459;821589575777136286;690000000000000000]; neg0 [632717260380144220;422062580287261546;830000000000000000]];
  [neg0 [632717260380144220;422062580287261546;830000000000000000]; pos0 [196602699603937900;665714736351659380;350000000000000000]; neg0 [931168178843649459;821589575777136286;690000000000000000]];
  [neg0 [632717260380144220;422062580287261546;830000000000000000]; neg0 [931168178843649459;821589575777136286;690000000000000000]; neg0 [632717260380144220;422062580287261546;830000000000000000]];
  [pos0 [196602699603937900;665714736351659380;350000000000000000]; neg0 [632717260380144220;422062580287261546;830000000000000000]; neg0 [931168178843649459;821589575777136286;690000000000000000]];
  [neg0 [632717260380144220;422062580287261546;830000000000000000]; pos0 [196602699603937900;665714736351659380;350000000000000000]; neg0 [632717260380144220;422062580287261546;830000000000000000]];
  [neg0 [632717260380144220;422062580287261546;830000000000000000]; neg0 [632717260380144220;422062580287261546;830000000000000000]; pos0 [196602699603937900;665714736351659380;350000000000000000]];
  [neg0 [632717260380144220;422062580287261546;830000000000000000]; neg0 [931168178843649459;821589575777136286;690000000000000000]; pos0 [196602699603937900;665714736351659380;350000000000000000]];
  [pos0 [196602699603937900;665714736351659380;350000000000000000]; neg0 [632717260380144220;422062580287261546;830000000000000000]; neg0 [632717260380144220;422062580287261546;830000000000000000]];
  [neg0 [931168178843649459;821589575777136286;690000000000000000]; pos0 [196602699603937900;665714736351659380;350000000000000000]; neg0 [632717260380144220;422062580287261546;830000000000000000]]],
 [pos0 [77347398549973676;447419062575537299;180000000000000000];
  pos0 [85759042345675;186085903030258742;437834000000000000];
  pos0 [85759042345675;186085903030258742;437834000000000000];
  pos0 [85759042345675;186085903030258742;437834000000000000];
  pos0 [85759042345675;186085903030258742;437834000000000000];
  pos0 [30897784616567277;310532826869162311;937000000000000000];
  pos0 [30897784616567277;310532826869162311;937000000000000000];
  pos0 [30897784616567277;310532826869162311;937000000000000000];
  pos0 [30897784616567277;310532826869162311;937000000000000000];
  pos0 [39417216447239047;523644877985518239;107000000000000000];
  pos0 [39417216447239047;523644877985518239;107000000000000000];
  pos0 [39417216447239047;523644877985518239;107000000000000000];
  pos0 [39417216447239047;523644877985518239;107000000000000000];
  pos0 [10751973306154910;354337519688619045;729000000000000000];
  pos0 [10751973306154910;354337519688619045;729000000000000000];
  pos0 [10751973306154910;354337519688619045;729000000000000000];
  pos0 [10751973306154910;354337519688619045;729000000000000000];
  pos0 [50845440138269954;68897481311360914;750000000000000000];
  pos0 [50845440138269954;68897481311360914;750000000000000000];
  pos0 [50845440138269954;68897481311360914;750000000000000000];
  pos0 [50845440138269954;68897481311360914;750000000000000000];
  pos0 [50845440138269954;68897481311360914;750000000000000000];
  pos0 [50845440138269954;68897481311360914;750000000000000000];
  pos0 [11179229597731402;927583520512290878;612000000000000000];
  pos0 [11179229597731402;927583520512290878;612000000000000000];
  pos0 [11179229597731402;927583520512290878;612000000000000000];
  pos0 [11179229597731402;927583520512290878;612000000000000000];
  pos0 [11179229597731402;927583520512290878;612000000000000000];
  pos0 [11179229597731402;927583520512290878;612000000000000000];
  pos0 [11179229597731402;927583520512290878;612000000000000000];
  pos0 [11179229597731402;927583520512290878;612000000000000000];
  pos0 [11179229597731402;927583520512290878;612000000000000000];
  pos0 [11179229597731402;927583520512290878;612000000000000000];
  pos0 [11179229597731402;927583520512290878;612000000000000000];
  pos0 [11179229597731402;927583520512290878;612000000000000000];
  pos0 [13646079136993770;600501763121325612;648000000000000000];
  pos0 [13646079136993770;600501763121325612;648000000000000000];
  pos0 [13646079136993770;600501763121325612;648000000000000000];
  pos0 [13646079136993770;600501763121325612;648000000000000000];
  pos0 [13646079136993770;600501763121325612;648000000000000000];
  pos0 [13646079136993770;600501763121325612;648000000000000000];
  pos0 [13646079136993770;600501763121325612;648000000000000000];
  pos0 [13646079136993770;600501763121325612;648000000000000000];
  pos0 [13646079136993770;600501763121325612;648000000000000000];
  pos0 [13646079136993770;600501763121325612;648000000000000000];
  pos0 [13646079136993770;600501763121325612;648000000000000000];
  pos0 [13646079136993770;600501763121325612;648000000000000000];
  pos0 [27366554623984184;53091789082666607;808000000000000000];
  pos0 [27366554623984184;53091789082666607;808000000000000000];
  pos0 [27366554623984184;53091789082666607;808000000000000000];
  pos0 [27366554623984184;53091789082666607;808000000000000000];
  pos0 [27366554623984184;53091789082666607;808000000000000000];
  pos0 [27366554623984184;53091789082666607;808000000000000000];
  pos0 [27366554623984184;53091789082666607;808000000000000000];
  pos0 [27366554623984184;53091789082666607;808000000000000000];
  pos0 [27366554623984184;53091789082666607;808000000000000000];
  pos0 [27366554623984184;53091789082666607;808000000000000000];
  pos0 [27366554623984184;53091789082666607;808000000000000000];
  pos0 [27366554623984184;53091789082666607;808000000000000000]]).
(** WitherdenVincent2015_Tet.cpp:492-694, order 10. *)
Definition WV_Tet_10 : raw_rule := (
 [[neg0 [500000000000000000]; neg0 [500000000000000000]; neg0 [500000000000000000]];
  [neg0 [375499862609622704;540383362626345089;600000000000000000]; neg0 [375499862609622704;540383362626345089;600000000000000000]; neg0 [873500412171131886;378849912120964731;190000000000000000]];
  [neg0 [375499862609622704;540383362626345089;600000000000000000]; neg0 [873500412171131886;378849912120964731;190000000000000000]; neg0 [375499862609622704;540383362626345089;600000000000000000]];
  [neg0 [873500412171131886;378849912120964731;190000000000000000]; neg0 [375499862609622704;540383362626345089;600000000000000000]; neg0 [375499862609622704;540383362626345089;600000000000000000]];
  [neg0 [375499862609622704;540383362626345089;600000000000000000]; neg0 [375499862609622704;540383362626345089;600000000000000000]; neg0 [375499862609622704;540383362626345089;600000000000000000]];
  [neg0 [771380692285307698;825257604692699109;420000000000000000]; neg0 [771380692285307698;825257604692699109;420000000000000000]; pos0 [314142076855923096;475772814078097328;270000000000000000]];
  [neg0 [771380692285307698;825257604692699109;420000000000000000]; pos0 [314142076855923096;475772814078097328;270000000000000000]; neg0 [771380692285307698;825257604692699109;420000000000000000]];
  [pos0 [314142076855923096;475772814078097328;270000000000000000]; neg0 [771380692285307698;825257604692699109;420000000000000000]; neg0 [771380692285307698;825257604692699109;420000000000000000]];
  [neg0 [771380692285307698;825257604692699109;420000000000000000]; neg0 [771380692285307698;825257604692699109;420000000000000000]; neg0 [771380692285307698;825257604692699109;420000000000000000]];
  [neg0 [669027948760777896;791019751110947170;950000000000000000]; neg0 [179138521562069011;424204311496976625;20000000000000000]; neg0 [972695008115084080;360571625895099579;10000000000000000]];
  [neg0 [669027948760777896;791019751110947170;950000000000000000]; neg0 [179138521562069011;424204311496976625;20000000000000000]; neg0 [179138521562069011;424204311496976625;20000000000000000]];
  [neg0 [179138521562069011;424204311496976625;20000000000000000]; neg0 [179138521562069011;424204311496976625;20000000000000000]; neg0 [669027948760777896;791019751110947170;950000000000000000]];
  [neg0 [972695008115084080;360571625895099579;10000000000000000]; neg0 [669027948760777896;791019751110947170;950000000000000000]; neg0 [179138521562069011;424204311496976625;20000000000000000]];
  [neg0 [179138521562069011;424204311496976625;20000000000000000]; neg0 [972695008115084080;360571625895099579;10000000000000000]; neg0 [669027948760777896;791019751110947170;950000000000000000]];
  [neg0 [179138521562069011;424204311496976625;20000000000000000]; neg0 [669027948760777896;791019751110947170;950000000000000000]; neg0 [179138521562069011;424204311496976625;20000000000000000]];
  [neg0 [972695008115084080;360571625895099579;10000000000000000]; neg0 [179138521562069011;424204311496976625;20000000000000000]; neg0 [669027948760777896;791019751110947170;950000000000000000]];
  [neg0 [179138521562069011;424204311496976625;20000000000000000]; neg0 [972695008115084080;360571625895099579;10000000000000000]; neg0 [179138521562069011;424204311496976625;20000000000000000]];
  [neg0 [179138521562069011;424204311496976625;20000000000000000]; neg0 [179138521562069011;424204311496976625;20000000000000000]; neg0 [972695008115084080;360571625895099579;10000000000000000]];
  [neg0 [179138521562069011;424204311496976625;20000000000000000]; neg0 [669027948760777896;791019751110947170;950000000000000000]; neg0 [972695008115084080;360571625895099579;10000000000000000]];
  [neg0 [972695008115084080;360571625895099579;10000000000000000]; neg0 [179138521562069011;424204311496976625;20000000000000000]; neg0 [179138521562069011;424204311496976625;20000000000000000]];
  [neg0 [669027948760777896;791019751110947170;950000000000000000]; neg0 [972695008115084080;360571625895099579;10000000000000000]; neg0 [179138521562069011;424204311496976625;20000000000000000]];
  [pos0 [885977534690409732;395261173836501525;900000000000000000]; neg0 [987723982350418504;304812573503169297;850000000000000000]; neg0 [910529569989572723;785636026830162930;200000000000000000]];
  [pos0 [885977534690409732;395261173836501525;900000000000000000]; neg0 [987723982350418504;304812573503169297;850000000000000000]; neg0 [987723982350418504;304812573503169297;850000000000000000]];
  [neg0 [987723982350418504;304812573503169297;850000000000000000]; neg0 [987723982350418504;304812573503169297;850000000000000000]; pos0 [885977534690409732;395261173836501525;900000000000000000]];
  [neg0 [910529569989572723;785636026830162930;200000000000000000]; pos0 [885977534690409732;395261173836501525;900000000000000000]; neg0 [987723982350418504;304812573503169297;850000000000000000]];
  [neg0 [987723982350418504;304812573503169297;850000000000000000]; neg0 [910529569989572723;785636026830162930;200000000000000000]; pos0 [885977534690409732;395261173836501525;900000000000000000]];
  [neg0 [987723982350418504;304812573503169297;850000000000000000]; pos0 [885977534690409732;395261173836501525;900000000000000000]; neg0 [987723982350418504;304812573503169297;850000000000000000]];
  [neg0 [910529569989572723;785636026830162930;200000000000000000]; neg0 [987723982350418504;304812573503169297;850000000000000000]; pos0 [885977534690409732;395261173836501525;900000000000000000]];
  [neg0 [987723982350418504;304812573503169297;850000000000000000]; neg0 [910529569989572723;785636026830162930;200000000000000000]; neg0 [987723982350418504;304812573503169297;850000000000000000]];
  [neg0 [987723982350418504;304812573503169297;850000000000000000]; neg0 [987723982350418504;304812573503169297;850000000000000000]; neg0 [910529569989572723;785636026830162930;200000000000000000]];
  [neg0 [987723982350418504;304812573503169297;850000000000000000]; pos0 [885977534690409732;395261173836501525;900000000000000000]; neg0 [910529569989572723;785636026830162930;200000000000000000]];
  [neg0 [910529569989572723;785636026830162930;200000000000000000]; neg0 [987723982350418504;304812573503169297;850000000000000000]; neg0 [987723982350418504;304812573503169297;850000000000000000]];
  [pos0 [885977534690409732;395261173836501525;900000000000000000]; neg0 [910529569989572723;785636026830162930;200000000000000000]; neg0 [987723982350418504;304812573503169297;850000000000000000]];
  [neg0 [45619240191439298;911787183406185558;751000000000000000]; neg0 [757899637708821148;12209996809898944;740000000000000000]; neg0 [438581484390918405;63792822974016551;760000000000000000]];
  [neg0 [45619240191439298;911787183406185558;751000000000000000]; neg0 [757899637708821148;12209996809898944;740000000000000000]; neg0 [757899637708821148;12209996809898944;740000000000000000]];
  [neg0 [757899637708821148;12209996809898944;740000000000000000]; neg0 [757899637708821148;12209996809898944;740000000000000000]; neg0 [45619240191439298;911787183406185558;751000000000000000]];
  [neg0 [438581484390918405;63792822974016551;760000000000000000]; neg0 [45619240191439298;911787183406185558;751000000000000000]; neg0 [757899637708821148;12209996809898944;740000000000000000]];
  [neg0 [757899637708821148;12209996809898944;740000000000000000]; neg0 [438581484390918405;63792822974016551;760000000000000000]; neg0 [45619240191439298;911787183406185558;751000000000000000]];
  [neg0 [757899637708821148;12209996809898944;740000000000000000]; neg0 [45619240191439298;911787183406185558;751000000000000000]; neg0 [757899637708821148;12209996809898944;740000000000000000]];
  [neg0 [438581484390918405;63792822974016551;760000000000000000]; neg0 [757899637708821148;12209996809898944;740000000000000000]; neg0 [45619240191439298;911787183406185558;751000000000000000]];
  [neg0 [757899637708821148;12209996809898944;740000000000000000]; neg0 [438581484390918405;63792822974016551;760000000000000000]; neg0 [757899637708821148;12209996809898944;740000000000000000]];
  [neg0 [757899637708821148;12209996809898944;740000000000000000]; neg0 [757899637708821148;12209996809898944;740000000000000000]; neg0 [438581484390918405;63792822974016551;760000000000000000]];
  [neg0 [757899637708821148;12209996809898944;740000000000000000]; neg0 [45619240191439298;911787183406185558;751000000000000000]; neg0 [438581484390918405;63792822974016551;760000000000000000]];
  [neg0 [438581484390918405;63792822974016551;760000000000000000]; neg0 [757899637708821148;12209996809898944;740000000000000000]; neg0 [757899637708821148;12209996809898944;740000000000000000]];
  [neg0 [45619240191439298;911787183406185558;751000000000000000]; neg0 [438581484390918405;63792822974016551;760000000000000000]; neg0 [757899637708821148;12209996809898944;740000000000000000]];
  [pos0 [188512538960014051;323140068771360596;520000000000000000]; neg0 [934441063567114658;450557959335351619;180000000000000000]; neg0 [319630411825784734;422024150100657358;150000000000000000]];
  [pos0 [188512538960014051;323140068771360596;520000000000000000]; neg0 [934441063567114658;450557959335351619;180000000000000000]; neg0 [934441063567114658;450557959335351619;180000000000000000]];
  [neg0 [934441063567114658;450557959335351619;180000000000000000]; neg0 [934441063567114658;450557959335351619;180000000000000000]; pos0 [188512538960014051;323140068771360596;520000000000000000]];
  [neg0 [319630411825784734;422024150100657358;150000000000000000]; pos0 [188512538960014051;323140068771360596;520000000000000000]; neg0 [934441063567114658;450557959335351619;180000000000000000]];
  [neg0 [934441063567114658;450557959335351619;180000000000000000]; neg0 [319630411825784734;422024150100657358;150000000000000000]; pos0 [188512538960014051;323140068771360596;520000000000000000]];
  [neg0 [934441063567114658;450557959335351619;180000000000000000]; pos0 [188512538960014051;323140068771360596;520000000000000000]; neg0 [934441063567114658;450557959335351619;180000000000000000]];
  [neg0 [319630411825784734;422024150100657358;150000000000000000]; neg0 [934441063567114658;450557959335351619;180000000000000000]; pos0 [188512538960014051;323140068771360596;520000000000000000]];
  [neg0 [934441063567114658;450557959335351619;180000000000000000]; neg0 [319630411825784734;422024150100657358;150000000000000000]; neg0 [934441063567114658;450557959335351619;180000000000000000]];
  [neg0 [934441063567114658;450557959335351619;180000000000000000]; neg0 [934441063567114658;450557959335351619;180000000000000000]; neg0 [319630411825784734;422024150100657358;150000000000000000]];
  [neg0 [934441063567114658;450557959335351619;180000000000000000]; pos0 [188512538960014051;323140068771360596;520000000000000000]; neg0 [319630411825784734;422024150100657358;150000000000000000]];
  [neg0 [319630411825784734;422024150100657358;150000000000000000]; neg0 [934441063567114658;450557959335351619;180000000000000000]; neg0 [934441063567114658;450557959335351619;180000000000000000]];
  [pos0 [188512538960014051;323140068771360596;520000000000000000]; neg0 [319630411825784734;422024150100657358;150000000000000000]; neg0 [934441063567114658;450557959335351619;180000000000000000]];
  [pos0 [602354569316688782;462283368157161963;590000000000000000]; neg0 [935029436870353904;328970120043147606;590000000000000000]; neg0 [732295695575980973;804343128070866750;410000000000000000]];
  [pos0 [602354569316688782;462283368157161963;590000000000000000]; neg0 [935029436870353904;328970120043147606;590000000000000000]; neg0 [935029436870353904;328970120043147606;590000000000000000]];
  [neg0 [935029436870353904;328970120043147606;590000000000000000]; neg0 [935029436870353904;328970120043147606;590000000000000000]; pos0 [602354569316688782;462283368157161963;590000000000000000]];
  [neg0 [732295695575980973;804343128070866750;410000000000000000]; pos0 [602354569316688782;462283368157161963;590000000000000000]; neg0 [935029436870353904;328970120043147606;590000000000000000]];
  [neg0 [935029436870353904;328970120043147606;590000000000000000]; neg0 [732295695575980973;804343128070866750;410000000000000000]; pos0 [602354569316688782;462283368157161963;590000000000000000]];
  [neg0 [935029436870353904;328970120043147606;590000000000000000]; pos0 [602354569316688782;462283368157161963;590000000000000000]; neg0 [935029436870353904;328970120043147606;590000000000000000]];
  [neg0 [732295695575980973;804343128070866750;410000000000000000]; neg0 [935029436870353904;328970120043147606;590000000000000000]; pos0 [602354569316688782;462283368157161963;590000000000000000]];
  [neg0 [935029436870353904;328970120043147606;590000000000000000]; neg0 [732295695575980973;804343128070866750;410000000000000000]; neg0 [935029436870353904;328970120043147606;590000000000000000]];
  [neg0 [935029436870353904;328970120043147606;590000000000000000]; neg0 [935029436870353904;328970120043147606;590000000000000000]; neg0 [732295695575980973;804343128070866750;410000000000000000]];
  [neg0 [935029436870353904;328970120043147606;590000000000000000]; pos0 [602354569316688782;462283368157161963;590000000000000000]; neg0 [732295695575980973;804343128070866750;410000000000000000]];
  [neg0 [732295695575980973;804343128070866750;410000000000000000]; neg0 [935029436870353904;328970120043147606;590000000000000000]; neg0 [935029436870353904;328970120043147606;590000000000000000]];
  [pos0 [602354569316688782;462283368157161963;590000000000000000]; neg0 [732295695575980973;804343128070866750;410000000000000000]; neg0 [935029436870353904;328970120043147606;590000000000000000]];
  [pos0 [256143690950732021;386552144435819331;300000000000000000]; neg0 [650041315632121951;430101546943379205;560000000000000000]; neg0 [956061059686488118;526349050549060920;180000000000000000]];
  [pos0 [256143690950732021;386552144435819331;300000000000000000]; neg0 [650041315632121951;430101546943379205;560000000000000000]; neg0 [650041315632121951;430101546943379205;560000000000000000]];
  [neg0 [650041315632121951;430101546943379205;560000000000000000]; neg0 [650041315632121951;430101546943379205;560000000000000000]; pos0 [256143690950732021;386552144435819331;300000000000000000]];
  [neg0 [956061059686488118;526349050549060920;180000000000000000]; pos0 [256143690950732021;386552144435819331;300000000000000000]; neg0 [650041315632121951;430101546943379205;560000000000000000]];
  [neg0 [650041315632121951;430101546943379205;560000000000000000]; neg0 [956061059686488118;526349050549060920;180000000000000000]; pos0 [256143690950732021;386552144435819331;300000000000000000]];
  [neg0 [650041315632121951;430101546943379205;560000000000000000]; pos0 [256143690950732021;386552144435819331;300000000000000000]; neg0 [650041315632121951;430101546943379205;560000000000000000]];
  [neg0 [956061059686488118;526349050549060920;180000000000000000]; neg0 [650041315632121951;430101546943379205;560000000000000000]; pos0 [256143690950732021;386552144435819331;300000000000000000]];
  [neg0 [650041315632121951;430101546943379205;560000000000000000]; neg0 [956061059686488118;526349050549060920;180000000000000000]; neg0 [650041315632121951;430101546943379205;560000000000000000]];
  [neg0 [650041315632121951;430101546943379205;560000000000000000]; neg0 [650041315632121951;430101546943379205;560000000000000000]; neg0 [956061059686488118;526349050549060920;180000000000000000]];
  [neg0 [650041315632121951;430101546943379205;560000000000000000]; pos0 [256143690950732021;386552144435819331;300000000000000000]; neg0 [956061059686488118;526349050549060920;180000000000000000]];
  [neg0 [956061059686488118;526349050549060920;180000000000000000]; neg0 [650041315632121951;430101546943379205;560000000000000000]; neg0 [650041315632121951;430101546943379205;560000000000000000]];
  [pos0 [256143690950732021;386552144435819331;300000000000000000]; neg0 [956061059686488118;526349050549060920;180000000000000000]; neg0 [650041315632121951;430101546943379205;560000000000000000]]],
 [pos0 [63199698074694317;846318428237401466;134000000000000000];
  pos0 [35916079989691599;737018881339842778;615000000000000000];
  pos0 [35916079989691599;737018881339842778;615000000000000000];
  pos0 [35916079989691599;737018881339842778;615000000000000000];
  pos0 [35916079989691599;737018881339842778;615000000000000000];
  pos0 [13158879622391177;646076980573564101;693000000000000000];
  pos0 [13158879622391177;646076980573564101;693000000000000000];
  pos0 [13158879622391177;646076980573564101;693000000000000000];
  pos0 [13158879622391177;646076980573564101;693000000000000000];
  pos0 [15191841626926975;498161246507619114;195000000000000000];
  pos0 [15191841626926975;498161246507619114;195000000000000000];
  pos0 [15191841626926975;498161246507619114;195000000000000000];
  pos0 [15191841626926975;498161246507619114;195000000000000000];
  pos0 [15191841626926975;498161246507619114;195000000000000000];
  pos0 [15191841626926975;498161246507619114;195000000000000000];
  pos0 [15191841626926975;498161246507619114;195000000000000000];
  pos0 [15191841626926975;498161246507619114;195000000000000000];
  pos0 [15191841626926975;498161246507619114;195000000000000000];
  pos0 [15191841626926975;498161246507619114;195000000000000000];
  pos0 [15191841626926975;498161246507619114;195000000000000000];
  pos0 [15191841626926975;498161246507619114;195000000000000000];
  pos0 [482592459119004;832319837846411349;86160000000000000];
  pos0 [482592459119004;832319837846411349;86160000000000000];
  pos0 [482592459119004;832319837846411349;86160000000000000];
  pos0 [482592459119004;832319837846411349;86160000000000000];
  pos0 [482592459119004;832319837846411349;86160000000000000];
  pos0 [482592459119004;832319837846411349;86160000000000000];
  pos0 [482592459119004;832319837846411349;86160000000000000];
  pos0 [482592459119004;832319837846411349;86160000000000000];
  pos0 [482592459119004;832319837846411349;86160000000000000];
  pos0 [482592459119004;832319837846411349;86160000000000000];
  pos0 [482592459119004;832319837846411349;86160000000000000];
  pos0 [482592459119004;832319837846411349;86160000000000000];
  pos0 [34319642640608095;38714683012872940;214000000000000000];
  pos0 [34319642640608095;38714683012872940;214000000000000000];
  pos0 [34319642640608095;38714683012872940;214000000000000000];
  pos0 [34319642640608095;38714683012872940;214000000000000000];
  pos0 [34319642640608095;38714683012872940;214000000000000000];
  pos0 [34319642640608095;38714683012872940;214000000000000000];
  pos0 [34319642640608095;38714683012872940;214000000000000000];
  pos0 [34319642640608095;38714683012872940;214000000000000000];
  pos0 [34319642640608095;38714683012872940;214000000000000000];
  pos0 [34319642640608095;38714683012872940;214000000000000000];
  pos0 [34319642640608095;38714683012872940;214000000000000000];
  pos0 [34319642640608095;38714683012872940;214000000000000000];
  pos0 [13514495573007723;718021960153355702;928000000000000000];
  pos0 [13514495573007723;718021960153355702;928000000000000000];
  pos0 [13514495573007723;718021960153355702;928000000000000000];
  pos0 [13514495573007723;718021960153355702;928000000000000000];
  pos0 [13514495573007723;718021960153355702;928000000000000000];
  pos0 [13514495573007723;718021960153355702;928000000000000000];
  pos0 [13514495573007723;718021960153355702;928000000000000000];
  pos0 [13514495573007723;718021960153355702;928000000000000000];
  pos0 [13514495573007723;718021960153355702;928000000000000000];
  pos0 [13514495573007723;718021960153355702;928000000000000000];
  pos0 [13514495573007723;718021960153355702;928000000000000000];
  pos0 [13514495573007723;718021960153355702;928000000000000000];
  pos0 [8768196369381205;556607653600600934;795400000000000000];
  pos0 [8768196369381205;556607653600600934;795400000000000000];
  pos0 [8768196369381205;556607653600600934;795400000000000000];
  pos0 [8768196369381205;556607653600600934;795400000000000000];
  pos0 [8768196369381205;556607653600600934;795400000000000000];
  pos0 [8768196369381205;556607653600600934;795400000000000000];
  pos0 [8768196369381205;556607653600600934;795400000000000000];
  pos0 [8768196369381205;556607653600600934;795400000000000000];
  pos0 [8768196369381205;556607653600600934;795400000000000000];
  pos0 [8768196369381205;556607653600600934;795400000000000000];
  pos0 [8768196369381205;556607653600600934;795400000000000000];
  pos0 [8768196369381205;556607653600600934;795400000000000000];
  pos0 [17209381065149320;852393906999331987;612000000000000000];
  pos0 [17209381065149320;852393906999331987;612000000000000000];
  pos0 [17209381065149320;852393906999331987;612000000000000000];
  pos0 [17209381065149320;852393906999331987;612000000000000000];
  pos0 [17209381065149320;852393906999331987;612000000000000000];
  pos0 [17209381065149320;852393906999331987;612000000000000000];
  pos0 [17209381065149320;852393906999331987;612000000000000000];
  pos0 [17209381065149320;852393906999331987;612000000000000000];
  pos0 [17209381065149320;852393906999331987;612000000000000000];
  pos0 [17209381065149320;852393906999331987;612000000000000000];
  pos0 [17209381065149320;852393906999331987;612000000000000000];
  pos0 [17209381065149320;852393906999331987;612000000000000000]]).
Definition WV_Tet : raw_table := [(1%nat, WV_Tet_1); (2%nat, WV_Tet_2); (3%nat, WV_Tet_3); (5%nat, WV_Tet_5); (6%nat, WV_Tet_6); (7%nat, WV_Tet_7); (8%nat, WV_Tet_8); (9%nat, WV_Tet_9); (10%nat, WV_Tet_10)].
