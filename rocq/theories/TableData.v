(** Data read by the tabulated spectra of hazma/spectra/_positron and hazma/spectra/_neutrino, transcribed from the
    files named below: energies in units of 10^-17 MeV, columns in units of 10^-35 / MeV, as exact integers. Columns of
    other decay modes and files that no theorem needs are left out. *)
From Coq Require Import ZArith List.
Import ListNotations.
Local Open Scope Z_scope.

(** _positron/data/short_kaon_positron.csv: column energy, all 500 rows *)
Definition short_kaon_energy : list Z := [
  51099894610000040; 51728194144844850; 52364218946219040; 53008064000255280; 53659825460989610; 54319600664721550; 54987488144550540;
  55663587645091280; 56348000137369880; 57040827833903260; 57742174203963880; 58452143989032260; 59170843218439350; 59898379225201390;
  60634860662049340; 61380397517655490; 62135101133059530; 62899084218296590; 63672460869229760; 64455346584589580; 65247858283222970;
  66050114321554330; 66862234511261300; 67684340137167790; 68516553975357140; 69359000311507930; 70211804959455160; 71075095279979750;
  71949000199829080; 72833650230971330; 73729177490086520; 74635715718297390; 75553400301142660; 76482368288796030; 77422758416533710;
  78374711125453590; 79338368583449250; 80313874706441760; 81301375179872600; 82301017480460850; 83312950898227790; 84337326558792470;
  85374297445941310; 86424018424475180; 87486646263337500; 88562339659026620; 89651259259296110; 90753567687146440; 91869429565111680;
  92999011539844800; 94142482307005170; 95300012636452290; 96471775397749050; 97657945585978700; 98858700347879170; 100074219008298800;
  101304683096977600; 102550276375656700; 103811184865523300; 105087596874990100; 106379703027819500; 107687696291590900; 109011772006519600;
  110352127914629400; 111708964189284400; 113082483465083200; 114472890868121300; 115880394046625000; 117305203201962900; 118747531120037400;
  120207593203063400; 121685607501737100; 123181794747800200; 124696378387004900; 126229584612484200; 127781642398532100; 129352783534799500;
  130943242660910800; 132553257301504900; 134183067901709200; 135832917863047400; 137503053579790400; 139193724475753800; 140905183041547300;
  142637684872283000; 144391488705746500; 146166856461037600; 147964053277686700; 149783347555251200; 151625010993399400; 153489318632487000;
  155376548894632500; 157286983625297900; 159220908135380500; 161178611243822000; 163160385320741600; 165166526331100200; 167197333878900000;
  169253111251929000; 171334165467054800; 173440807316075500; 175573351412134600; 177732116236706300; 179917424187158500; 182129601624901100;
  184368978924125500; 186635890521144200; 188930674964336300; 191253674964707600; 193605237447072700; 195985713601865200; 198395458937586100;
  200834833333896800; 203304201095364300; 205803931005868200; 208334396383675800; 210895975137194800; 213489049821411600; 216114007695023400;
  218771240778272400; 221461145911491800; 224184124814371200; 226940584145950600; 229730935565352600; 232555595793261000; 235414986674154700;
  238309535239308100; 241239673770565200; 244205839864897900; 247208476499758500; 250248032099235200; 253324960601021300; 256439721524208200;
  259592780037911400; 262784607030739900; 266015679181121200; 269286479028489500; 272597495045350000; 275949221710229200; 279342159581521600;
  282776815372245400; 286253702025716300; 289773338792152400; 293336251306220600; 296942971665537100; 300594038510132500; 304289997102894100;
  308031399410997100; 311818804188337900; 315652777058979600; 319533890601625100; 323462724435127100; 327439865305050800; 331465907171300600;
  335541451296823700; 339667106337405500; 343843488432567600; 348071221297584500; 352350936316631500; 356683272637077600; 361068877264938100;
  365508405161500600; 370002519341139100; 374551890970331300; 379157199467892300; 383819132606441600; 388538386615117500; 393315666283554600;
  398151685067138800; 403047165193557700; 408002837770660800; 413019442895644800; 418097729765583100; 423238456789313100; 428442391700699800;
  433710311673291400; 439043003436385500; 444441263392521800; 449905897736419500; 455437722575377400; 461037564051153900; 466706258463346200;
  472444652394285800; 478253602835470500; 484133977315549600; 490086654029884700; 496112521971701600; 502212481064856100; 508387442298231300;
  514638327861788000; 520966071284287800; 527371617572710100; 533855923353380600; 540419957014840200; 547064698852464900; 553791141214867500;
  560600288652099000; 567493158065670000; 574470778860420100; 581534193098250900; 588684455653753000; 595922634371742600; 603249810226739200;
  610667077484400300; 618175543864943300; 625776330708577600; 633470573142966800; 641259420252755500; 649144035251174700; 657125595653762800;
  665205293454217100; 673384335302413100; 681663942684607200; 690045352105858500; 698529815274694300; 707118599290041900; 715812986830463700;
  724614276345715000; 733523782250661200; 742542835121574500; 751672781894849000; 760914986068155000; 770270827904069400; 779741704636209500;
  789329030677898500; 799034237833401800; 808858775511754200; 818804110943223600; 828871729398427900; 839063134410154500; 849379847997899700;
  859823410895173800; 870395382779601300; 881097342505844200; 891930888341398500; 902897638205280400; 913999229909656400; 925237321404435200;
  936613591024876000; 948129737742233500; 959787481417489200; 971588563058203100; 983534745078518400; 995627811562370200; 1007869568529923000;
  1020261844207291000; 1032806489299570000; 1045505377267231000; 1058360404605902000; 1071373491129605000; 1084546580257465000; 1097881639303946000;
  1111380659772656000; 1125045657653767000; 1138878673725090000; 1152881773856849000; 1167057049320206000; 1181406617099585000; 1195932620208816000;
  1210637228011194000; 1225522636543453000; 1240591068843730000; 1255844775283558000; 1271286033903953000; 1286917150755615000; 1302740460243329000;
  1318758325474585000; 1334973138612502000; 1351387321233075000; 1368003324686823000; 1384823630464883000; 1401850750569606000; 1419087227889706000;
  1436535636580021000; 1454198582445952000; 1472078703332620000; 1490178669518809000; 1508501184115758000; 1527048983470853000; 1545824837576279000;
  1564831550482701000; 1584071960718035000; 1603548941711359000; 1623265402222043000; 1643224286774149000; 1663428576096182000; 1683881287566243000;
  1704585475662644000; 1725544232420089000; 1746760687891437000; 1768238010615165000; 1789979408088556000; 1811988127246730000; 1834267454947549000;
  1856820718462479000; 1879651285973509000; 1902762567076160000; 1926158013288689000; 1949841118567541000; 1973815419829162000; 1998084497478208000;
  2022651975942255000; 2047521524213079000; 2072696856394606000; 2098181732257584000; 2123979957801072000; 2150095385820858000; 2176531916484833000;
  2203293497915468000; 2230384126779425000; 2257807848884450000; 2285568759783580000; 2313671005386779000; 2342118782580119000; 2370916339852543000;
  2400067977930362000; 2429578050419521000; 2459450964455806000; 2489691181362999000; 2520303217319167000; 2551291644031100000; 2582661089417088000;
  2614416238298062000; 2646561833097232000; 2679102674548352000; 2712043622412670000; 2745389596204705000; 2779145575926933000; 2813316602813535000;
  2847907780083262000; 2882924273701571000; 2918371313152118000; 2954254192217763000; 2990578269771156000; 3027348970575037000; 3064571786092408000;
  3102252275306637000; 3140396065551658000; 3179008853352367000; 3218096405275378000; 3257664558790214000; 3297719223141081000; 3338266380229401000;
  3379312085507151000; 3420862468881214000; 3462923735628826000; 3505502167324315000; 3548604122777198000; 3592236038981837000; 3636404432078744000;
  3681115898327747000; 3726377115093088000; 3772194841840631000; 3818575921147370000; 3865527279723301000; 3913055929445896000; 3961168968407260000;
  4009873581974210000; 4059177043861349000; 4109086717217343000; 4159610055724568000; 4210754604712267000; 4262528002283400000; 4314937980455321000;
  4367992366314537000; 4421699083185612000; 4476066151814472000; 4531101691566234000; 4586813921637808000; 4643211162285364000; 4700301836066893000;
  4758094469100094000; 4816597692335668000; 4875820242846311000; 4935770965131512000; 4996458812438455000; 5057892848099111000; 5120082246883773000;
  5183036296371276000; 5246764398336020000; 5311276070152064000; 5376580946214489000; 5442688779378216000; 5509609442414557000; 5577352929485626000;
  5645929357636920000; 5715348968308204000; 5785622128863039000; 5856759334137065000; 5928771208005315000; 6001668504968859000; 6075462111760890000;
  6150163048972604000; 6225782472699026000; 6302331676205137000; 6379822091612426000; 6458265291606192000; 6537672991163880000; 6618057049304615000;
  6699429470860275000; 6781802408268315000; 6865188163386691000; 6949599189331032000; 7035048092334451000; 7121547633630168000; 7209110731357363000;
  7297750462490399000; 7387480064791745000; 7478312938789014000; 7570262649776195000; 7663342929839570000; 7757567679908468000; 7852950971831336000;
  7949507050477250000; 8047250335863259000; 8146195425307984000; 8246357095611589000; 8347750305262618000; 8450390196671916000; 8554292098434095000;
  8659471527616731000; 8765944192077745000; 8873725992811245000; 8982833026322277000; 9093281587030711000; 9205088169704680000; 9318269471924019000;
  9432842396573898000; 9548824054369182000; 9666231766409763000; 9785083066767409000; 9905395705104338000; 10027187649323980000;
  10150477088254420000; 10275282434364760000; 10401622326514900000; 10529515632739090000; 10658981453063820000; 10790039122360240000;
  10922708213231710000; 11057008538936800000; 11192960156348340000; 11330583368948750000; 11469898729862190000; 11610927044924090000;
  11753689375788370000; 11898207043072820000; 12044501629543200000; 12192594983336500000; 12342509221223850000; 12494266731913410000;
  12647890179394100000; 12803402506320230000; 12960826937437910000; 13120186983053390000; 13281506442544330000; 13444809407913960000;
  13610120267389140000; 13777463709062470000; 13946864724579460000; 14118348612870740000; 14291940983930290000; 14467667762640230000;
  14645555192642420000; 14825629840257860000; 15007918598454090000; 15192448690861600000; 15379247675839430000; 15568343450590830000;
  15759764255329550000; 15953538677497330000; 16149695656033240000; 16348264485695460000; 16549274821436390000; 16752756682831310000;
  16958740458561680000; 17167256910953400000; 17378337180571060000; 17592012790868560000; 17808315652896840000; 18027278070069700000;
  18248932742988070000; 18473312774323600000; 18700451673762320000; 18930383363009150000; 19163142180853870000; 19398762888299300000;
  19637280673752770000; 19878731158281180000; 20123150400930850000; 20370574904112550000; 20621041619053090000; 20874587951313640000;
  21131251766376020000; 21391071395297610000; 21654085640435930000; 21920333781243530000; 22189855580133940000; 22462691288420170000;
  22738881652325840000].

(** _positron/data/short_kaon_positron.csv: column pi_pi; the other column, pi0_pi0, is zero in every row *)
Definition short_kaon_pi_pi : list Z := [
  110739560732700300000000; 427490735376972800000000000000; 615645064652515600000000000000; 767846801235871900000000000000;
  902926355727406600000000000000; 1028076748324945000000000000000; 1146949144066064000000000000000; 1261697786724687000000000000000;
  1373722032686823000000000000000; 1483994935704423000000000000000; 1593228924558872000000000000000; 1701967434697684000000000000000;
  1810639242608429000000000000000; 1919592490404400000000000000000; 2029116950511220000000000000000; 2139459133763314000000000000000;
  2250832859207468000000000000000; 2363426844417684000000000000000; 2477410280882815000000000000000; 2592937011411816000000000000000;
  2710148715661329000000000000000; 2829177377919463000000000000000; 2950147226358912000000000000000; 3073176276972683000000000000000;
  3198377577661101000000000000000; 3325860221994319000000000000000; 3455730184021869000000000000000; 3588091012594135000000000000000;
  3723044414347815000000000000000; 3860690747697012000000000000000; 4001129445129387000000000000000; 4144459377330442000000000000000;
  4290779169801249000000000000000; 4440187480450649000000000000000; 4592783244958322000000000000000; 4748665895394706000000000000000;
  4907935556556310000000000000000; 5070693223663350000000000000000; 5237040924420978000000000000000; 5407081867928486000000000000000;
  5580920582504279000000000000000; 5758663044156872000000000000000; 5940416797157125000000000000000; 6126291067941524000000000000000;
  6316396873390872000000000000000; 6510847124375264000000000000000; 6709756725328731000000000000000; 6913242670510669000000000000000;
  7121424137521928000000000000000; 7334422578568657000000000000000; 7552361809903664000000000000000; 7775368099821580000000000000000;
  8003570255538529000000000000000; 8237099709248362000000000000000; 8476090603614153000000000000000; 8720679876925509000000000000000;
  8971007348127497000000000000000; 9227215801906174000000000000000; 9489451073997485000000000000000; 9757862136870237000000000000000;
  10032601185920780000000000000000; 10313823726304370000000000000000; 10601688660518520000000000000000; 10896358376844010000000000000000;
  11197998838741860000000000000000; 11506779675296950000000000000000; 11822874272793550000000000000000; 12146459867502150000000000000000;
  12477717639752430000000000000000; 12816832809363160000000000000000; 13163994732495700000000000000000; 13519396999995100000000000000000;
  13883237537279140000000000000000; 14255718705833940000000000000000; 14637047406371320000000000000000; 15027435183702440000000000000000;
  15427098333378730000000000000000; 15836258010151030000000000000000; 16255140338295130000000000000000; 16683976523851240000000000000000;
  17123002968823230000000000000000; 17572461387382620000000000000000; 18032598924120860000000000000000; 18503668274393130000000000000000;
  18985927806794630000000000000000; 19479641687811270000000000000000; 19985080008683900000000000000000; 20502518914525910000000000000000;
  21032240735732240000000000000000; 21574534121717600000000000000000; 22129694177020490000000000000000; 22698022599809270000000000000000;
  23279827822825190000000000000000; 23875425156797030000000000000000; 24485136936360570000000000000000; 25109292668515760000000000000000;
  25748229183653190000000000000000; 26402290789180640000000000000000; 27071829425779480000000000000000; 27757204826319790000000000000000;
  28458784677461620000000000000000; 29176944783968830000000000000000; 29912069235761050000000000000000; 30664550577727210000000000000000;
  31434789982323620000000000000000; 32223197424977280000000000000000; 33030191862314210000000000000000; 33856201413230230000000000000000;
  34701663542820940000000000000000; 35567025249184290000000000000000; 36452743253108640000000000000000; 37359284190655990000000000000000;
  38287124808648510000000000000000; 39236752163063710000000000000000; 40208663820341410000000000000000; 41203368061602730000000000000000;
  42221384089778420000000000000000; 43263242239641920000000000000000; 44329484190737080000000000000000; 45420663183189850000000000000000;
  46537344236387860000000000000000; 47680104370508710000000000000000; 48849532830873550000000000000000; 50046231315099260000000000000000;
  51270814203016420000000000000000; 52523908789317780000000000000000; 53806155518894920000000000000000; 55118208224817340000000000000000;
  56460734368901600000000000000000; 57834415284813050000000000000000; 59239946423636510000000000000000; 60678037601845560000000000000000;
  62149413251594200000000000000000; 63654812673246280000000000000000; 65194990290052600000000000000000; 66770715904875800000000000000000;
  68382774958856290000000000000000; 70031968791903760000000000000000; 71719114904888670000000000000000; 73445047223400800000000000000000;
  75210616362929380000000000000000; 77016689895311330000000000000000; 78864152616281080000000000000000; 80753906813945970000000000000000;
  82686872537997560000000000000000; 84663987869456850000000000000000; 86686209190739900000000000000000; 88754511455813050000000000000000;
  90869888460196630000000000000000; 93033353110556920000000000000000; 95245937693613000000000000000000; 97508694144066940000000000000000;
  99822694311248550000000000000000; 102189030224149200000000000000000; 104608814354496000000000000000000; 107083179877504300000000000000000;
  109613280929917300000000000000000; 112200292864927500000000000000000; 114845412503546600000000000000000; 117549858381968300000000000000000;
  120314870994444000000000000000000; 123141713031164100000000000000000; 126031669610611100000000000000000; 128986048505822100000000000000000;
  132006180363966500000000000000000; 135093418918618800000000000000000; 138249141194065600000000000000000; 141474747700961200000000000000000;
  144771662622602400000000000000000; 148141333991062000000000000000000; 151585233852378600000000000000000; 155104858419960600000000000000000;
  158701728215321300000000000000000; 162377388195215800000000000000000; 166133407864207300000000000000000; 169971381371638200000000000000000;
  173892927591938000000000000000000; 177899690187140100000000000000000; 181993337650431700000000000000000; 186175563329501000000000000000000;
  190448085428385800000000000000000; 194812646986470600000000000000000; 199271015833208600000000000000000; 203824984517083800000000000000000;
  208476370207253400000000000000000; 213227014566243000000000000000000; 218078783591986400000000000000000; 223033567427424400000000000000000;
  228093280135796700000000000000000; 233259859439671100000000000000000; 238535266421666800000000000000000; 243921485184736900000000000000000;
  249420522469770700000000000000000; 255034407228188300000000000000000; 260765190147077500000000000000000; 266614943124329400000000000000000;
  272585758691103400000000000000000; 278679749378835100000000000000000; 284899047027883400000000000000000; 291245802034772500000000000000000;
  297722182534859000000000000000000; 304330373517109400000000000000000; 311072575867529200000000000000000; 317951005337629700000000000000000;
  324967891434166200000000000000000; 332125476226210500000000000000000; 339426013065448900000000000000000; 346871765215428800000000000000000;
  354465004385272100000000000000000; 362208009163202900000000000000000; 370103063345013400000000000000000; 378152454152401900000000000000000;
  386358470335882200000000000000000; 394723400156750300000000000000000; 403249529242353000000000000000000; 411939138308647700000000000000000;
  420794500743810800000000000000000; 429817880046356200000000000000000; 439011527110980600000000000000000; 448377677355031700000000000000000;
  457918547678228800000000000000000; 467636333247923100000000000000000; 477533204101887600000000000000000; 487611301560275300000000000000000;
  497872734438027300000000000000000; 508319575048675000000000000000000; 518953854990065500000000000000000; 529777560702181900000000000000000;
  540792628786783500000000000000000; 552000941078203100000000000000000; 563404319454158800000000000000000; 575004520375005300000000000000000;
  586803229139358000000000000000000; 598802053843515100000000000000000; 611002519031617100000000000000000; 623406059022900800000000000000000;
  636014010901888400000000000000000; 648827607156732700000000000000000; 661847967950364100000000000000000; 675076093008436300000000000000000;
  688512853107425600000000000000000; 702158981145552900000000000000000; 716015062778485400000000000000000; 730081526601068300000000000000000;
  744358633855522900000000000000000; 758846467645817600000000000000000; 773544921637033200000000000000000; 788453688217734600000000000000000;
  803572246102430200000000000000000; 818899847350323600000000000000000; 834435503775543700000000000000000; 850177972723078900000000000000000;
  866125742183604700000000000000000; 882277015219277100000000000000000; 898629693671487400000000000000000; 915181361120373700000000000000000;
  931929265064707800000000000000000; 948870298289477100000000000000000; 966000979387200200000000000000000; 983317432397674500000000000000000;
  1000815365529380000000000000000000; 1018354542588549000000000000000000; 1035521790943233000000000000000000; 1052444529633428000000000000000000;
  1069051182971049000000000000000000; 1085340746371419000000000000000000; 1101309237668759000000000000000000; 1116953131608253000000000000000000;
  1132267160940545000000000000000000; 1147244554476989000000000000000000; 1161885017523638000000000000000000; 1176177145972089000000000000000000;
  1190121999011057000000000000000000; 1203705073522556000000000000000000; 1216926947527867000000000000000000; 1229786013735689000000000000000000;
  1242270971860340000000000000000000; 1254383512082775000000000000000000; 1266098506317362000000000000000000; 1277437680261182000000000000000000;
  1288379220363850000000000000000000; 1298923310459609000000000000000000; 1309063515924081000000000000000000; 1318792280272939000000000000000000;
  1328109533649438000000000000000000; 1336998801564441000000000000000000; 1345478156438527000000000000000000; 1353521349946927000000000000000000;
  1361129683348901000000000000000000; 1368300470301928000000000000000000; 1375024002500291000000000000000000; 1381230345590669000000000000000000;
  1387132780718297000000000000000000; 1392501605542913000000000000000000; 1397411750462805000000000000000000; 1401859618404275000000000000000000;
  1405832194036465000000000000000000; 1409337536006324000000000000000000; 1412367605746915000000000000000000; 1414913700073198000000000000000000;
  1416986113609701000000000000000000; 1418577126622055000000000000000000; 1419651365889842000000000000000000; 1420289940372579000000000000000000;
  1420402374422676000000000000000000; 1420045021937897000000000000000000; 1419290355607601000000000000000000; 1418319400871832000000000000000000;
  1417323232728964000000000000000000; 1416329714783409000000000000000000; 1415270425736810000000000000000000; 1414195770982265000000000000000000;
  1413105718291208000000000000000000; 1411999479036847000000000000000000; 1410767543673235000000000000000000; 1409674188018288000000000000000000;
  1408476958026732000000000000000000; 1407250106040238000000000000000000; 1405998043288523000000000000000000; 1404708331928118000000000000000000;
  1403399526216818000000000000000000; 1402058492068269000000000000000000; 1400685843170048000000000000000000; 1399273875449579000000000000000000;
  1397835976908712000000000000000000; 1396358565632729000000000000000000; 1394854283182717000000000000000000; 1393297395719397000000000000000000;
  1391736196352319000000000000000000; 1390122122560106000000000000000000; 1388471170401476000000000000000000; 1386784378763159000000000000000000;
  1385028790695607000000000000000000; 1383284642483981000000000000000000; 1381475251272928000000000000000000; 1379626446490867000000000000000000;
  1377729667618767000000000000000000; 1375791358782473000000000000000000; 1373817080758820000000000000000000; 1371789181212016000000000000000000;
  1369719189735905000000000000000000; 1367601759625294000000000000000000; 1365433467127864000000000000000000; 1363215931475069000000000000000000;
  1360948750334010000000000000000000; 1358630720243076000000000000000000; 1356253223791252000000000000000000; 1353833919701061000000000000000000;
  1351356462204368000000000000000000; 1348817116177714000000000000000000; 1346203333558487000000000000000000; 1343576601844516000000000000000000;
  1340865509867541000000000000000000; 1338095847325296000000000000000000; 1335259417560846000000000000000000; 1332364019028895000000000000000000;
  1329402319765340000000000000000000; 1326375760939203000000000000000000; 1323274701004436000000000000000000; 1320114440732823000000000000000000;
  1316881825117699000000000000000000; 1313582728088908000000000000000000; 1310196387699487000000000000000000; 1306743238529003000000000000000000;
  1303213849012532000000000000000000; 1299607071972183000000000000000000; 1295920730388199000000000000000000; 1292153697291740000000000000000000;
  1288310858908114000000000000000000; 1284368491840645000000000000000000; 1280345882148569000000000000000000; 1276243031946668000000000000000000;
  1271948187145657000000000000000000; 1267760880071926000000000000000000; 1263383055439649000000000000000000; 1258905740525059000000000000000000;
  1254339681047388000000000000000000; 1249669096557641000000000000000000; 1244904197292318000000000000000000; 1240035150840776000000000000000000;
  1235060465725895000000000000000000; 1229983507134856000000000000000000; 1224796799655937000000000000000000; 1219501409066191000000000000000000;
  1214094085265395000000000000000000; 1208572808184627000000000000000000; 1202935293556582000000000000000000; 1197178098083202000000000000000000;
  1191306714753665000000000000000000; 1185311140658608000000000000000000; 1179190701147778000000000000000000; 1172939712737026000000000000000000;
  1166569472492864000000000000000000; 1160062260098900000000000000000000; 1153424105263351000000000000000000; 1146650304309972000000000000000000;
  1139738685688834000000000000000000; 1132687921179096000000000000000000; 1125495186963825000000000000000000; 1118154037023846000000000000000000;
  1110672997706035000000000000000000; 1103040652361435000000000000000000; 1095258130130873000000000000000000; 1087320011599963000000000000000000;
  1079227101785549000000000000000000; 1070975167277814000000000000000000; 1062563062647419000000000000000000; 1053987716161096000000000000000000;
  1045248121930988000000000000000000; 1036339612625544000000000000000000; 1027260877193777000000000000000000; 1018011302077262000000000000000000;
  1008586430056490000000000000000000; 998985262258911300000000000000000; 989198525427351300000000000000000; 979242816516732500000000000000000;
  969091197311792800000000000000000; 958765313146513200000000000000000; 948244403327075700000000000000000; 937535708845343800000000000000000;
  926634865025062700000000000000000; 915538582984944300000000000000000; 904246606438547300000000000000000; 892762426401893600000000000000000;
  881066243369846600000000000000000; 869152548493876700000000000000000; 857094569515104600000000000000000; 844778400476332800000000000000000;
  832271299270200500000000000000000; 819555899305312800000000000000000; 806631143016066000000000000000000; 793495194225510800000000000000000;
  780147293015063200000000000000000; 766586120382959600000000000000000; 752809493469820900000000000000000; 738823111746699900000000000000000;
  724615506118460100000000000000000; 710198981710290800000000000000000; 695562697740306000000000000000000; 680711071325271100000000000000000;
  665642986624664500000000000000000; 650359682929115900000000000000000; 634859453912150000000000000000000; 619145694553712700000000000000000;
  603222522598204700000000000000000; 587085673577927200000000000000000; 570737391771800800000000000000000; 554180820833111700000000000000000;
  537416703591569700000000000000000; 520451089005118500000000000000000; 503281721343689100000000000000000; 485905107908398100000000000000000;
  468340307052936200000000000000000; 450607313565176400000000000000000; 432743497535947800000000000000000; 415122221273429800000000000000000;
  397794629122548400000000000000000; 380765627502997400000000000000000; 364040156109601800000000000000000; 347623185444450000000000000000000;
  331519714165080800000000000000000; 315734766239597700000000000000000; 300273387899120100000000000000000; 285140644377685800000000000000000;
  270341616429172700000000000000000; 255881396610435800000000000000000; 241765085319343300000000000000000; 227997786575948400000000000000000;
  214584603534496300000000000000000; 201530633713460600000000000000000; 188840963930239500000000000000000; 176520664926597700000000000000000;
  164574785670324300000000000000000; 153008347317965200000000000000000; 141826336822866600000000000000000; 131033700172077700000000000000000;
  120635335234977200000000000000000; 110636084205767000000000000000000; 101040725621223200000000000000000; 91853965934329750000000000000000;
  83080430623572110000000000000000; 74724654816872840000000000000000; 66791073408234030000000000000000; 59284010644271300000000000000000;
  52207669156826950000000000000000; 45566118416938250000000000000000; 39363282584330450000000000000000; 33602927725593130000000000000000;
  28288648373067960000000000000000; 23423853395323300000000000000000; 19011751148896790000000000000000; 15055333879734580000000000000000;
  11557361341471010000000000000000; 8520343596330413000000000000000; 5946522963047144000000000000000; 3837855074730594000000000000000;
  2195989008103293000000000000000; 1022246443953951000000000000000; 317599817020567200000000000000; 0].

(** _neutrino/data/{charged,neutral}_rho_neutrino_{e,mu}.csv: column energy, the same in the four files *)
Definition rho_neutrino_energy : list Z := [
  51099894610000040; 51779974742972050; 52469105951113440; 53167408693702110; 53875005033188770; 54592018656533280; 55318574896825000;
  56054800755190900; 56800824922995140; 57556777804334160; 58322791538831210; 59099000024734130; 59885538942320630; 60682545777615020;
  61490159846420630; 62308522318671990; 63137776243111180; 63978066572292570; 64829540187920380; 65692345926523340; 66566634605471220;
  67452559049337460; 68350274116612720; 69259936726774000; 70181705887713900; 71115742723535040; 72062210502714360; 73021274666642240;
  73993102858541440; 74977864952770880; 75975733084519600; 76986881679895650; 78011487486415600; 79049729603899780; 80101789515778740;
  81167851120816290; 82248100765254770; 83342727275388170; 84451921990568730; 85575878796652780; 86714794159891790; 87868867161274430;
  89038299531325630; 90223295685368880; 91424062759257720; 92640810645582890; 93873752030361260; 95123102430213070; 96389080230033990;
  97671906721168510; 98971806140091420; 100289005707604000; 101623735668552100; 102976229332072500; 104346723112374800; 105735456570067100;
  107142672454030100; 108568616743849700; 110013538692813800; 111477690871481700; 112961329211832600; 114464713052002900; 115988105181617500;
  117531771887725500; 119095983001346800; 120681011944638100; 122287135778687000; 123914635251941400; 125563794849284800; 127234902841763200;
  128928251336974600; 130644136330129500; 132382857755790100; 134144719540298700; 135930029654903200; 137739100169590800; 139572247307636900;
  141429791500880800; 143312057445736500; 145219374159949700; 147152075040109300; 149110497919924800; 151094985129279200; 153105883554068000;
  155143544696834200; 157208324738210800; 159300584599180100; 161420690004163200; 163569011544947400; 165745924745465400; 167951810127436500;
  170187053276881300; 172452044911521700; 174747180949077600; 177072862576473300; 179429496319963900; 181817494116196200; 184237273384214100;
  186689257098423500; 189173873862527200; 191691557984444700; 194242749552228500; 196827894510990800; 199447444740854500; 202101858135940800;
  204791598684409300; 207517136549561500; 210278948152025700; 213077516253034100; 215913330038809500; 218786885206073700; 221698684048695200;
  224649235545489300; 227639055449187000; 230668666376588200; 233738597899914000; 236849386639375500; 240001576356974800; 243195718051552700;
  246432370055104100; 249712098130372700; 253035475569745800; 256403083295465800; 259815509961173300; 263273352054804600; 266777214002856000;
  270327708276037100; 273925455496329900; 277571084545472900; 281265232674888600; 285008545617074300; 288801677698475600; 292645291953861600;
  296540060242222500; 300486663364209900; 304485791181140000; 308538142735580000; 312644426373540500; 316805359868293000; 321021670545836100;
  325294095412031100; 329623381281429500; 334010284907815600; 338455573116485800; 342960022938289000; 347524421745450300; 352149567389203000;
  356836268339251900; 361585343825092400; 366397623979211900; 371273949982194300; 376215174209759000; 381222160381753800; 386295783713132600;
  391436931066942200; 396646501109344200; 401925404466701300; 407274563884753200; 412694914389911600; 418187403452701900; 423752991153379400;
  429392650349750400; 435107366847226500; 440898139571142300; 446765980741366000; 452711916049234500; 458736984836842400; 464842240278718900;
  471028749565919800; 477297594092572600; 483649869644901600; 490086686592771100; 496609170083776200; 503218460239916600; 509915712356889800;
  516702097106034200; 523578800738961500; 530547025294911600; 537607988810868700; 544762925534471300; 552013086139757500; 559359737945781700;
  566804165138140500; 574347668993445900; 581991568106787500; 589737198622220900; 597585914466324400; 605539087584864000; 613598108182606500;
  621764384966326800; 630039345391047400; 638424435909556800; 646921122225246100; 655530889548313100; 664255242855375200; 673095707152536600;
  682053827741959600; 691131170491978600; 700329322110813900; 709649890423925300; 719094504655059700; 728664815711035000; 738362496470317900;
  748189242075441200; 758146770229311300; 768236821495463000; 778461159602304900; 788821571751418600; 799319868929959000; 809957886227213400;
  820737483155370900; 831660543974564500; 842728978022236900; 853944720046889700; 865309730546277000; 876825996110095200; 888495529767238400;
  900320371337672800; 912302587788993700; 924444273597731600; 936747551115461100; 949214570939786400; 961847512290263200; 974648583389324600;
  987620021848273500; 1000764095058416000; 1014083100587397000; 1027579366580813000; 1041255252169172000; 1055113147880261000; 1069155476057010000;
  1083384691280916000; 1097803280801099000; 1112413764969068000; 1127218697679282000; 1142220666815559000; 1157422294703442000; 1172826238568576000;
  1188435191001184000; 1204251880426734000; 1220279071582860000; 1236519566002640000; 1252976202504293000; 1269651857687408000; 1286549446435766000;
  1303671922426858000; 1321022278648188000; 1338603547920439000; 1356418803427607000; 1374471159254193000; 1392763770929538000; 1411299835979406000;
  1430082594484909000; 1449115329648866000; 1468401368369706000; 1487944081823007000; 1507746886050769000; 1527813242558536000; 1548146658920460000;
  1568750689392428000; 1589628935533334000; 1610785046834630000; 1632222721358253000; 1653945706383039000; 1675957799059750000; 1698262847074799000;
  1720864749322833000; 1743767456588247000; 1766974972235779000; 1790491352910293000; 1814320709245877000; 1838467206584373000; 1862935065703476000;
  1887728563554524000; 1912852034010097000; 1938309868621575000; 1964106517386779000; 1990246489527821000; 2016734354279313000; 2043574741687061000;
  2070772343417394000; 2098331913577260000; 2126258269545236000; 2154556292813609000; 2183230929841639000; 2212287192920208000; 2241730161047954000;
  2271564980819080000; 2301796867322965000; 2332431105055760000; 2363473048844113000; 2394928124781178000; 2426801831175101000; 2459099739510108000;
  2491827495420394000; 2524990819676981000; 2558595509187690000; 2592647438010444000; 2627152558380039000; 2662116901748591000; 2697546579839821000;
  2733447785717389000; 2769826794867418000; 2806689966295452000; 2844043743637996000; 2881894656288861000; 2920249320540491000; 2959114440740484000;
  2998496810463500000; 3038403313698771000; 3078840926053425000; 3119816715971793000; 3161337845970976000; 3203411573892846000; 3246045254172703000;
  3289246339124822000; 3333022380245109000; 3377381029531094000; 3422330040819485000; 3467877271141543000; 3514030682096466000; 3560798341243070000;
  3608188423509995000; 3656209212624666000; 3704869102561282000; 3754176599008069000; 3804140320854066000; 3854769001695692000; 3906071491363382000;
  3958056757468505000; 4010733886970904000; 4064112087767285000; 4118200690300744000; 4173009149191716000; 4228547044890630000; 4284824085352565000;
  4341850107734180000; 4399635080113253000; 4458189103231066000; 4517522412258016000; 4577645378582711000; 4638568511624867000; 4700302460672353000;
  4762858016742661000; 4826246114469173000; 4890477834012515000; 4955564402997351000; 5021517198474982000; 5088347748912003000; 5156067736205493000;
  5224688997724986000; 5294223528381627000; 5364683482724874000; 5436081177067085000; 5508429091636422000; 5581739872758344000; 5656026335066189000;
  5731301463741156000; 5807578416782092000; 5884870527305498000; 5963191305876141000; 6042554442868680000; 6122973810860727000; 6204463467057775000;
  6287037655750346000; 6370710810803898000; 6455497558181844000; 6541412718502147000; 6628471309627953000; 6716688549292685000; 6806079857760092000;
  6896660860519684000; 6988447391018070000; 7081455493426590000; 7175701425445840000; 7271201661147492000; 7367972893853944000; 7466032039056286000;
  7565396237371111000; 7666082857536672000; 7768109499448909000; 7871493997237923000; 7976254422385303000; 8082409086883041000; 8189976546434434000;
  8298975603697592000; 8409425311572129000; 8521344976529578000; 8634754161988141000; 8749672691732347000; 8866120653378248000; 8984118401884668000;
  9103686563111253000; 9224846037423841000; 9347618003347813000; 9472023921270083000; 9598085537190339000; 9725824886522220000; 9855264297945068000;
  9986426397306994000; 10119334111579790000; 10254010672866560000; 10390479622462690000; 10528764814970790000; 10668890422470470000;
  10810880938743630000; 10954761183555840000; 11100556306994920000; 11248291793867080000; 11397993468151630000; 11549687497515000000;
  11703400397884820000; 11859159038084840000; 12016990644531610000; 12176922805993590000; 12338983478413630000; 12503200989795660000;
  12669604045156410000; 12838221731542920000; 13009083523117010000; 13182219286307290000; 13357659285029790000; 13535434185978020000;
  13715575063983510000; 13898113407447650000; 14083081123845790000; 14270510545304630000; 14460434434253900000; 14652885989153110000;
  14847898850294640000; 15045507105684020000; 15245745296998460000; 15448648425624700000; 15654251958777210000; 15862591835697800000;
  16073704473937760000; 16287626775723670000; 16504396134407720000; 16724050441004160000; 16946628090812520000; 17172167990129100000;
  17400709563047710000; 17632292758350990000; 17866958056493390000; 18104746476677060000; 18345699584022090000; 18589859496831870000;
  18837268893955410000; 19087971022247540000; 19342009704128410000; 19599429345243590000; 19860274942226100000; 20124592090561790000;
  20392426992559360000; 20663826465426530000; 20938837949453500000; 21217509516305550000; 21499889877425910000; 21786028392550400000;
  22075975078335500000; 22369780617101200000; 22667496365690150000; 22969174364444830000; 23274867346304170000; 23584628746021080000;
  23898512709502890000; 24216574103275930000; 24538868524076150000; 24865452308567370000; 25196382543188840000; 25531717074133880000;
  25871514517461320000; 26215834269341570000; 26564736516438900000; 26918282246432070000; 27276533258674840000; 27639552174998490000;
  28007402450657990000; 28380148385423900000; 28757855134821920000; 29140588721521960000; 29528416046878820000; 29921404902626560000;
  30319623982728250000; 30723142895383700000; 31132032175196840000; 31546363295505130000; 31966208680872950000; 32391641719751370000;
  32822736777306320000; 33259569208417550000; 33702215370850650000; 34150752638604110000; 34605259415434350000; 35065815148560540000;
  35532500342551880000; 36005396573399720000; 36484586502776900000; 36970153892486970000; 37462183619105550000].

(** _neutrino/data/charged_rho_neutrino_e.csv: column pi_pi, the only one *)
Definition charged_rho_neutrino_e : list Z := [
  11812644584698760000000000000000; 12122978102151710000000000000000; 12441376741145780000000000000000; 12768046481736260000000000000000;
  13103198413583340000000000000000; 13447048856290990000000000000000; 13799819482299600000000000000000; 14161737442373960000000000000000;
  14533035493727760000000000000000; 14913952130825970000000000000000; 15304731718906170000000000000000; 15705624630260040000000000000000;
  16116887383315870000000000000000; 16538782784562450000000000000000; 16971580073355260000000000000000; 17415555069644160000000000000000;
  17870990324662790000000000000000; 18338175274618260000000000000000; 18817406397419770000000000000000; 19308987372483780000000000000000;
  19813229243652880000000000000000; 20330450585264440000000000000000; 20860977671404190000000000000000; 21405144648379050000000000000000;
  21963293710442100000000000000000; 22535775278801490000000000000000; 23122948183943640000000000000000; 23725179851299540000000000000000;
  24342846490281310000000000000000; 24976333286714520000000000000000; 25626034598689540000000000000000; 26292354155853450000000000000000;
  26975705262161270000000000000000; 27676511002103530000000000000000; 28395204450423770000000000000000; 29132228885337390000000000000000;
  29888038005259820000000000000000; 30663096149048920000000000000000; 31457878519763070000000000000000; 32272871411932390000000000000000;
  33108572442337270000000000000000; 33965490784282980000000000000000; 34844147405355990000000000000000; 35745075308641950000000000000000;
  36668819777379990000000000000000; 37615938623023640000000000000000; 38587002436671700000000000000000; 39582594843826960000000000000000;
  40603312762434140000000000000000; 41649766664141130000000000000000; 42722580838720770000000000000000; 43822393661582450000000000000000;
  44949857864294600000000000000000; 46105640808030680000000000000000; 47290424759841780000000000000000; 48504907171649970000000000000000;
  49749800961845010000000000000000; 51025834799358200000000000000000; 52333753390073440000000000000000; 53674317765425910000000000000000;
  55048305573024030000000000000000; 56456511369118290000000000000000; 57899746912726400000000000000000; 59378841461208540000000000000000;
  60894642067071480000000000000000; 62448013875764380000000000000000; 64039840424210070000000000000000; 65671023939799610000000000000000;
  67342485639556810000000000000000; 69055166029160450000000000000000; 70810025201489790000000000000000; 72608043134338180000000000000000;
  74450219986913630000000000000000; 76337576394723390000000000000000; 78271153762411630000000000000000; 80252014554093100000000000000000;
  82281242580696960000000000000000; 84359943283804740000000000000000; 86489244015435220000000000000000; 88670294313196200000000000000000;
  90904266170187550000000000000000; 93192354299005190000000000000000; 95535776389155430000000000000000; 97935773357152050000000000000000;
  100393609588522600000000000000000; 102910573170910500000000000000000; 105487976117411600000000000000000; 108127154579234300000000000000000;
  110829469046724500000000000000000; 113596304537741500000000000000000; 116429070772317000000000000000000; 119329202332469100000000000000000;
  122298158805985700000000000000000; 125337424912922600000000000000000; 128448510613502000000000000000000; 131632951196019800000000000000000;
  134892307343302100000000000000000; 138228165176172800000000000000000; 141642136272312700000000000000000; 145135857658810800000000000000000;
  148710991776614300000000000000000; 152369226414998800000000000000000; 156112274614078900000000000000000; 159941874533281600000000000000000;
  163859789283598500000000000000000; 167867806721324100000000000000000; 171967739200871300000000000000000; 176161423284135100000000000000000;
  180450719403751400000000000000000; 184837511477463200000000000000000; 189323706470673200000000000000000; 193911233904114200000000000000000;
  198602045303422300000000000000000; 203398113587237500000000000000000; 208301432390295000000000000000000; 213314015317799400000000000000000;
  218437895127191300000000000000000; 223675122833234300000000000000000; 229027766732150900000000000000000; 234497911340333700000000000000000;
  240087656242943200000000000000000; 245799114847484800000000000000000; 251634413037220700000000000000000; 257595687719030800000000000000000;
  263685085260086100000000000000000; 269904759807428900000000000000000; 276256871484280300000000000000000; 282743584456605300000000000000000;
  289367064863167100000000000000000; 296129478601982500000000000000000; 303032988965768400000000000000000; 310079754118620200000000000000000;
  317271924405807400000000000000000; 324611639488202500000000000000000; 332101025292459200000000000000000; 339742190767660400000000000000000;
  347537224438720800000000000000000; 355488190746399800000000000000000; 363597126163297300000000000000000; 371866035074746600000000000000000;
  380296885412993800000000000000000; 388891604032542500000000000000000; 397652071813986800000000000000000; 406580118483082600000000000000000;
  415677517131221900000000000000000; 424945978422835100000000000000000; 434387144474612500000000000000000; 444002582390752900000000000000000;
  453793777437734100000000000000000; 463762125841381600000000000000000; 473908927188220700000000000000000; 484235376412317000000000000000000;
  494742555347955800000000000000000; 505431423827656900000000000000000; 516302810304097900000000000000000; 527357401973580600000000000000000;
  538595734377682200000000000000000; 550018180458705000000000000000000; 561624939043462400000000000000000; 573416022728818700000000000000000;
  585391245141235300000000000000000; 597550207541349400000000000000000; 609892284743355400000000000000000; 622416610317625400000000000000000;
  635122061043621800000000000000000; 648007240578734500000000000000000; 661070462307154300000000000000000; 674309731331347300000000000000000;
  687722725567053900000000000000000; 701306775901052800000000000000000; 715058845369138100000000000000000; 728975507309938600000000000000000;
  743052922448266900000000000000000; 757286814859683100000000000000000; 771672446765888500000000000000000; 786204592108352900000000000000000;
  800877508845351100000000000000000; 815684909915189600000000000000000; 830619932805951900000000000000000; 845675107669525100000000000000000;
  860842323914996600000000000000000; 876112795213713400000000000000000; 891477022845403200000000000000000; 906924757311717800000000000000000;
  922444958140415800000000000000000; 938025751800114100000000000000000; 953654387642105900000000000000000; 969317191782185400000000000000000;
  984999518831696100000000000000000; 1000685701383155000000000000000000; 1016358997151762000000000000000000; 1032001533669912000000000000000000;
  1047594250427429000000000000000000; 1063116838345720000000000000000000; 1078547676469243000000000000000000; 1093863765752786000000000000000000;
  1109040659817877000000000000000000; 1124052392546278000000000000000000; 1138871402372979000000000000000000; 1153468453135324000000000000000000;
  1167812551329067000000000000000000; 1181870859616667000000000000000000; 1195608606432007000000000000000000; 1208989214533845000000000000000000;
  1221987437315447000000000000000000; 1234598314235864000000000000000000; 1246818823731979000000000000000000; 1258646155494242000000000000000000;
  1270077762418763000000000000000000; 1281111347034301000000000000000000; 1291744877040946000000000000000000; 1301976605000589000000000000000000;
  1311805155747486000000000000000000; 1321229410731410000000000000000000; 1330248651657512000000000000000000; 1338877627221862000000000000000000;
  1347071307940414000000000000000000; 1354875345161996000000000000000000; 1362275728518535000000000000000000; 1369273974076965000000000000000000;
  1375872148674721000000000000000000; 1382072871743708000000000000000000; 1387879461995198000000000000000000; 1393295742519752000000000000000000;
  1398326336505978000000000000000000; 1402976581410787000000000000000000; 1407252543114274000000000000000000; 1411161237684012000000000000000000;
  1414710230710463000000000000000000; 1417908452956122000000000000000000; 1420765530116255000000000000000000; 1423292174934514000000000000000000;
  1425500206771268000000000000000000; 1427402594694228000000000000000000; 1429013513320124000000000000000000; 1430348436705798000000000000000000;
  1431424186244151000000000000000000; 1432259036982741000000000000000000; 1432872713674737000000000000000000; 1433286613866444000000000000000000;
  1433523739438577000000000000000000; 1433608898221297000000000000000000; 1433568732558654000000000000000000; 1433431923159059000000000000000000;
  1433229026137266000000000000000000; 1433128969138468000000000000000000; 1432883800270988000000000000000000; 1432632259215708000000000000000000;
  1432374134174794000000000000000000; 1432109293077851000000000000000000; 1431837557047887000000000000000000; 1431558754819737000000000000000000;
  1431272634226641000000000000000000; 1430979151240920000000000000000000; 1430677970766201000000000000000000; 1430368978307250000000000000000000;
  1430051958765431000000000000000000; 1429731164867435000000000000000000; 1429393001167990000000000000000000; 1429050629248012000000000000000000;
  1428699377423827000000000000000000; 1428339020728684000000000000000000; 1427969582690291000000000000000000; 1427590037295504000000000000000000;
  1427200944665401000000000000000000; 1426801765777273000000000000000000; 1426392251611902000000000000000000; 1425972178370625000000000000000000;
  1425541234624152000000000000000000; 1425099145797193000000000000000000; 1424645666574778000000000000000000; 1424180473790834000000000000000000;
  1423703243702345000000000000000000; 1423213798172923000000000000000000; 1422711705875923000000000000000000; 1422196680019983000000000000000000;
  1421668394932242000000000000000000; 1421126548112475000000000000000000; 1420570756253912000000000000000000; 1420000707312078000000000000000000;
  1419416007178751000000000000000000; 1418816323326672000000000000000000; 1418201257595891000000000000000000; 1417570386920710000000000000000000;
  1416923475288529000000000000000000; 1416259949867446000000000000000000; 1415579468467993000000000000000000; 1414881613347245000000000000000000;
  1414165915509712000000000000000000; 1413432022015295000000000000000000; 1412679382632614000000000000000000; 1411907491376923000000000000000000;
  1411116011758082000000000000000000; 1410304408794114000000000000000000; 1409472174625701000000000000000000; 1408618785423868000000000000000000;
  1407743776730741000000000000000000; 1406846582563034000000000000000000; 1405926647424530000000000000000000; 1404983393000843000000000000000000;
  1404016361058039000000000000000000; 1403025005115607000000000000000000; 1402008356781493000000000000000000; 1400966158051240000000000000000000;
  1399897683470562000000000000000000; 1398802388753139000000000000000000; 1397679517321946000000000000000000; 1396528429717060000000000000000000;
  1395348455314827000000000000000000; 1394138885464250000000000000000000; 1392899013448645000000000000000000; 1391628131224608000000000000000000;
  1390325475941981000000000000000000; 1388990299710256000000000000000000; 1387621814315164000000000000000000; 1386219232882028000000000000000000;
  1384781764639365000000000000000000; 1383308559818034000000000000000000; 1381798779402582000000000000000000; 1380251572257137000000000000000000;
  1378666145519552000000000000000000; 1377041323388369000000000000000000; 1375376404284747000000000000000000; 1373670439190749000000000000000000;
  1371922462771368000000000000000000; 1370131476185050000000000000000000; 1368296470900411000000000000000000; 1366416442687188000000000000000000;
  1364490330086628000000000000000000; 1362517157200555000000000000000000; 1360495746145585000000000000000000; 1358425042552940000000000000000000;
  1356303890444208000000000000000000; 1354131170229844000000000000000000; 1351905698495361000000000000000000; 1349626299519949000000000000000000;
  1347291748688168000000000000000000; 1344900790271821000000000000000000; 1342452192187383000000000000000000; 1339944644568100000000000000000000;
  1337376875478058000000000000000000; 1334747463511721000000000000000000; 1332055130910076000000000000000000; 1329298576824564000000000000000000;
  1326476235524923000000000000000000; 1323586729683838000000000000000000; 1320628603033668000000000000000000; 1317600371437759000000000000000000;
  1314500540193402000000000000000000; 1311327545727937000000000000000000; 1308079879943422000000000000000000; 1304755945250003000000000000000000;
  1301354116647917000000000000000000; 1297872753817703000000000000000000; 1294310184183339000000000000000000; 1290664755208934000000000000000000;
  1286934639707098000000000000000000; 1283118413437571000000000000000000; 1279214000503437000000000000000000; 1275219719845519000000000000000000;
  1271133759813703000000000000000000; 1266954272986460000000000000000000; 1262679425754098000000000000000000; 1258307312601171000000000000000000;
  1253836038255053000000000000000000; 1249263667120999000000000000000000; 1244588218002856000000000000000000; 1239807806543435000000000000000000;
  1234920444758180000000000000000000; 1229923864426947000000000000000000; 1224816325614282000000000000000000; 1219595672417571000000000000000000;
  1214259814434892000000000000000000; 1208806688726954000000000000000000; 1203234206371897000000000000000000; 1197540210952659000000000000000000;
  1191722596915754000000000000000000; 1185779222197261000000000000000000; 1179707933078918000000000000000000; 1173506569019790000000000000000000;
  1167172909491571000000000000000000; 1160704950721215000000000000000000; 1154100349190296000000000000000000; 1147356985389817000000000000000000;
  1140472696491437000000000000000000; 1133445308809102000000000000000000; 1126272639311070000000000000000000; 1118952613956686000000000000000000;
  1111482994737027000000000000000000; 1103861727991955000000000000000000; 1096086678968651000000000000000000; 1088155780918490000000000000000000;
  1080066974804204000000000000000000; 1071818239789682000000000000000000; 1063407600220136000000000000000000; 1054833105623284000000000000000000;
  1046092837605423000000000000000000; 1037184959698180000000000000000000; 1028107670788497000000000000000000; 1018859233500220000000000000000000;
  1009437975598713000000000000000000; 999842312759740600000000000000000; 990070708231559000000000000000000; 980121727296392000000000000000000;
  969994075216044700000000000000000; 959686491635311800000000000000000; 949197852735246200000000000000000; 938527195895792400000000000000000;
  927673557764584400000000000000000; 916636290017489200000000000000000; 905414804411408700000000000000000; 894008614135949000000000000000000;
  882417599316038700000000000000000; 870641420987845600000000000000000; 858680460102660300000000000000000; 846534959948072900000000000000000;
  834205483365717400000000000000000; 821692820073549800000000000000000; 808998017162769500000000000000000; 796122386295770500000000000000000;
  783067542812904300000000000000000; 769835369896435900000000000000000; 756428110905278200000000000000000; 742848321989221200000000000000000;
  729098964111717200000000000000000; 715183327554316700000000000000000; 701105125893814300000000000000000; 686868555522460900000000000000000;
  672478184346857700000000000000000; 657939090135947800000000000000000; 643256972099684600000000000000000; 628438015950950200000000000000000;
  613488519192085000000000000000000; 598416222205984400000000000000000; 583228925682255200000000000000000; 567935226475145700000000000000000;
  552544437213864200000000000000000; 537066615449896600000000000000000; 521512593158481100000000000000000; 505893924214609200000000000000000;
  490223403083908700000000000000000; 474514182404981800000000000000000; 458780785061636400000000000000000; 443038566607343500000000000000000;
  427304018510146500000000000000000; 411594716785535500000000000000000; 395929413835603700000000000000000; 380328103968824000000000000000000;
  364812080517009100000000000000000; 349403973700509800000000000000000; 334127878503121000000000000000000; 319009372163845400000000000000000;
  304075630219741500000000000000000; 289355436329921300000000000000000; 274879369036592900000000000000000; 260679778049444000000000000000000;
  246791015125169200000000000000000; 233249303374863400000000000000000; 220084750945059500000000000000000; 207304709410376200000000000000000;
  194912194951755500000000000000000; 182909939879415300000000000000000; 171300548719733000000000000000000; 160086298918493600000000000000000;
  149269222953009200000000000000000; 138851052658526200000000000000000; 128833212810292300000000000000000; 119216782245799800000000000000000;
  110002500491853600000000000000000; 101190690070223300000000000000000; 92781280112325590000000000000000; 84773753848035300000000000000000;
  77167117094798570000000000000000; 69959896765253530000000000000000; 63150051198359910000000000000000; 56734991335724780000000000000000;
  50711517001964510000000000000000; 45075787842813560000000000000000; 39823271321805640000000000000000; 34948721265261830000000000000000;
  30446130160092930000000000000000; 26308647137406170000000000000000; 22528582620967450000000000000000; 19097324851427400000000000000000;
  16005300942280230000000000000000; 13241892685871700000000000000000; 10795467645813580000000000000000; 8653161502629233000000000000000;
  6800961504389668000000000000000; 5223564763695335000000000000000; 3904330542461222000000000000000; 2825199637185373000000000000000;
  1966609530886594000000000000000; 1307439019313955000000000000000; 824889604420008100000000000000; 136052032651452400000000000000;
  136052032651452400000000000000; 136052032651452400000000000000; 136052032651452400000000000000; 136052032651452400000000000000].

(** _neutrino/data/charged_rho_neutrino_mu.csv: column pi_pi, the only one *)
Definition charged_rho_neutrino_mu : list Z := [
  5981885958357668000000000000000; 6140108081074460000000000000000; 6302486332804109000000000000000; 6469128701767842000000000000000;
  6640145933179783000000000000000; 6815651597595985000000000000000; 6995762160871384000000000000000; 7180597055758685000000000000000;
  7370278755183734000000000000000; 7564932847232588000000000000000; 7764688111885906000000000000000; 7969676599536863000000000000000;
  8180033711329436000000000000000; 8395898281354254000000000000000; 8617412660739965000000000000000; 8844722803678363000000000000000;
  9077978355422294000000000000000; 9317332742295642000000000000000; 9562943263755454000000000000000; 9814971186546444000000000000000;
  10073581840989000000000000000000; 10338944719441980000000000000000; 10611233576982180000000000000000; 10890626534342930000000000000000;
  11177306183154340000000000000000; 11471459693528770000000000000000; 11773278924034860000000000000000; 12082960534104180000000000000000;
  12400706098915020000000000000000; 12726722226797890000000000000000; 13061220679207930000000000000000; 13404418493309440000000000000000;
  13756538107218190000000000000000; 14117807487947510000000000000000; 14488460262103950000000000000000; 14868735849378950000000000000000;
  15258879598882820000000000000000; 15659142928367340000000000000000; 16069783466383710000000000000000; 16491065197421980000000000000000;
  16923258610078810000000000000000; 17366640848299400000000000000000; 17821495865740050000000000000000; 18288114583297190000000000000000;
  18766795049848400000000000000000; 19257842606250700000000000000000; 19761570052641060000000000000000; 20278297819083120000000000000000;
  20808354139604150000000000000000; 21352075229664990000000000000000; 21909805467105280000000000000000; 22481897576605340000000000000000;
  23068712817704960000000000000000; 23670621176418470000000000000000; 24288001560483960000000000000000; 24921241998283430000000000000000;
  25570739841469140000000000000000; 26236901971329620000000000000000; 26920145008927250000000000000000; 27620895529037350000000000000000;
  28339590277916750000000000000000; 29076676394927120000000000000000; 29832611638036550000000000000000; 30607864613219980000000000000000;
  31402915007775710000000000000000; 32218253827573450000000000000000; 33054383638244680000000000000000; 33911818810323680000000000000000;
  34791085768343210000000000000000; 35692723243885340000000000000000; 36617282532582870000000000000000; 37565327755063490000000000000000;
  38537436121822240000000000000000; 39534198202004520000000000000000; 40556218196074840000000000000000; 41604114212341460000000000000000;
  42678518547300950000000000000000; 43780077969759090000000000000000; 44909454008678960000000000000000; 46067323244698250000000000000000;
  47254377605250730000000000000000; 48471324663218530000000000000000; 49718887939032040000000000000000; 50997807206126290000000000000000;
  52308838799651510000000000000000; 53652755928325820000000000000000; 55030348989306560000000000000000; 56442425885945500000000000000000;
  57889812348279940000000000000000; 59373352256099730000000000000000; 60893907964416040000000000000000; 62452360631142530000000000000000;
  64049610546785800000000000000000; 65686577465923910000000000000000; 67364200940237130000000000000000; 69083440652834480000000000000000;
  70845276753603500000000000000000; 72650710195288550000000000000000; 74500763069983860000000000000000; 76396478945704570000000000000000;
  78338923202675780000000000000000; 80329183368956850000000000000000; 82368369454990160000000000000000; 84457614286639810000000000000000;
  86598073836254570000000000000000; 88790927551261790000000000000000; 91037378679767730000000000000000; 93338654592605480000000000000000;
  95696007101240090000000000000000; 98110712770901950000000000000000; 100584073228283500000000000000000; 103117415463093500000000000000000;
  105712092122723500000000000000000; 108369481799234400000000000000000; 111090989307829200000000000000000; 113878045955926500000000000000000;
  116732109801901400000000000000000; 119654665902507800000000000000000; 122647226547939200000000000000000; 125711331483429100000000000000000;
  128848548116230800000000000000000; 132060471706752600000000000000000; 135348725542559300000000000000000; 138714961093879800000000000000000;
  142160858149187700000000000000000; 145688124929347700000000000000000; 149298498178739000000000000000000; 152993743231680400000000000000000;
  156775654052403700000000000000000; 160646053246716400000000000000000; 164606792043413400000000000000000; 168659750243386600000000000000000;
  172806836134279900000000000000000; 177049986368430700000000000000000; 181391165801717000000000000000000; 185832367290817400000000000000000;
  190375611446257300000000000000000; 195022946338492800000000000000000; 199776447154135800000000000000000; 204638215799290500000000000000000;
  209610380446813700000000000000000; 214695095024160000000000000000000; 219894538638304900000000000000000; 225210914934069600000000000000000;
  230646451381993000000000000000000; 236203398491706900000000000000000; 241884028946576800000000000000000; 247690636655165600000000000000000;
  253625535714864900000000000000000; 259691059282813700000000000000000; 265889558348993600000000000000000; 272223400406147000000000000000000;
  278694968010903800000000000000000; 285306657230251000000000000000000; 292060875967182500000000000000000; 298960042159098500000000000000000;
  306006581842203600000000000000000; 313202927074847400000000000000000; 320551513712421400000000000000000; 328054779026074700000000000000000;
  335715159157162900000000000000000; 343535086398957600000000000000000; 351516986296764900000000000000000; 359663274557183800000000000000000;
  367976353756809200000000000000000; 376458609840248400000000000000000; 385112408396844900000000000000000; 393940090705023100000000000000000;
  402943969532663800000000000000000; 412126324681391000000000000000000; 421489398262094200000000000000000; 431035389688450100000000000000000;
  440766450374592100000000000000000; 450684678122459100000000000000000; 460792111183705400000000000000000; 471090721980362700000000000000000;
  481582410467746900000000000000000; 492268997122353300000000000000000; 503152215536713600000000000000000; 514233704602383800000000000000000;
  525515000261391600000000000000000; 1832303166339078000000000000000000; 1843988227235956000000000000000000; 1855876995458455000000000000000000;
  1867970503295427000000000000000000; 1880269631618247000000000000000000; 1892775098578072000000000000000000; 1905487447707070000000000000000000;
  1918407035395799000000000000000000; 1931534017717665000000000000000000; 1944868336570114000000000000000000; 1958409705100874000000000000000000;
  1972157592386159000000000000000000; 1986111207326296000000000000000000; 2000269481722664000000000000000000; 2014631052498198000000000000000000;
  2029194243021942000000000000000000; 2043957043495999000000000000000000; 2058917090360590000000000000000000; 2074071644668270000000000000000000;
  2089417569366418000000000000000000; 2104951305375484000000000000000000; 2120668845887488000000000000000000; 2136540979219327000000000000000000;
  2152236164719762000000000000000000; 2167647787819714000000000000000000; 2182770705258962000000000000000000; 2197599724411087000000000000000000;
  2212129647648111000000000000000000; 2226355233420578000000000000000000; 2240271126288040000000000000000000; 2253872159333844000000000000000000;
  2267152875375758000000000000000000; 2280108067866544000000000000000000; 2292731599112626000000000000000000; 2305020217484332000000000000000000;
  2316966477173998000000000000000000; 2328565724065018000000000000000000; 2339812628371256000000000000000000; 2350701822852680000000000000000000;
  2361228037242631000000000000000000; 2371385941255154000000000000000000; 2381163935539445000000000000000000; 2390576224307079000000000000000000;
  2399598222786755000000000000000000; 2408231264767792000000000000000000; 2416470462806699000000000000000000; 2424310914026764000000000000000000;
  2431747771754835000000000000000000; 2438776347652852000000000000000000; 2445392121110690000000000000000000; 2451590508656105000000000000000000;
  2457367353512417000000000000000000; 2462718465204187000000000000000000; 2467639944725293000000000000000000; 2472127990553310000000000000000000;
  2476179077403260000000000000000000; 2479789912947388000000000000000000; 2482957396346439000000000000000000; 2485678784348306000000000000000000;
  2487951569411051000000000000000000; 2489773584919184000000000000000000; 2491142987696610000000000000000000; 2492058306604366000000000000000000;
  2492518466891187000000000000000000; 2492534025684984000000000000000000; 2492409326928181000000000000000000; 2492281315503800000000000000000000;
  2492149966268297000000000000000000; 2492015155171597000000000000000000; 2491876808016139000000000000000000; 2491734804914166000000000000000000;
  2491589009119542000000000000000000; 2491439514194267000000000000000000; 2491286022687571000000000000000000; 2491128503275761000000000000000000;
  2490966839325933000000000000000000; 2490800932455613000000000000000000; 2490630663863632000000000000000000; 2490455804186153000000000000000000;
  2490276616441035000000000000000000; 2490092600992756000000000000000000; 2489903744700655000000000000000000; 2489709995089993000000000000000000;
  2489511069874421000000000000000000; 2489306976192584000000000000000000; 2489097542725142000000000000000000; 2488882596931153000000000000000000;
  2488662080345909000000000000000000; 2488436067102601000000000000000000; 2488203527723980000000000000000000; 2487965224586805000000000000000000;
  2487720684378648000000000000000000; 2487469760842005000000000000000000; 2487212272187389000000000000000000; 2486948069187125000000000000000000;
  2486676963665065000000000000000000; 2486398786101073000000000000000000; 2486113361094537000000000000000000; 2485820427756780000000000000000000;
  2485519980206495000000000000000000; 2485211643840991000000000000000000; 2484895329337517000000000000000000; 2484570669403176000000000000000000;
  2484237609680803000000000000000000; 2483895926794741000000000000000000; 2483545006312011000000000000000000; 2483185602164512000000000000000000;
  2482816553606987000000000000000000; 2482437918657011000000000000000000; 2482049457190217000000000000000000; 2481651295925697000000000000000000;
  2481242045499078000000000000000000; 2480822571716382000000000000000000; 2480392236086827000000000000000000; 2479950760883130000000000000000000;
  2479497853703264000000000000000000; 2479033239111705000000000000000000; 2478556609767363000000000000000000; 2478067660409192000000000000000000;
  2477566366209708000000000000000000; 2477051553871851000000000000000000; 2476523751770668000000000000000000; 2475982297780507000000000000000000;
  2475426787946124000000000000000000; 2474857352773350000000000000000000; 2474273031555652000000000000000000; 2473673669681772000000000000000000;
  2473058910843499000000000000000000; 2472428358700143000000000000000000; 2471781629494745000000000000000000; 2471118255486914000000000000000000;
  2470437902607767000000000000000000; 2469740097041579000000000000000000; 2469024396660301000000000000000000; 2468290442301294000000000000000000;
  2467537683771119000000000000000000; 2466765683476227000000000000000000; 2465972680537938000000000000000000; 2465161977990120000000000000000000;
  2464329387691400000000000000000000; 2463475535996706000000000000000000; 2462599932840312000000000000000000; 2461702047281032000000000000000000;
  2460781398111243000000000000000000; 2459837207410318000000000000000000; 2458869134728598000000000000000000; 2457876492108282000000000000000000;
  2456858696192747000000000000000000; 2455815119602561000000000000000000; 2454745145137874000000000000000000; 2453648108619606000000000000000000;
  2452523364317075000000000000000000; 2451370252435698000000000000000000; 2450188041994248000000000000000000; 2448976063173392000000000000000000;
  2447733601514846000000000000000000; 2446459864168556000000000000000000; 2445154387471053000000000000000000; 2443815685360232000000000000000000;
  2442443667274054000000000000000000; 2441036990521150000000000000000000; 2439591282192918000000000000000000; 2438118164559916000000000000000000;
  2436603643310167000000000000000000; 2435051419708577000000000000000000; 2433460632544729000000000000000000; 2431830223598759000000000000000000;
  2430159252797500000000000000000000; 2428446833845615000000000000000000; 2426691975990099000000000000000000; 2424893786286608000000000000000000;
  2423050920699747000000000000000000; 2421162658036769000000000000000000; 2419227847412365000000000000000000; 2417245398783732000000000000000000;
  2415214132167160000000000000000000; 2413132973069824000000000000000000; 2411000874833551000000000000000000; 2408816538395301000000000000000000;
  2406578732624397000000000000000000; 2404286323970239000000000000000000; 2401938010984660000000000000000000; 2399532546712822000000000000000000;
  2397069093029470000000000000000000; 2394544906677137000000000000000000; 2391960077546960000000000000000000; 2389312731311076000000000000000000;
  2386601471054644000000000000000000; 2383824872058135000000000000000000; 2380981491409670000000000000000000; 2378069835294296000000000000000000;
  2375088374293307000000000000000000; 2372037385748802000000000000000000; 2368909921535086000000000000000000; 2365709825377887000000000000000000;
  2362433612152789000000000000000000; 2359079636052733000000000000000000; 2355646244270700000000000000000000; 2352131708533533000000000000000000;
  2348534322011183000000000000000000; 2344852307431787000000000000000000; 2341083876561363000000000000000000; 2337227201454862000000000000000000;
  2333280451909507000000000000000000; 2329243384313743000000000000000000; 2325109139493867000000000000000000; 2320880683529726000000000000000000;
  2316554588470731000000000000000000; 2312128652100742000000000000000000; 2307600950978281000000000000000000; 2302969419690439000000000000000000;
  2298231994547039000000000000000000; 2293386559513490000000000000000000; 2288430997960172000000000000000000; 2283363161330049000000000000000000;
  2278180848318200000000000000000000; 2272881880176583000000000000000000; 2267464016885922000000000000000000; 2261925013579363000000000000000000;
  2256262578360033000000000000000000; 2250474435216052000000000000000000; 2244558261168347000000000000000000; 2238511724393403000000000000000000;
  2232332457525700000000000000000000; 2226018101561301000000000000000000; 2219566273495390000000000000000000; 2212974558831153000000000000000000;
  2206240563102727000000000000000000; 2199361881154123000000000000000000; 2192335973919209000000000000000000; 2185160519628793000000000000000000;
  2177833037046916000000000000000000; 2170351103152855000000000000000000; 2162712209085142000000000000000000; 2154913927182482000000000000000000;
  2146953917185114000000000000000000; 2138829656949774000000000000000000; 2130538726555114000000000000000000; 2122078789125203000000000000000000;
  2113447383874211000000000000000000; 2104642231608710000000000000000000; 2095660951240026000000000000000000; 2086501221775291000000000000000000;
  2077160909172128000000000000000000; 2067637654512413000000000000000000; 2057929477019566000000000000000000; 2048033832711757000000000000000000;
  2037949067730091000000000000000000; 2027673054253670000000000000000000; 2017203883003009000000000000000000; 2006539603702298000000000000000000;
  1995678570721934000000000000000000; 1984619041163860000000000000000000; 1973359480382659000000000000000000; 666592753257864100000000000000000;
  654929103546407100000000000000000; 643060770676628500000000000000000; 630987573303718400000000000000000; 618708290050093900000000000000000;
  606222137043972700000000000000000; 593528522313716300000000000000000; 580627056233860000000000000000000; 567517407750806500000000000000000;
  554199696151397500000000000000000; 540674077659982500000000000000000; 526941030830625800000000000000000; 513001247813961600000000000000000;
  498855731096068500000000000000000; 484505680140784100000000000000000; 469952861602976600000000000000000; 455199024143777400000000000000000;
  440247146870474800000000000000000; 425097910721749600000000000000000; 409756150847477600000000000000000; 394224848606530500000000000000000;
  378507801882264200000000000000000; 362612225237764100000000000000000; 346814291780029800000000000000000; 331297723856281600000000000000000;
  316067594245371600000000000000000; 301129062578887800000000000000000; 286487316407230700000000000000000; 272147563618157700000000000000000;
  258115009202816900000000000000000; 244394939281090100000000000000000; 230992725375348800000000000000000; 217913423118283500000000000000000;
  205162581950414000000000000000000; 192745496782236400000000000000000; 180667328348299600000000000000000; 168933557193987500000000000000000;
  157549430988185800000000000000000; 146520255856727000000000000000000; 135851268396892200000000000000000; 125547738427044700000000000000000;
  115614864386561700000000000000000; 106057767796653900000000000000000; 96881578597328730000000000000000; 88091318508330250000000000000000;
  79691950343567090000000000000000; 71688335346108100000000000000000; 64085267731314440000000000000000; 56887423274504840000000000000000;
  50099292148380300000000000000000; 43725382574178990000000000000000; 37769923015468890000000000000000; 32236981153102610000000000000000;
  27130538908205180000000000000000; 22454319824348190000000000000000; 18211852037460290000000000000000; 14406335066991700000000000000000;
  11041065026461920000000000000000; 8118579627338615000000000000000; 5641460312096320000000000000000; 0; 0; 0; 0; 0].

(** _neutrino/data/neutral_rho_neutrino_e.csv: column pi_pi0, the only one *)
Definition neutral_rho_neutrino_e : list Z := [
  5906322292349380000000000000000; 6061489051075854000000000000000; 6220688370572892000000000000000; 6384023240868129000000000000000;
  6551599206791672000000000000000; 6723524428145496000000000000000; 6899909741149800000000000000000; 7080868721186978000000000000000;
  7266517746863882000000000000000; 7456976065412984000000000000000; 7652365859453083000000000000000; 7852812315130022000000000000000;
  8058443691657933000000000000000; 8269391392281226000000000000000; 8485790036677631000000000000000; 8707777534822081000000000000000;
  8935495162331395000000000000000; 9169087637309132000000000000000; 9408703198709885000000000000000; 9654493686241890000000000000000;
  9906614621826441000000000000000; 10165225292632220000000000000000; 10430488835702100000000000000000; 10702572324189530000000000000000;
  10981646855221050000000000000000; 11267887639400740000000000000000; 11561474091971820000000000000000; 11862589925649770000000000000000;
  12171423245140660000000000000000; 12488166643357260000000000000000; 12813017299344770000000000000000; 13146177077926720000000000000000;
  13487852631080630000000000000000; 13838255501051770000000000000000; 14197602225211880000000000000000; 14566114442668700000000000000000;
  14944019002629910000000000000000; 15331548074524460000000000000000; 15728939259881540000000000000000; 16136435705966200000000000000000;
  16554286221168640000000000000000; 16982745392141490000000000000000; 17422073702677990000000000000000; 17872537654320970000000000000000;
  18334409888689990000000000000000; 18807969311511820000000000000000; 19293501218335850000000000000000; 19791297421913480000000000000000;
  20301656381217070000000000000000; 20824883332070560000000000000000; 21361290419360390000000000000000; 21911196830791230000000000000000;
  22474928932147300000000000000000; 23052820404015340000000000000000; 23645212379920890000000000000000; 24252453585824980000000000000000;
  24874900480922510000000000000000; 25512917399679100000000000000000; 26166876695036720000000000000000; 26837158882712960000000000000000;
  27524152786512020000000000000000; 28228255684559150000000000000000; 28949873456363200000000000000000; 29689420730604270000000000000000;
  30447321033535740000000000000000; 31224006937882190000000000000000; 32019920212105030000000000000000; 32835511969899810000000000000000;
  33671242819778410000000000000000; 34527583014580220000000000000000; 35405012600744900000000000000000; 36304021567169090000000000000000;
  37225109993456810000000000000000; 38168788197361690000000000000000; 39135576881205810000000000000000; 40126007277046550000000000000000;
  41140621290348480000000000000000; 42179971641902370000000000000000; 43244622007717610000000000000000; 44335147156598100000000000000000;
  45452133085093770000000000000000; 46596177149502590000000000000000; 47767888194577710000000000000000; 48967886678576030000000000000000;
  50196804794261280000000000000000; 51455286585455250000000000000000; 52743988058705790000000000000000; 54063577289617150000000000000000;
  55414734523362250000000000000000; 56798152268870740000000000000000; 58214535386158480000000000000000; 59664601166234570000000000000000;
  61149079402992860000000000000000; 62668712456461280000000000000000; 64224255306751000000000000000000; 65816475598009880000000000000000;
  67446153671651070000000000000000; 69114082588086390000000000000000; 70821068136156350000000000000000; 72567928829405390000000000000000;
  74355495888307130000000000000000; 76184613207499420000000000000000; 78056137307039470000000000000000; 79970937266640820000000000000000;
  81929894641799250000000000000000; 83933903360662050000000000000000; 85983869600435640000000000000000; 88080711642067560000000000000000;
  90225359701875710000000000000000; 92418755738731580000000000000000; 94661853235336610000000000000000; 96955616952057100000000000000000;
  99301022651711160000000000000000; 101699056793618800000000000000000; 104150716195147500000000000000000; 106657007658899700000000000000000;
  109218947563595700000000000000000; 111837561416617100000000000000000; 114513883366075400000000000000000; 117248955670166800000000000000000;
  120043828121471600000000000000000; 122899557423742400000000000000000; 125817206518610300000000000000000; 128797843859515400000000000000000;
  131842542630043000000000000000000; 134952379903714500000000000000000; 138128435742140200000000000000000; 141371792228302600000000000000000;
  144683532431583600000000000000000; 148064739300991200000000000000000; 151516494482884200000000000000000; 155039877059310100000000000000000;
  158635962202903700000000000000000; 162305819744101200000000000000000; 166050512646229600000000000000000; 169871095383830200000000000000000;
  173768612219360400000000000000000; 177744095373199900000000000000000; 181798563081648700000000000000000; 185933017537373300000000000000000;
  190148442706496900000000000000000; 194445802016271300000000000000000; 198826035906993400000000000000000; 203290059241541300000000000000000;
  207838758565611000000000000000000; 212472989211417600000000000000000; 217193572237306300000000000000000; 222001291195376500000000000000000;
  226896888718867100000000000000000; 231881062920690800000000000000000; 236954463594110400000000000000000; 242117688206158500000000000000000;
  247371277673977900000000000000000; 252715711913828500000000000000000; 258151405152048900000000000000000; 263678700986790300000000000000000;
  269297867188841100000000000000000; 275009090229352500000000000000000; 280812469521731200000000000000000; 286708011364409300000000000000000;
  292695622570617600000000000000000; 298775103770674700000000000000000; 304946142371677700000000000000000; 311208305158812700000000000000000;
  317561030521810900000000000000000; 324003620289367300000000000000000; 330535231153577100000000000000000; 337154865665673700000000000000000;
  343861362783527000000000000000000; 350653387950526400000000000000000; 357529422684569000000000000000000; 364487753654969300000000000000000;
  371526461224133400000000000000000; 378643407429841500000000000000000; 385836223382944300000000000000000; 393102296054176400000000000000000;
  400438754422675600000000000000000; 407842454957594800000000000000000; 415309966402976000000000000000000; 422837553834762600000000000000000;
  430421161957498300000000000000000; 438056397606856700000000000000000; 445738511422701600000000000000000; 453462378655858900000000000000000;
  461222479070207900000000000000000; 469012875900057100000000000000000; 476827193821052900000000000000000; 484658595891092700000000000000000;
  492499759415848100000000000000000; 500342850691577500000000000000000; 508179498575880900000000000000000; 516000766834955900000000000000000;
  523797125213714500000000000000000; 531558419172860100000000000000000; 539273838234621300000000000000000; 546931882876392900000000000000000;
  554520329908938500000000000000000; 562026196273138800000000000000000; 569435701186489500000000000000000; 576734226567662000000000000000000;
  583906275664533400000000000000000; 590935429808333400000000000000000; 597804303216003400000000000000000; 604494607266922600000000000000000;
  610993718657723300000000000000000; 617299157117932100000000000000000; 623409411865989700000000000000000; 629323077747120800000000000000000;
  635038881209381400000000000000000; 640555673517150700000000000000000; 645872438520473000000000000000000; 650988302500294600000000000000000;
  655902577873743000000000000000000; 660614705365705000000000000000000; 665124325828755900000000000000000; 669438813610930900000000000000000;
  673535653970207100000000000000000; 677437672580997900000000000000000; 681137864259267400000000000000000; 684636987038482500000000000000000;
  687936074337360300000000000000000; 691036435871854100000000000000000; 693939730997599000000000000000000; 696647871259876100000000000000000;
  699163168252989000000000000000000; 701488290705393500000000000000000; 703626271557136800000000000000000; 705580618842005900000000000000000;
  707355115355231300000000000000000; 708954226478060900000000000000000; 710382765058127500000000000000000; 711646087467256900000000000000000;
  712750103385633800000000000000000; 713701297347113900000000000000000; 714506756660062000000000000000000; 715174218352899100000000000000000;
  715712093122075700000000000000000; 716129518491370300000000000000000; 716436356837368300000000000000000; 716643306933221900000000000000000;
  716761869719288600000000000000000; 716804449110648500000000000000000; 716784366279327100000000000000000; 716715961579529600000000000000000;
  716614513068632900000000000000000; 716564484569234000000000000000000; 716441900135493900000000000000000; 716316129607853900000000000000000;
  716187067087396800000000000000000; 716054646538925600000000000000000; 715918778523943300000000000000000; 715779377409868300000000000000000;
  715636317113320400000000000000000; 715489575620460000000000000000000; 715338985383100500000000000000000; 715184489153625200000000000000000;
  715025979382715500000000000000000; 714865582433717300000000000000000; 714696500583995200000000000000000; 714525314624006000000000000000000;
  714349688711913300000000000000000; 714169510364342000000000000000000; 713984791345145400000000000000000; 713795018647752200000000000000000;
  713600472332700500000000000000000; 713400882888636400000000000000000; 713196125805950900000000000000000; 712986089185312300000000000000000;
  712770617312076000000000000000000; 712549572898596400000000000000000; 712322833287388800000000000000000; 712090236895416900000000000000000;
  711851621851172500000000000000000; 711606899086461500000000000000000; 711355852937961300000000000000000; 711098340009991600000000000000000;
  710834197466120900000000000000000; 710563274056237300000000000000000; 710285378126956100000000000000000; 710000353656039100000000000000000;
  709708003589375400000000000000000; 709408161663335800000000000000000; 709100628797945700000000000000000; 708785193460354900000000000000000;
  708461737644264600000000000000000; 708129974933722800000000000000000; 707789734233996600000000000000000; 707440806673622300000000000000000;
  707082957754856100000000000000000; 706716011007647500000000000000000; 706339691316307200000000000000000; 705953745688461500000000000000000;
  705558005879041200000000000000000; 705152204397057000000000000000000; 704736087312850300000000000000000; 704309392711934200000000000000000;
  703871888365370300000000000000000; 703423291281517000000000000000000; 702963323712264800000000000000000; 702491696500421700000000000000000;
  702008180529019600000000000000000; 701512502557803700000000000000000; 701004178390746700000000000000000; 700483079025619900000000000000000;
  699948841735281200000000000000000; 699401194376569300000000000000000; 698839758660973000000000000000000; 698264214858529800000000000000000;
  697674227657413600000000000000000; 697069442732124900000000000000000; 696449506724322500000000000000000; 695814065612304100000000000000000;
  695162737970990400000000000000000; 694495149855128100000000000000000; 693810907157581800000000000000000; 693109616441014100000000000000000;
  692390882319682300000000000000000; 691654279909016900000000000000000; 690899389701291200000000000000000; 690125786128568300000000000000000;
  689333072759776200000000000000000; 688520661694184300000000000000000; 687688202142373500000000000000000; 686835219595374700000000000000000;
  685961231385683800000000000000000; 685065738092525100000000000000000; 684148235450205600000000000000000; 683208221343593800000000000000000;
  682245165043313900000000000000000; 681258578600277700000000000000000; 680247873072792300000000000000000; 679212521276470000000000000000000;
  678151945222104200000000000000000; 677065585114922200000000000000000; 675952849247680700000000000000000; 674813149759974700000000000000000;
  673645874344083800000000000000000; 672450395135910300000000000000000; 671226096093691700000000000000000; 669972322284049800000000000000000;
  668688437739029000000000000000000; 667373731755860400000000000000000; 666027565455037800000000000000000; 664649288412282000000000000000000;
  663238117762461300000000000000000; 661793364841919100000000000000000; 660314301516833800000000000000000; 658800185718879300000000000000000;
  657250270096700900000000000000000; 655663772863968400000000000000000; 654039939971710900000000000000000; 652377972625001300000000000000000;
  650677058323958700000000000000000; 648936376908851600000000000000000; 647155092091669400000000000000000; 645332377604467200000000000000000;
  643467319853548900000000000000000; 641559206718785300000000000000000; 639607000251718500000000000000000; 637609859922759300000000000000000;
  635566879906851400000000000000000; 633477136493230200000000000000000; 631339712877048800000000000000000; 629153656300585700000000000000000;
  626918019127526600000000000000000; 624631833560499400000000000000000; 622294109001427800000000000000000; 619903903271717300000000000000000;
  617460222379089900000000000000000; 614961932213473500000000000000000; 612408162807140900000000000000000; 609797836208785700000000000000000;
  607129907217446000000000000000000; 604403344363476900000000000000000; 601617103185948700000000000000000; 598770105476329700000000000000000;
  595861298457877000000000000000000; 592889611098630700000000000000000; 589853966539459000000000000000000; 586753284509895200000000000000000;
  583586454745785600000000000000000; 580352475360607600000000000000000; 577050174595147800000000000000000; 573678492694908400000000000000000;
  570236348245718500000000000000000; 566722654404551100000000000000000; 563136319655535200000000000000000; 559476306978342800000000000000000;
  555741497368513300000000000000000; 551930863995977500000000000000000; 548043339484325400000000000000000; 544077890459245200000000000000000;
  540033487402101800000000000000000; 535909119894841200000000000000000; 531703800110068100000000000000000; 527416552811641900000000000000000;
  523046418802711400000000000000000; 518592479849089800000000000000000; 514053835394248400000000000000000; 509429616750109900000000000000000;
  504718987799356600000000000000000; 499921156379870300000000000000000; 495035354115779500000000000000000; 490060863648196000000000000000000;
  484997037608022400000000000000000; 479843245817655900000000000000000; 474598926367623100000000000000000; 469263597947896200000000000000000;
  463836778882292200000000000000000; 458318145008744600000000000000000; 452707402205704400000000000000000; 447004307067974500000000000000000;
  441208799658019400000000000000000; 435320710493922800000000000000000; 429340230051330200000000000000000; 423267479974036500000000000000000;
  417102741682858700000000000000000; 410846410036774900000000000000000; 404499008581384700000000000000000; 398061193147885300000000000000000;
  391533771406452200000000000000000; 384917684948218000000000000000000; 378214055452639100000000000000000; 371424160994610600000000000000000;
  364549482055858600000000000000000; 357591663777158400000000000000000; 350552562946907200000000000000000; 343434277761230400000000000000000;
  336239092173428900000000000000000; 328969545067973900000000000000000; 321628486049842300000000000000000; 314219007975475100000000000000000;
  306744259596042500000000000000000; 299208111102992200000000000000000; 291614462841127600000000000000000; 283967613237572900000000000000000;
  276272218606932100000000000000000; 268533307724948300000000000000000; 260756296579240600000000000000000; 252946962107304600000000000000000;
  245111701541954400000000000000000; 237257091202490900000000000000000; 229390392530818200000000000000000; 221519283303671800000000000000000;
  213652009255073300000000000000000; 205797358392767700000000000000000; 197964706917801900000000000000000; 190164051984412000000000000000000;
  182406040258504500000000000000000; 174701986850254900000000000000000; 167063939251560500000000000000000; 159504686081922700000000000000000;
  152037815109870800000000000000000; 144677718164960600000000000000000; 137439684518296400000000000000000; 130339889024722000000000000000000;
  123395507562584600000000000000000; 116624651687431700000000000000000; 110042375472529700000000000000000; 103652354705188100000000000000000;
  97456097475877760000000000000000; 91454969939707660000000000000000; 85650274359866520000000000000000; 80043149459246810000000000000000;
  74634611476504620000000000000000; 69425526329263100000000000000000; 64416606405146170000000000000000; 59608391122899880000000000000000;
  55001250245926810000000000000000; 50595345035111660000000000000000; 46390640056162800000000000000000; 42386876924017650000000000000000;
  38583558547399290000000000000000; 34979948382626770000000000000000; 31575025599179950000000000000000; 28367495667862390000000000000000;
  25355758500982260000000000000000; 22537893921406780000000000000000; 19911635660902820000000000000000; 17474360632630910000000000000000;
  15223065080046470000000000000000; 13154323568703080000000000000000; 11264291310483720000000000000000; 9548662425713702000000000000000;
  8002650471140117000000000000000; 6620946342935848000000000000000; 5397733822906788000000000000000; 4326580751314617000000000000000;
  3400480752194834000000000000000; 2611782381847667000000000000000; 1952165271230611000000000000000; 1412599818592687000000000000000;
  983304765443296900000000000000; 653719509656977500000000000000; 412444802210004000000000000000; 68026016325726200000000000000;
  68026016325726200000000000000; 68026016325726200000000000000; 68026016325726200000000000000; 68026016325726200000000000000].

(** _neutrino/data/neutral_rho_neutrino_mu.csv: column pi_pi0, the only one *)
Definition neutral_rho_neutrino_mu : list Z := [
  2990942979178834000000000000000; 3070054040537230000000000000000; 3151243166402055000000000000000; 3234564350883921000000000000000;
  3320072966589892000000000000000; 3407825798797993000000000000000; 3497881080435692000000000000000; 3590298527879342000000000000000;
  3685139377591867000000000000000; 3782466423616294000000000000000; 3882344055942953000000000000000; 3984838299768432000000000000000;
  4090016855664718000000000000000; 4197949140677127000000000000000; 4308706330369982000000000000000; 4422361401839182000000000000000;
  4538989177711147000000000000000; 4658666371147821000000000000000; 4781471631877727000000000000000; 4907485593273222000000000000000;
  5036790920494499000000000000000; 5169472359720988000000000000000; 5305616788491092000000000000000; 5445313267171463000000000000000;
  5588653091577169000000000000000; 5735729846764384000000000000000; 5886639462017429000000000000000; 6041480267052091000000000000000;
  6200353049457508000000000000000; 6363361113398943000000000000000; 6530610339603964000000000000000; 6702209246654718000000000000000;
  6878269053609095000000000000000; 7058903743973755000000000000000; 7244230131051974000000000000000; 7434367924689476000000000000000;
  7629439799441412000000000000000; 7829571464183671000000000000000; 8034891733191854000000000000000; 8245532598710991000000000000000;
  8461629305039407000000000000000; 8683320424149702000000000000000; 8910747932870024000000000000000; 9144057291648597000000000000000;
  9383397524924198000000000000000; 9628921303125351000000000000000; 9880785026320529000000000000000; 10139148909541560000000000000000;
  10404177069802080000000000000000; 10676037614832490000000000000000; 10954902733552640000000000000000; 11240948788302670000000000000000;
  11534356408852480000000000000000; 11835310588209240000000000000000; 12144000780241980000000000000000; 12460620999141720000000000000000;
  12785369920734570000000000000000; 13118450985664810000000000000000; 13460072504463620000000000000000; 13810447764518680000000000000000;
  14169795138958380000000000000000; 14538338197463560000000000000000; 14916305819018270000000000000000; 15303932306609990000000000000000;
  15701457503887850000000000000000; 16109126913786730000000000000000; 16527191819122340000000000000000; 16955909405161840000000000000000;
  17395542884171600000000000000000; 17846361621942670000000000000000; 18308641266291440000000000000000; 18782663877531740000000000000000;
  19268718060911120000000000000000; 19767099101002260000000000000000; 20278109098037420000000000000000; 20802057106170730000000000000000;
  21339259273650480000000000000000; 21890038984879540000000000000000; 22454727004339480000000000000000; 23033661622349130000000000000000;
  23627188802625360000000000000000; 24235662331609270000000000000000; 24859443969516020000000000000000; 25498903603063140000000000000000;
  26154419399825760000000000000000; 26826377964162910000000000000000; 27515174494653280000000000000000; 28221212942972750000000000000000;
  28944906174139970000000000000000; 29686676128049870000000000000000; 30446953982208020000000000000000; 31226180315571270000000000000000;
  32024805273392900000000000000000; 32843288732961950000000000000000; 33682100470118560000000000000000; 34541720326417240000000000000000;
  35422638376801750000000000000000; 36325355097644280000000000000000; 37250381534991930000000000000000; 38198239472852290000000000000000;
  39169461601337890000000000000000; 40164591684478420000000000000000; 41184184727495080000000000000000; 42228807143319900000000000000000;
  43299036918127290000000000000000; 44395463775630900000000000000000; 45518689339883860000000000000000; 46669327296302740000000000000000;
  47848003550620050000000000000000; 49055356385450980000000000000000; 50292036614141770000000000000000; 51558707731546750000000000000000;
  52856046061361730000000000000000; 54184740899617220000000000000000; 55545494653914610000000000000000; 56939022977963270000000000000000;
  58366054900950690000000000000000; 59827332951253900000000000000000; 61323613273969580000000000000000; 62855665741714530000000000000000;
  64424274058115380000000000000000; 66030235853376280000000000000000; 67674362771279670000000000000000; 69357480546939890000000000000000;
  71080429074593830000000000000000; 72844062464673860000000000000000; 74649249089369480000000000000000; 76496871615840220000000000000000;
  78387827026201850000000000000000; 80323026623358190000000000000000; 82303396021706710000000000000000; 84329875121693320000000000000000;
  86403418067139970000000000000000; 88524993184215370000000000000000; 90695582900858520000000000000000; 92916183645408720000000000000000;
  95187805723128640000000000000000; 97511473169246410000000000000000; 99888223577067900000000000000000; 102319107899645200000000000000000;
  104805190223406800000000000000000; 107347547512080000000000000000000; 109947269319152500000000000000000; 112605457467034800000000000000000;
  115323225690996500000000000000000; 118101699245853500000000000000000; 120942014473288400000000000000000; 123845318327582800000000000000000;
  126812767857432500000000000000000; 129845529641406900000000000000000; 132944779174496800000000000000000; 136111700203073500000000000000000;
  139347484005451900000000000000000; 142653328615125500000000000000000; 146030437983591300000000000000000; 149480021079549300000000000000000;
  153003290921101800000000000000000; 156601463537423700000000000000000; 160275756856210700000000000000000; 164027389513037400000000000000000;
  167857579578581400000000000000000; 171767543199478800000000000000000; 175758493148382400000000000000000; 179831637278591900000000000000000;
  183988176878404600000000000000000; 188229304920124200000000000000000; 192556204198422400000000000000000; 196970045352511500000000000000000;
  201471984766331900000000000000000; 206063162340695500000000000000000; 210744699131047100000000000000000; 215517694844225000000000000000000;
  220383225187296100000000000000000; 225342339061229600000000000000000; 230396055591852700000000000000000; 235545360990181300000000000000000;
  240791205233873400000000000000000; 246134498561176700000000000000000; 251576107768356800000000000000000; 257116852301191900000000000000000;
  262757500130695800000000000000000; 916151583169539200000000000000000; 921994113617977800000000000000000; 927938497729227300000000000000000;
  933985251647713300000000000000000; 940134815809123700000000000000000; 946387549289036100000000000000000; 952743723853534900000000000000000;
  959203517697899300000000000000000; 965767008858832600000000000000000; 972434168285057000000000000000000; 979204852550436900000000000000000;
  986078796193079500000000000000000; 993055603663148100000000000000000; 1000134740861332000000000000000000; 1007315526249099000000000000000000;
  1014597121510971000000000000000000; 1021978521747999000000000000000000; 1029458545180295000000000000000000; 1037035822334135000000000000000000;
  1044708784683209000000000000000000; 1052475652687742000000000000000000; 1060334422943744000000000000000000; 1068270489609664000000000000000000;
  1076118082359881000000000000000000; 1083823893909857000000000000000000; 1091385352629481000000000000000000; 1098799862205543000000000000000000;
  1106064823824056000000000000000000; 1113177616710289000000000000000000; 1120135563144020000000000000000000; 1126936079666922000000000000000000;
  1133576437687879000000000000000000; 1140054033933272000000000000000000; 1146365799556313000000000000000000; 1152510108742166000000000000000000;
  1158483238586999000000000000000000; 1164282862032509000000000000000000; 1169906314185628000000000000000000; 1175350911426340000000000000000000;
  1180614018621316000000000000000000; 1185692970627577000000000000000000; 1190581967769723000000000000000000; 1195288112153540000000000000000000;
  1199799111393377000000000000000000; 1204115632383896000000000000000000; 1208235231403350000000000000000000; 1212155457013382000000000000000000;
  1215873885877418000000000000000000; 1219388173826426000000000000000000; 1222696060555345000000000000000000; 1225795254328053000000000000000000;
  1228683676756209000000000000000000; 1231359232602094000000000000000000; 1233819972362647000000000000000000; 1236063995276655000000000000000000;
  1238089538701630000000000000000000; 1239894956473694000000000000000000; 1241478698173219000000000000000000; 1242839392174153000000000000000000;
  1243975784705526000000000000000000; 1244886792459592000000000000000000; 1245571493848305000000000000000000; 1246029153302183000000000000000000;
  1246259233445593000000000000000000; 1246267012842492000000000000000000; 1246204663464090000000000000000000; 1246140657751900000000000000000000;
  1246074983134149000000000000000000; 1246007577585798000000000000000000; 1245938404008070000000000000000000; 1245867402457083000000000000000000;
  1245794504559771000000000000000000; 1245719757097134000000000000000000; 1245643011343786000000000000000000; 1245564251637881000000000000000000;
  1245483419662967000000000000000000; 1245400466227806000000000000000000; 1245315331931816000000000000000000; 1245227902093076000000000000000000;
  1245138308220518000000000000000000; 1245046300496378000000000000000000; 1244951872350327000000000000000000; 1244854997544997000000000000000000;
  1244755534937210000000000000000000; 1244653488096292000000000000000000; 1244548771362571000000000000000000; 1244441298465577000000000000000000;
  1244331040172954000000000000000000; 1244218033551301000000000000000000; 1244101763861990000000000000000000; 1243982612293403000000000000000000;
  1243860342189324000000000000000000; 1243734880421003000000000000000000; 1243606136093694000000000000000000; 1243474034593562000000000000000000;
  1243338481832532000000000000000000; 1243199393050536000000000000000000; 1243056680547269000000000000000000; 1242910213878390000000000000000000;
  1242759990103248000000000000000000; 1242605821920495000000000000000000; 1242447664668759000000000000000000; 1242285334701588000000000000000000;
  1242118804840401000000000000000000; 1241947963397370000000000000000000; 1241772503156005000000000000000000; 1241592801082256000000000000000000;
  1241408276803494000000000000000000; 1241218959328506000000000000000000; 1241024728595108000000000000000000; 1240825647962849000000000000000000;
  1240621022749539000000000000000000; 1240411285858191000000000000000000; 1240196118043414000000000000000000; 1239975380441565000000000000000000;
  1239748926851632000000000000000000; 1239516619555852000000000000000000; 1239278304883682000000000000000000; 1239033830204596000000000000000000;
  1238783183104854000000000000000000; 1238525776935925000000000000000000; 1238261875885334000000000000000000; 1237991148890254000000000000000000;
  1237713393973062000000000000000000; 1237428676386675000000000000000000; 1237136515777826000000000000000000; 1236836834840886000000000000000000;
  1236529455421750000000000000000000; 1236214179350072000000000000000000; 1235890814747372000000000000000000; 1235559127743457000000000000000000;
  1235218951303884000000000000000000; 1234870048520789000000000000000000; 1234512198330150000000000000000000; 1234145221150647000000000000000000;
  1233768841885560000000000000000000; 1233382841738113000000000000000000; 1232986340268969000000000000000000; 1232580988995060000000000000000000;
  1232164693845700000000000000000000; 1231737767998353000000000000000000; 1231299966420156000000000000000000; 1230851023640516000000000000000000;
  1230390699055621000000000000000000; 1229918603705159000000000000000000; 1229434567364299000000000000000000; 1228938246054141000000000000000000;
  1228429348096374000000000000000000; 1227907559801281000000000000000000; 1227372572568937000000000000000000; 1226824054309803000000000000000000;
  1226261682158537000000000000000000; 1225685126217849000000000000000000; 1225094020997124000000000000000000; 1224488031586696000000000000000000;
  1223866800757423000000000000000000; 1223229932084278000000000000000000; 1222577193735526000000000000000000; 1221907842680116000000000000000000;
  1221221833637027000000000000000000; 1220518495260575000000000000000000; 1219795641096459000000000000000000; 1219059082279958000000000000000000;
  1218301821655083000000000000000000; 1217525709854289000000000000000000; 1216730316272364000000000000000000; 1215915111799380000000000000000000;
  1215079626398750000000000000000000; 1214223416922807000000000000000000; 1213345987995050000000000000000000; 1212446893143304000000000000000000;
  1211525460349873000000000000000000; 1210581329018384000000000000000000; 1209613923706183000000000000000000; 1208622699391866000000000000000000;
  1207607066083580000000000000000000; 1206566486534912000000000000000000; 1205500437416776000000000000000000; 1204408269197650000000000000000000;
  1203289366312199000000000000000000; 1202143161985120000000000000000000; 1200969005492330000000000000000000; 1199766273356411000000000000000000;
  1198534546514735000000000000000000; 1197272453338568000000000000000000; 1195980038773480000000000000000000; 1194656365655538000000000000000000;
  1193300735527322000000000000000000; 1191912436029067000000000000000000; 1190490745704835000000000000000000; 1189034917647148000000000000000000;
  1187544187146653000000000000000000; 1186018692874401000000000000000000; 1184454960767543000000000000000000; 1182854912688943000000000000000000;
  1181216806076394000000000000000000; 1179539818026366000000000000000000; 1177823122135350000000000000000000; 1176065854266766000000000000000000;
  1174267161005592000000000000000000; 1172426153715894000000000000000000; 1170541938280682000000000000000000; 1168613600727431000000000000000000;
  1166640225954754000000000000000000; 1164621692156871000000000000000000; 1162554569746934000000000000000000; 1160440341764863000000000000000000;
  1158277294235365000000000000000000; 1156064326050371000000000000000000; 1153800475489140000000000000000000; 1151484709845220000000000000000000;
  1149115997273519000000000000000000; 1146693279756745000000000000000000; 1144215498980086000000000000000000; 1141681580665025000000000000000000;
  1139090424159100000000000000000000; 1136440940088292000000000000000000; 1133732008442961000000000000000000; 1130962506789682000000000000000000;
  1128131289180017000000000000000000; 1125237217608026000000000000000000; 1122279130584174000000000000000000; 1119255862196701000000000000000000;
  1116166228762850000000000000000000; 1113009050780651000000000000000000; 1109783136747695000000000000000000; 1106487279415577000000000000000000;
  1103120281551363000000000000000000; 1099680940577061000000000000000000; 1096167986959605000000000000000000; 1092580259814397000000000000000000;
  1088916518523458000000000000000000; 1085175551576428000000000000000000; 1081356104542571000000000000000000; 1077456963591241000000000000000000;
  1073476958592557000000000000000000; 1069414828474887000000000000000000; 1065269363277557000000000000000000; 1061039394562602000000000000000000;
  1056723691937106000000000000000000; 1052321115804355000000000000000000; 1047830475620013000000000000000000; 1043250610887645000000000000000000;
  1038580454586064000000000000000000; 1033818827256206000000000000000000; 1028964738509783000000000000000000; 1024016916355878000000000000000000;
  1018974533865046000000000000000000; 1013836527126835000000000000000000; 1008601941501505000000000000000000; 1003269801851149000000000000000000;
  997839285360966800000000000000000; 992309520581929900000000000000000; 986679740191329400000000000000000; 333296376628932100000000000000000;
  327464551773203600000000000000000; 321530385338314200000000000000000; 315493786651859200000000000000000; 309354145025047000000000000000000;
  303111068521986400000000000000000; 296764261156858200000000000000000; 290313528116930000000000000000000; 283758703875403200000000000000000;
  277099848075698700000000000000000; 270337038829991200000000000000000; 263470515415312900000000000000000; 256500623906980800000000000000000;
  249427865548034200000000000000000; 242252840070392100000000000000000; 234976430801488300000000000000000; 227599512071888700000000000000000;
  220123573435237400000000000000000; 212548955360874800000000000000000; 204878075423738800000000000000000; 197112424303265200000000000000000;
  189253900941132100000000000000000; 181306112618882000000000000000000; 173407145890014900000000000000000; 165648861928140800000000000000000;
  158033797122685800000000000000000; 150564531289443900000000000000000; 143243658203615300000000000000000; 136073781809078900000000000000000;
  129057504601408400000000000000000; 122197469640545100000000000000000; 115496362687674400000000000000000; 108956711559141800000000000000000;
  102581290975207000000000000000000; 96372748391118200000000000000000; 90333664174149780000000000000000; 84466778596993730000000000000000;
  78774715494092900000000000000000; 73260127928363490000000000000000; 67925634198446080000000000000000; 62773869213522350000000000000000;
  57807432193280850000000000000000; 53028883898326950000000000000000; 48440789298664360000000000000000; 44045659254165130000000000000000;
  39845975171783540000000000000000; 35844167673054050000000000000000; 32042633865657220000000000000000; 28443711637252420000000000000000;
  25049646074190150000000000000000; 21862691287089490000000000000000; 18884961507734450000000000000000; 16118490576551310000000000000000;
  13565269454102590000000000000000; 11227159912174100000000000000000; 9105926018730147000000000000000; 7203167533495848000000000000000;
  5520532513230958000000000000000; 4059289813669308000000000000000; 2820730156048160000000000000000; 0; 0; 0; 0; 0].

(** _neutrino/data/long_kaon_neutrino_{e,mu}.csv: column energy, the same in both files *)
Definition long_kaon_neutrino_energy : list Z := [
  2487993956432261; 2534342771575479; 2581555018343853; 2629646781596704; 2678634445838043; 2728534700798645; 2779364547122114; 2831141302156882;
  2883882605856095; 2937606426787412; 2992331068254766; 3048075174534159; 3104857737225631; 3162698101723550; 3221615973807448; 3281631426355636;
  3342764906183875; 3405037241011458; 3468469646557059; 3533083733766765; 3598901516176770; 3665945417413219; 3734238278831767; 3803803367299462;
  3874664383121593; 3946845468116204; 4020371213839030; 4095266669961660; 4171557352805770; 4249269254036343; 4328428849516837; 4409063108329310;
  4491199501962588; 4574866013671595; 4660091148011036; 4746903940546688; 4835333967747599; 4925411357062575; 5017166797184367; 5110631548505085;
  5205837453766378; 5302816948908021; 5401603074118592; 5502229485092022; 5604730464493833; 5709140933640992; 5815496464399336; 5923833291302646;
  6034188323897479; 6146599159317973; 6261104095094912; 6377742142203408; 6496553038353647; 6617577261529232; 6740856043777727; 6866431385258105;
  6994346068549895; 7124643673228880; 7257368590714335; 7392566039392855; 7530282080023912; 7670563631432423; 7813458486493632; 7959015328415793;
  8107283747326170; 8258314257166023; 8412158312900332; 8568868328048121; 8728497692539340; 8891100790904434; 9056733020802726; 9225450811895995;
  9397311645073650; 9572374072036016; 9750697735242475; 9932343388231203; 10117372916317450; 10305849357677390; 10497836924824780; 10693401026487670;
  10892608289892640; 11095526583464250; 11302225039947280; 11512774079959720; 11727245435984570; 11945712176808590; 12168248732416200;
  12394930919347310; 12625835966527410; 12861042541578870; 13100630777622460; 13344682300578040; 13593280256973960; 13846509342274440;
  14104455829734640; 14367207599793390; 14634854170013340; 14907486725578940; 15185198150362560; 15468083058569320; 15756237826971420;
  16049760627743050; 16348751461906840; 16653312193403530; 16963546583796180; 17279560327621020; 17601461088396760; 17929358535304750;
  18263364380552450; 18603592417432930; 18950158559093430; 19303180878026060; 19662779646294250; 20029077376508510; 20402198863565580;
  20782271227165110; 21169423955118420; 21563788947463980; 21965500561404790; 22374695657082870; 22791513644206520; 23216096529546110;
  23648588965314740; 24089138298450220; 24537894620814980; 24995010820331310; 25460642633069120; 25934948696304040; 26418090602563960;
  26910232954682390; 27411543421877440; 27922192796875430; 28442355054098710; 28972207408937440; 29511930378125610; 30061707841241610;
  30621727103354750; 31192178958838620; 31773257756373370; 32365161465158800; 32968091742360980; 33582254001815360; 34207857484009810;
  34845115327371080; 35494244640879690; 36155466578037190; 36829006412211570; 37515093613386200; 38213961926338510; 38925849450275130;
  39650998719950480; 40389656788296560; 41142075310592010; 41908510630199230; 42689223865898600; 43484481000849710; 44294552973209830;
  45119715768440550; 45960250513333910; 46816443571790200; 47688586642380050; 48576976857723880; 49481916885722830; 50403715032675400;
  51342685348315120; 52299147732804950; 53273428045724850; 54265858217089690; 55276776360435440; 56306526888011780; 57355460628120780;
  58423934944641610; 59512313858781600; 60620968173095610; 61750275597815730; 62900620879534210; 64072395932283830; 65265999971060110;
  66481839647830760; 67720329190079090; 68981890541928100; 70266953507893780; 71575955899316250; 72909343683518790; 74267571135745640;
  75651100993930080; 77060404616345880; 78495962142195460; 79958262655189780; 81447804350175480; 82965094702866120; 84510650642735390;
  86084998729131060; 87688675330669970; 89322226807974600; 90986209699814120; 92681190912713050; 94407747914092010; 96166468929006550;
  97957953140551070; 99782810893995940; 101641663904727700; 103535145470062700; 105463900685006800; 107428586662034500; 109429872754962100;
  111468440786991700; 113544985283003100; 115660213706173300; 117814846699004100; 120009618328839200; 122245276337955800; 124522582398314700;
  126842312371056200; 129205256570830300; 131612220035050600; 134064022798165200; 136561500171035800; 139105503025521900; 141696898084366700;
  144336568216482800; 147025412737739400; 149764347717351900; 152554306289980400; 155396238973641500; 158291113993542600; 161239917611949000;
  164243654464196300; 167303347900961600; 170420040336912200; 173594793605847800; 176828689322459700; 180122829250828700; 183478335679787900;
  186896351805278100; 190378042119826400; 193924592809279300; 197537212156928400; 201217130955162600; 204965602924790300; 208783905142172800;
  212673338474314000; 216635228022057100; 220670923571535700; 224781800054035900; 228969258014425900; 233234724088310000; 237579651488073500;
  242005520497981100; 246513838978498500; 251106142880009400; 255783996766102200; 260548994346605100; 265402759020551200; 270346944429258200;
  275383235019711900; 280513346618444600; 285739027016104300; 291062056562913800; 296484248775223000; 302007450953360200; 307633544810993300;
  313364447116215900; 319202110344575800; 325148523344268600; 331205712013723500; 337375739991811900; 343660709360913600; 350062761363080500;
  356584077129541700; 363226878423798900; 369993428398564100; 376886032366799500; 383907038587119600; 391058839063825900; 398343870361844800;
  405764614436846700; 413323599480830100; 421023400783457500; 428866641609437800; 436855994092251900; 444994180144529800; 453283972385384400;
  461728195085025000; 470329725126961100; 479091492988137800; 488016483737326600; 497107738052116100; 506368353254847600; 515801484367850600;
  525410345188334600; 535198209383306100; 545168411604881900; 555324348626381100; 565669480499579300; 576207331733523500; 586941492495304700;
  597875619833202200; 609013438922611300; 620358744335184300; 631915401331611100; 643687347178485400; 655678592489702300; 667893222592843400;
  680335398921018400; 693009360430633700; 705919425045573100; 719069991128282500; 732465538978258800; 746110632358454600; 760009920050117900;
  774168137436597300; 788590108116651600; 803280745547813700; 818245054720369300; 833488133862518900; 849015176177306700; 864831471611905300;
  880942408659862300; 897353476196918400; 914070265351027300; 931098471407210400; 948443895747898900; 966112447829420000; 984110147195305500;
  1002443125527105000; 1021117628733403000; 1040140019077756000; 1059516777346265000; 1079254505055531000; 1099359926701746000; 1119839892051673000;
  1140701378476316000; 1161951493328051000; 1183597476362060000; 1205646702202845000; 1228106682856722000; 1250985070271095000; 1274289658941425000;
  1298028388566751000; 1322209346754689000; 1346840771776817000; 1371931055375394000; 1397488745622366000; 1423522549831626000; 1450041337525532000;
  1477054143456689000; 1504570170686019000; 1532598793718177000; 1561149561695373000; 1590232201650694000; 1619856621822032000; 1650032915027748000;
  1680771362105213000; 1712082435413421000; 1743976802400839000; 1776465329239725000; 1809559084528158000; 1843269343061019000; 1877607589671234000;
  1912585523142571000; 1948215060195324000; 1984508339546256000; 2021477726044165000; 2059135814882494000; 2097495435890427000; 2136569657903906000;
  2176371793218094000; 2216915402122767000; 2258214297522209000; 2300282549641165000; 2343134490818455000; 2386784720389903000; 2431248109662215000;
  2476539806979528000; 2522675242884330000; 2569670135374537000; 2617540495258494000; 2666302631609739000; 2715973157323382000; 2766568994775992000;
  2818107381590929000; 2870605876511068000; 2924082365380936000; 2978555067240277000; 3034042540531161000; 3090563689420683000; 3148137770241486000;
  3206784398052248000; 3266523553320378000; 3327375588729226000; 3389361236112074000; 3452501613515328000; 3516818232393273000; 3582333004936867000;
  3649068251539058000; 3717046708399178000; 3786291535268995000; 3856826323343063000; 3928675103296075000; 4001862353469925000; 4076413008213299000;
  4152352466376621000; 4229706599965255000; 4308501762953899000; 4388764800265186000; 4470523056915555000; 4553804387331485000; 4638637164839299000;
  4725050291331735000; 4813073207114612000; 4902735900936917000; 4994068920207750000; 5087103381403598000; 5181870980669482000; 5278404004617603000;
  5376735341327144000; 5476898491548994000; 5578927580119204000; 5682857367585063000; 5788723262047756000; 5896561331225639000; 6006408314742244000;
  6118301636643187000; 6232279418146269000; 6348380490629083000; 6466644408858576000; 6587111464467066000; 6709822699679293000; 6834819921295201000;
  6962145714933206000; 7091843459538789000; 7223957342163389000; 7358532373018589000; 7495614400810770000; 7635250128361413000; 7777487128518399000;
  7922373860363751000; 8069959685723235000; 8220294885983596000; 8373430679223038000; 8529419237660852000; 8688313705432085000; 8850168216693365000;
  9015037914065989000; 9182978967422613000; 9354048593023900000; 9528305073011676000; 9705807775265217000; 9886617173627445000; 10070794868507910000;
  10258403607869590000; 10449507308606660000; 10644171078320490000; 10842461237501310000; 11044445342123120000; 11250192206659520000;
  11459771927528240000; 11673255906972510000; 11890716877387240000; 12112228926098430000; 12337867520604140000; 12567709534285720000;
  12801833272597990000; 13040318499747340000; 13283246465866750000; 13530699934697160000; 13782763211784430000; 14039522173201600000;
  14301064294806240000; 14567478682042840000; 14838856100300310000; 15115289005835130000; 15396871577270460000; 15683699747682140000;
  15975871237282320000; 16273485586712040000; 16576644190953960000; 16885450333876900000; 17200009223423840000; 17520428027455540000;
  17846815910261760000; 18179284069752760000; 18517945775343590000; 18862916406544120000; 19214313492267980000; 19572256750873810000;
  19936868130952340000; 20308271852873470000; 20686594451107120000; 21071964817332600000; 21464514244351090000; 21864376470816060000;
  22271687726797070000; 22686586780192300000; 23109214984005760000; 23539716324505190000; 23978237470277110000; 24424927822195700000;
  24879939564322600000].

(** _neutrino/data/long_kaon_neutrino_e.csv: column pi_mu_vm *)
Definition long_kaon_pi_mu_vm_e : list Z := [
  4290742653484393000000000000; 4452019081985329000000000000; 4619355927883076000000000000; 4792980843585239000000000000;
  4973130028155676000000000000; 5160048547902228000000000000; 5353990668974086000000000000; 5555220202417775000000000000;
  5764010862157481000000000000; 5980646636382833000000000000; 6205422172845220000000000000; 6438643178582400000000000000;
  6680626834610492000000000000; 6931702226142593000000000000; 7192210788913983000000000000; 7462506772215586000000000000;
  7742957719259540000000000000; 8033944965524293000000000000; 8335864155750362000000000000; 8649125780283036000000000000;
  8974155731484256000000000000; 9311395880962610000000000000; 9661304678398266000000000000; 10024357772768630000000000000;
  10401048656810360000000000000; 10791889335584360000000000000; 11197411020042730000000000000; 11618164846529910000000000000;
  12054722623184800000000000000; 12507677604246730000000000000; 12977645293305050000000000000; 13465264276571100000000000000;
  13971197087290830000000000000; 14496131102458170000000000000; 15040779473032130000000000000; 15605882088905110000000000000;
  16192206579916230000000000000; 16800549354251310000000000000; 17431736675620770000000000000; 18086625780658310000000000000;
  18766106038036680000000000000; 19471100150851790000000000000; 20202565403884320000000000000; 20961494957407020000000000000;
  21748919189267770000000000000; 22565907087042260000000000000; 23413567692116450000000000000; 24293051597627580000000000000;
  25205552502263600000000000000; 26152308821994940000000000000; 27134605361888510000000000000; 28153775050233510000000000000;
  29211200737290630000000000000; 30308317061061040000000000000; 31446612382560320000000000000; 32627630793173460000000000000;
  33852974196762090000000000000; 35124304469293000000000000000; 36443345698859230000000000000; 37811886509069860000000000000;
  39231782468894430000000000000; 40704958592160940000000000000; 42233411930023500000000000000; 43819214259837630000000000000;
  45464514874007100000000000000; 47171543472496210000000000000; 48942613162837620000000000000; 50780123571604820000000000000;
  52686564071464160000000000000; 54664517128071890000000000000; 56716661771236320000000000000; 58845777194928040000000000000;
  61054746490887530000000000000; 63346560520751790000000000000; 65724321931803050000000000000; 68191249321626370000000000000;
  70750681557156480000000000000; 73406082253792600000000000000; 76161044420467660000000000000; 79019295276770440000000000000;
  81984701248441790000000000000; 85061273147794350000000000000; 88253171545843400000000000000; 91564712343181140000000000000;
  95000372546881920000000000000; 98564796260989530000000000000; 102262800898408900000000000000; 106099383622308900000000000000;
  110079728025434800000000000000; 114209211056028500000000000000; 118493410199373800000000000000; 122938110924301800000000000000;
  127549314404331000000000000000; 132333245523463400000000000000; 137296361177015200000000000000; 142445358878235200000000000000;
  147787185681847100000000000000; 153329047436051000000000000000; 159078418374929700000000000000; 165043051063634500000000000000;
  171230986709164200000000000000; 177650565850005500000000000000; 184310439438378900000000000000; 191219580329319800000000000000;
  198387295191327200000000000000; 205823236853840400000000000000; 213537417107334900000000000000; 221540219972397700000000000000;
  229842415454709100000000000000; 238455173803459900000000000000; 247390080291352500000000000000; 256659150534961900000000000000;
  266274846374904000000000000000; 276250092335930300000000000000; 286598292687776400000000000000; 297333349128316500000000000000;
  308469679111332200000000000000; 320022234841971400000000000000; 332006522963786000000000000000; 344438624962057100000000000000;
  357335218308974200000000000000; 370713598377121800000000000000; 384591701148633600000000000000; 398988126748321200000000000000;
  413922163830052100000000000000; 429413814846661700000000000000; 445483822234711300000000000000; 462153695546483900000000000000;
  479445739562699800000000000000; 497383083420585300000000000000; 515989710793092100000000000000; 535290491156277700000000000000;
  555311212183110000000000000000; 576078613303241300000000000000; 597620420469626500000000000000; 619965382174226900000000000000;
  643143306756452600000000000000; 667185101049449200000000000000; 692122810410825100000000000000; 717989660185966400000000000000;
  744820098653665200000000000000; 772649841505426800000000000000; 801515917911502400000000000000; 831456718228415600000000000000;
  862512043404556500000000000000; 894723156142219500000000000000; 928132833876368700000000000000; 962785423632338900000000000000;
  998726898826682900000000000000; 1036004918077412000000000000000; 1074668886091989000000000000000; 1114770016703586000000000000000;
  1156361398128343000000000000000; 1199498060518634000000000000000; 1244237045889696000000000000000; 1290637480499349000000000000000;
  1338760649763022000000000000000; 1388670075788791000000000000000; 1440431597619746000000000000000; 1494113454273611000000000000000;
  1549786370672288000000000000000; 1607523646556729000000000000000; 1667401248485412000000000000000; 1729497905017541000000000000000;
  1793895205185127000000000000000; 1860677700361043000000000000000; 1929933009633311000000000000000; 2001751928798975000000000000000;
  2076228543094172000000000000000; 2153460343780205000000000000000; 2233548348708883000000000000000; 2316597226993646000000000000000;
  2402715427916536000000000000000; 2492015314204533000000000000000; 2584613299812349000000000000000; 2680629992352354000000000000000;
  2780190340315995000000000000000; 2883423785234741000000000000000; 2990464418932313000000000000000; 3101451146023790000000000000000;
  3216527851820888000000000000000; 3335843575806644000000000000000; 3459552690846525000000000000000; 3587815088306861000000000000000;
  3720796369255404000000000000000; 3858668041922637000000000000000; 4001607725606409000000000000000; 4149799361206201000000000000000;
  4303433428577308000000000000000; 4462707170898859000000000000000; 4627824826253426000000000000000; 4798997866619637000000000000000;
  4976445244482776000000000000000; 5160393647271911000000000000000; 5351077759835403000000000000000; 5548740535170074000000000000000;
  5753633473622307000000000000000; 5966016910782385000000000000000; 6186160314296130000000000000000; 6414342589820548000000000000000;
  6650852396352397000000000000000; 6895988471160792000000000000000; 7150059964556613000000000000000; 7413386784733102000000000000000;
  7686299952912895000000000000000; 7969141969037647000000000000000; 8262267188236520000000000000000; 8566042208309592000000000000000;
  8880846268461560000000000000000; 9207071659519688000000000000000; 9545124145867984000000000000000; 9895423399327062000000000000000;
  10258403445205560000000000000000; 10634513120744890000000000000000; 11024216546174050000000000000000; 11427993608584930000000000000000;
  11846340458831810000000000000000; 12279770021650270000000000000000; 12728812519181340000000000000000; 13194016008076200000000000000000;
  13675946930344230000000000000000; 14175190678093990000000000000000; 14692352172300940000000000000000; 15228056455719070000000000000000;
  15782949300034370000000000000000; 16357697827336950000000000000000; 16952991145965860000000000000000; 17569541000754600000000000000000;
  18208082437677440000000000000000; 18869374482865860000000000000000; 19554200835930530000000000000000; 20263370577487630000000000000000;
  20997718890747740000000000000000; 21758107796982190000000000000000; 22545426904633730000000000000000; 23360594171786820000000000000000;
  24204556681656730000000000000000; 25078291430695800000000000000000; 25982806128849210000000000000000; 26919140011421690000000000000000;
  27888364661939340000000000000000; 28891584845307870000000000000000; 29929939350479020000000000000000; 31004601841739960000000000000000;
  32116781717637000000000000000000; 33267724976432810000000000000000; 34458715086875120000000000000000; 35691073862927170000000000000000;
  36966162340969300000000000000000; 38285381657832690000000000000000; 39650173927866070000000000000000; 41062023117063590000000000000000;
  42522455912098780000000000000000; 44033042581910910000000000000000; 45595397829279570000000000000000; 47211181629595810000000000000000;
  48882100053796460000000000000000; 50609906072168630000000000000000; 52396400335453640000000000000000; 54243431929383610000000000000000;
  56152899098466550000000000000000; 58126749934497260000000000000000; 60166983024909600000000000000000; 62275648055699350000000000000000;
  64454846363234890000000000000000; 66706731428832170000000000000000; 69033509309502360000000000000000; 71437438997778110000000000000000;
  73920832702992010000000000000000; 76486056045810470000000000000000; 79135528157220710000000000000000; 81871721672520360000000000000000;
  84697162610172370000000000000000; 87614430124652560000000000000000; 90626156121636930000000000000000; 93735024723043410000000000000000;
  96943771568557220000000000000000; 100255182939326300000000000000000; 103672094688510800000000000000000; 107197390962302200000000000000000;
  110834002693893600000000000000000; 114584905851673200000000000000000; 118453119421631500000000000000000; 122441703102605000000000000000000;
  126553754691525300000000000000000; 130792407134306200000000000000000; 135160825216352400000000000000000; 139662201864935600000000000000000;
  144299754033830200000000000000000; 149076718138631700000000000000000; 153996345009089800000000000000000; 159061894322570100000000000000000;
  164276628480396000000000000000000; 169643805886320100000000000000000; 175166673583711900000000000000000; 180848459205229300000000000000000;
  186692362185736000000000000000000; 192701544186052500000000000000000; 198879118671744000000000000000000; 205228139587566600000000000000000;
  211751589064387800000000000000000; 218452364091359700000000000000000; 225333262081841700000000000000000; 232396965257020400000000000000000;
  239646023766359200000000000000000; 247082837458891200000000000000000; 254709636213947400000000000000000; 262528458734156200000000000000000;
  270541129697452400000000000000000; 278749235158360800000000000000000; 287154096081959800000000000000000; 295756739886656100000000000000000;
  304557869864188200000000000000000; 313557832337101100000000000000000; 322756581405266700000000000000000; 332153641123833600000000000000000;
  341748064945256700000000000000000; 351538392247729500000000000000000; 361522601761405400000000000000000; 371698061692198200000000000000000;
  382061476330673100000000000000000; 392608828920508000000000000000000; 403335320547228800000000000000000; 414235304793285000000000000000000;
  425302217890071400000000000000000; 436528504081071300000000000000000; 447905535892940900000000000000000; 459423528992922200000000000000000;
  471071451291493000000000000000000; 482836925928479800000000000000000; 494706127759009600000000000000000; 506663672932475400000000000000000;
  518692501133176800000000000000000; 530773750025292400000000000000000; 542886621417381800000000000000000; 555008242938297100000000000000000;
  567113589901455200000000000000000; 579175744504987000000000000000000; 591166445678999400000000000000000; 603058051220577100000000000000000;
  614822770655921900000000000000000; 626434296776424400000000000000000; 637868377461066600000000000000000; 649099466790427600000000000000000;
  660105779191851600000000000000000; 670867217479101000000000000000000; 681360865123866700000000000000000; 691572029216091700000000000000000;
  701479999953425000000000000000000; 711070431836904400000000000000000; 720329834830573100000000000000000; 729241030617741200000000000000000;
  737797630053258800000000000000000; 745980887609612200000000000000000; 753789735525978100000000000000000; 761205411184776500000000000000000;
  768230958180785600000000000000000; 774848637231046600000000000000000; 781064351126487100000000000000000; 786864046727147500000000000000000;
  792251838120853000000000000000000; 797224135339005000000000000000000; 801774398789609600000000000000000; 805916397505887500000000000000000;
  809634492789356200000000000000000; 812950322203085400000000000000000; 815859853432126900000000000000000; 818360865756595700000000000000000;
  820481470310009500000000000000000; 822208340244465600000000000000000; 823554317745478800000000000000000; 824538545736752800000000000000000;
  825145919707728900000000000000000; 825395500197887900000000000000000; 825306544475344100000000000000000; 824865106276950200000000000000000;
  824077113524214700000000000000000; 822973504415372300000000000000000; 821545618002940600000000000000000; 819787144811662600000000000000000;
  817713077929462100000000000000000; 815350249701189300000000000000000; 812687215223224300000000000000000; 809711725409539300000000000000000;
  806441231157634800000000000000000; 802902047438517500000000000000000; 799091705669981700000000000000000; 794998360877824000000000000000000;
  790617032770869400000000000000000; 785968997050335100000000000000000; 781079252465106100000000000000000; 775944333071090600000000000000000;
  770554974590484800000000000000000; 764908470121339300000000000000000; 758994737436598800000000000000000; 752842635805474100000000000000000;
  746475892085147900000000000000000; 739893648250637900000000000000000; 733095006793729400000000000000000; 726074746210725800000000000000000;
  718831463356547300000000000000000; 711363760486810600000000000000000; 703666392888021100000000000000000; 695737929818570500000000000000000;
  687594908361635400000000000000000; 679248319124522700000000000000000; 670695800245161700000000000000000; 661938625268916100000000000000000;
  652977400520667700000000000000000; 643814098432385600000000000000000; 634447788344881100000000000000000; 624880818131732600000000000000000;
  615114941012426900000000000000000; 605153329248922900000000000000000; 594997128957945600000000000000000; 584650304963930800000000000000000;
  574116577126822800000000000000000; 563400441024275500000000000000000; 552507118024947300000000000000000; 541442312866567200000000000000000;
  530212514534053800000000000000000; 518825483395350400000000000000000; 507288847657368300000000000000000; 495612227940847900000000000000000;
  483805572455193400000000000000000; 471879959197120800000000000000000; 459847790084778100000000000000000; 447722745392318800000000000000000;
  435511203719730600000000000000000; 423207179295193000000000000000000; 410824492182567400000000000000000; 398379064127386900000000000000000;
  385888071614532200000000000000000; 373370403510050300000000000000000; 360846306262403300000000000000000; 348337528384792400000000000000000;
  335867766578171500000000000000000; 323437070103631000000000000000000; 311031232076503200000000000000000; 298672781727188900000000000000000;
  286386007066490700000000000000000; 274196789397475800000000000000000; 262133680211360600000000000000000; 250201870323631200000000000000000;
  238390271772976900000000000000000; 226725827458384200000000000000000; 215237401188275000000000000000000; 203955595520618400000000000000000;
  192877189544623700000000000000000; 182004498575028600000000000000000; 171366615694985700000000000000000; 160995073499471300000000000000000;
  150896412476770800000000000000000; 176868552172210900000000000000000; 199457494536288500000000000000000; 212511927451562700000000000000000;
  221887094450563200000000000000000; 229947669611274600000000000000000; 237171797773463000000000000000000; 243081075630013300000000000000000;
  250023065820235800000000000000000; 252932592330102500000000000000000; 259883087463665900000000000000000; 264558107168364400000000000000000;
  270274770170439500000000000000000; 271601357567524000000000000000000; 279236221971288900000000000000000; 284005371858765900000000000000000;
  289377064471613500000000000000000; 289643654358441500000000000000000; 294358220751827600000000000000000; 295330211598525500000000000000000;
  300510036467095400000000000000000; 300249549012851200000000000000000; 303697480370565300000000000000000; 310574637349051100000000000000000;
  307464066686004700000000000000000; 304940794465690300000000000000000; 307188447003889400000000000000000; 301989800327141100000000000000000;
  299358474809922200000000000000000; 292904377958105900000000000000000; 289620643257133700000000000000000; 280066528342356700000000000000000;
  272217563162592900000000000000000; 261385458077205600000000000000000; 248171090965046600000000000000000; 234399339246220200000000000000000;
  217290254274291300000000000000000; 196565764696182700000000000000000; 174374641456872500000000000000000; 151065021292590600000000000000000;
  124800059735188100000000000000000; 98376734546887330000000000000000; 68417117975351880000000000000000; 41310717287980670000000000000000;
  17141531265243690000000000000000; 1143167407639211000000000000000; 0; 0].

(** _neutrino/data/long_kaon_neutrino_mu.csv: column pi_mu_vm *)
Definition long_kaon_pi_mu_vm_mu : list Z := [
  2146085768809666000000000000; 2226763688634493000000000000; 2310474041267449000000000000; 2397330778168091000000000000;
  2487452131203856000000000000; 2580960773345065000000000000; 2677983985387513000000000000; 2778653828928425000000000000;
  2883107325830012000000000000; 2991486644413632000000000000; 3103939292636598000000000000; 3220618318513162000000000000;
  3341682518050893000000000000; 3467296650983902000000000000; 3597631664594765000000000000; 3732864925928028000000000000;
  3873180462709325000000000000; 4018769213296067000000000000; 4169829285997660000000000000; 4326566228115894000000000000;
  4489193305069272000000000000; 4657931789978568000000000000; 4833011264104963000000000000; 5014669928546829000000000000;
  5203154927616224000000000000; 5398722684332001000000000000; 5601639248482621000000000000; 5812180657728760000000000000;
  6030633312233226000000000000; 6257294363323960000000000000; 6492472116714683000000000000; 6736486450827349000000000000;
  6989669250780789000000000000; 7252364858631027000000000000; 7524930540470441000000000000; 7807736971015714000000000000;
  8101168736337796000000000000; 8405624855411593000000000000; 8721519321188103000000000000; 9049281661918162000000000000;
  9389357523483782000000000000; 9742209273521402000000000000; 10108316628150430000000000000; 10488177302150750000000000000;
  10882307683464200000000000000; 11291243532927540000000000000; 11715540710178180000000000000; 12155775926708810000000000000;
  12612547527083630000000000000; 13086476299365840000000000000; 13578206315845890000000000000; 14088405805199520000000000000;
  14617768057247330000000000000; 15167012361530360000000000000; 15736884980961730000000000000; 16328160161860800000000000000;
  16941641181724960000000000000; 17578161436144040000000000000; 18238585566314690000000000000; 18923810628665930000000000000;
  19634767308162980000000000000; 20372421176914440000000000000; 21137773999768170000000000000; 21931865088643360000000000000;
  22755772707411100000000000000; 23610615529202350000000000000; 24497554148092360000000000000; 25417792647181640000000000000;
  26372580225168820000000000000; 27363212883588190000000000000; 28391035176964020000000000000; 29457442028217790000000000000;
  30563880611750320000000000000; 31711852306709210000000000000; 32902914723046000000000000000; 34138683803062080000000000000;
  35420836001242260000000000000; 36751110545277960000000000000; 38131311781288260000000000000; 39563311606358430000000000000;
  41049051991629150000000000000; 42590547599289430000000000000; 44189888496948450000000000000; 45849242972989690000000000000;
  47570860456642540000000000000; 49357074546643670000000000000; 51210306152501890000000000000; 53133066752528200000000000000;
  55127961772943860000000000000; 57197694092537840000000000000; 59345067677508300000000000000; 61572991351291940000000000000;
  63884482704361020000000000000; 66282672149148630000000000000; 68770807125452050000000000000; 71352256461858500000000000000;
  74030514898939780000000000000; 76809207780171310000000000000; 79692095916747930000000000000; 82683080632693060000000000000;
  85786208996890990000000000000; 89005679248911380000000000000; 92345846425745700000000000000; 95811228196832570000000000000;
  99406510915017020000000000000; 103136555891364100000000000000; 107006405902036200000000000000; 111021291935736900000000000000;
  115186640190534600000000000000; 119508079329195000000000000000; 123991448002481400000000000000; 128642802650222400000000000000;
  133468425590300100000000000000; 138474833406075800000000000000; 143668785643148400000000000000; 149057293826733200000000000000;
  154647630811350700000000000000; 160447340474937000000000000000; 166464247769918200000000000000; 172706469144241700000000000000;
  179182423345819600000000000000; 185900842624319400000000000000; 192870784344738000000000000000; 200101643027699600000000000000;
  207603162831961000000000000000; 215385450495147300000000000000; 223458988749315700000000000000; 231834650228531400000000000000;
  240523711886244400000000000000; 249537869940891000000000000000; 258889255368787200000000000000; 268590449964056600000000000000;
  278654502986030000000000000000; 289094948415271000000000000000; 299925822840123600000000000000; 311161683996446500000000000000;
  322817629983990000000000000000; 334909319183691200000000000000; 347452990901009300000000000000; 360465486761296600000000000000;
  373964272884105100000000000000; 387967462864260200000000000000; 402493841588499700000000000000; 417562889917462000000000000000;
  433194810263852500000000000000; 449410553098656300000000000000; 466231844418379000000000000000; 483681214207415100000000000000;
  501782025930819200000000000000; 520558507093950300000000000000; 540035780906712700000000000000; 560239899091385000000000000000;
  581197875874362500000000000000; 602937723203498400000000000000; 625488487234128800000000000000; 648880286128327600000000000000;
  673144349213418700000000000000; 698313057547329000000000000000; 724419985939934100000000000000; 751499946481206600000000000000;
  779589033628638800000000000000; 808724670908165200000000000000; 838945659284591800000000000000; 870292227259371600000000000000;
  902806082755476000000000000000; 936530466851045100000000000000; 971510209425517200000000000000; 1007791786783994000000000000000;
  1045423381327733000000000000000; 1084454943340812000000000000000; 1124938254965292000000000000000; 1166926996439483000000000000000;
  1210476814676291000000000000000; 1255645394261065000000000000000; 1302492530950844000000000000000; 1351080207759492000000000000000;
  1401472673715808000000000000000; 1453736525384435000000000000000; 1507940791242112000000000000000; 1564157019004701000000000000000;
  1622459366003282000000000000000; 1682924692710614000000000000000; 1745632659522288000000000000000; 1810665826900057000000000000000;
  1878109758987938000000000000000; 1948053130815049000000000000000; 2020587839202383000000000000000; 2095809117494180000000000000000;
  2173815654238022000000000000000; 2254709715941311000000000000000; 2338597274035410000000000000000; 2425588136182432000000000000000;
  2515796082063361000000000000000; 2609339003790087000000000000000; 2706339051087707000000000000000; 2806922781397515000000000000000;
  2911221315054988000000000000000; 3019370495701209000000000000000; 3131511056090247000000000000000; 3247788789459178000000000000000;
  3368354726631639000000000000000; 3493365319030074000000000000000; 3622982627776039000000000000000; 3757374519062374000000000000000;
  3896714865985241000000000000000; 4041183757028480000000000000000; 4190967711397076000000000000000; 4346259901400823000000000000000;
  4507260382093746000000000000000; 4674176328379054000000000000000; 4847222279793763000000000000000; 5026620393191392000000000000000;
  5212600703545298000000000000000; 5405401393099378000000000000000; 5605269069096935000000000000000; 5812459050322358000000000000000;
  6027235662694254000000000000000; 6249872544152147000000000000000; 6480652959082558000000000000000; 6719870122533569000000000000000;
  6967827534469909000000000000000; 7224839324323899000000000000000; 7491230606099726000000000000000; 7767337844291240000000000000000;
  8053509230875165000000000000000; 8350105073643442000000000000000; 8657498196139489000000000000000; 8976074349464025000000000000000;
  9306232636216278000000000000000; 9648385946836207000000000000000; 10002961408612430000000000000000; 10370400847619070000000000000000;
  10751161263842460000000000000000; 11145715319755620000000000000000; 11554551842594720000000000000000; 11978176340586670000000000000000;
  12417111533371550000000000000000; 12871897896856500000000000000000; 13343094222729780000000000000000; 13831278192854560000000000000000;
  14337046968750900000000000000000; 14861017796362940000000000000000; 15403828626294050000000000000000; 15966138749677440000000000000000;
  16548629449832530000000000000000; 17152004669838140000000000000000; 17776991696131720000000000000000; 18424341858220840000000000000000;
  19094831244566380000000000000000; 19789261434668010000000000000000; 20508460247351440000000000000000; 21253282505221290000000000000000;
  22024610815206020000000000000000; 22823356365079480000000000000000; 23650459735798360000000000000000; 24506891729445260000000000000000;
  25393654212513750000000000000000; 26311780974213010000000000000000; 27262338599406390000000000000000; 28246427355730200000000000000000;
  29265182094363640000000000000000; 30319773163841820000000000000000; 31411407336215740000000000000000; 32541328744770520000000000000000;
  33710819832411430000000000000000; 34921202309718460000000000000000; 36173838121553270000000000000000; 37470130420975530000000000000000;
  38811524549090460000000000000000; 40199509019302770000000000000000; 41635616504295990000000000000000; 43121424823887450000000000000000;
  44658557931728480000000000000000; 46248686898625680000000000000000; 47893530890051290000000000000000; 49594858135188000000000000000000;
  51354486884614870000000000000000; 53174286353485920000000000000000; 55056177646779280000000000000000; 57002134662902780000000000000000;
  59014184971628190000000000000000; 61094410661993430000000000000000; 63244949155452910000000000000000; 65467993979176360000000000000000;
  67765795493985650000000000000000; 70140661570987970000000000000000; 72594958210494890000000000000000; 75131110096322460000000000000000;
  77751601078038980000000000000000; 80458974573161490000000000000000; 83255833880699630000000000000000; 86144842396806430000000000000000;
  89128723722607820000000000000000; 92210261653557620000000000000000; 95392300038885250000000000000000; 98677742498878430000000000000000;
  102069551986861000000000000000000; 105570750181789400000000000000000; 109184416696391400000000000000000; 112913688084710100000000000000000;
  116761756631783400000000000000000; 120731868906987900000000000000000; 124827324061294900000000000000000; 129051471847325400000000000000000;
  133407710339643700000000000000000; 137899483331189500000000000000000; 142530277380109600000000000000000; 147303618479516600000000000000000;
  152223068320844200000000000000000; 157292220119512400000000000000000; 162514693969520200000000000000000; 167894131691370800000000000000000;
  173434191135374000000000000000000; 179138539899866600000000000000000; 185010848421238400000000000000000; 191054782389818900000000000000000;
  197273994442689500000000000000000; 203672115081298600000000000000000; 210252742758379400000000000000000; 218689949590209100000000000000000;
  237721835741758600000000000000000; 263125275784245400000000000000000; 270470876588643000000000000000000; 299936568768834200000000000000000;
  331710182322577400000000000000000; 364571297451340800000000000000000; 372733642418375300000000000000000; 406322437248470900000000000000000;
  439973875059430100000000000000000; 448777474614890600000000000000000; 482634562065201400000000000000000; 515906110758236100000000000000000;
  525369202608679700000000000000000; 558324313344599000000000000000000; 568233288141419000000000000000000; 600808214158239500000000000000000;
  632577860062571300000000000000000; 643145623817158100000000000000000; 674206928016814100000000000000000; 685138886948053600000000000000000;
  715421604186387700000000000000000; 726602444218895900000000000000000; 755899605014495500000000000000000; 767174699948735800000000000000000;
  795315415785873700000000000000000; 806578399123084400000000000000000; 817806342068026200000000000000000; 844656915199604700000000000000000;
  855671768136630200000000000000000; 881112035538729800000000000000000; 891835243037449200000000000000000; 902477804739550500000000000000000;
  926068569234541500000000000000000; 936292940865708500000000000000000; 946241114491424200000000000000000; 967919688113151900000000000000000;
  977346619482250900000000000000000; 986565637728803800000000000000000; 1005990535005321000000000000000000; 1014654028160813000000000000000000;
  1022789791304844000000000000000000; 1030791341537176000000000000000000; 1047633000542830000000000000000000; 1054852650338445000000000000000000;
  1061722915694657000000000000000000; 1068091098322740000000000000000000; 1074265880047717000000000000000000; 1087952999139856000000000000000000;
  1093215034030067000000000000000000; 1098275228536676000000000000000000; 1102628163982777000000000000000000; 1106768068831749000000000000000000;
  1110713637672658000000000000000000; 1113955360759948000000000000000000; 1116984801255965000000000000000000; 1123131016819651000000000000000000;
  1125434486354471000000000000000000; 1127371361682034000000000000000000; 1129136709539503000000000000000000; 1130726419200550000000000000000000;
  1131590611712389000000000000000000; 1132286479709970000000000000000000; 1132819242774389000000000000000000; 1133190606345848000000000000000000;
  1132907005757796000000000000000000; 1132391287539117000000000000000000; 1131714364244196000000000000000000; 1130879841292402000000000000000000;
  1129863560603178000000000000000000; 1128150306023304000000000000000000; 1126280608329173000000000000000000; 1124254085128339000000000000000000;
  1122072478320757000000000000000000; 1119731636605862000000000000000000; 1113922761383528000000000000000000; 1110709907900662000000000000000000;
  1107339106304968000000000000000000; 1103810284656554000000000000000000; 1100120062474857000000000000000000; 1096270545679415000000000000000000;
  1092261697007715000000000000000000; 1088085920187195000000000000000000; 1075648695080248000000000000000000; 1071100126034477000000000000000000;
  1066162675978856000000000000000000; 1061054836464606000000000000000000; 1055776854475625000000000000000000; 1040956549223944000000000000000000;
  1035326993900145000000000000000000; 1029518876692982000000000000000000; 1023532117173880000000000000000000; 1006759492911257000000000000000000;
  1000407610619170000000000000000000; 993868071299080200000000000000000; 975206453742399400000000000000000; 968289384598602700000000000000000;
  961179676769247400000000000000000; 940663630471358200000000000000000; 933161623109927600000000000000000; 925461265115795100000000000000000;
  903104776882997600000000000000000; 895001661951904400000000000000000; 871031484372083700000000000000000; 862520742715636900000000000000000;
  853807685042811000000000000000000; 828072033359519100000000000000000; 818946982277448700000000000000000; 791568676114719600000000000000000;
  782231701414593500000000000000000; 753536524569650700000000000000000; 743856886332148600000000000000000; 713681401561303800000000000000000;
  703600636600282200000000000000000; 671904731311347000000000000000000; 638987939952816700000000000000000; 628320977730063600000000000000000;
  594195756003872800000000000000000; 583654850143540800000000000000000; 548963468080270400000000000000000; 513294333516338100000000000000000;
  502292084052562300000000000000000; 466063136558031600000000000000000; 429527386455718700000000000000000; 418550041963350100000000000000000;
  382597442500795100000000000000000; 347393714604548400000000000000000; 314176112029119700000000000000000; 302785982832521000000000000000000;
  273582223820928600000000000000000; 250462495004830300000000000000000; 237666032960328700000000000000000; 226472264758373000000000000000000;
  215731451390624900000000000000000; 205000152730984300000000000000000; 194237107475919200000000000000000; 183602591497371200000000000000000;
  173378486133348100000000000000000; 163170556566439800000000000000000; 152992518836943300000000000000000; 143387151690383300000000000000000;
  133865631785139500000000000000000; 124423173348763400000000000000000; 115581360939792700000000000000000; 106880023428766100000000000000000;
  98387866046269440000000000000000; 90468215283628060000000000000000; 82698703613430870000000000000000; 75359688957929770000000000000000;
  68397653184770670000000000000000; 61648194311723780000000000000000; 55481068013988030000000000000000; 49476450528224650000000000000000;
  44000547897438370000000000000000; 38777255049488950000000000000000; 33981483783226390000000000000000; 29514233342194280000000000000000;
  25421461218238570000000000000000; 21674472111603690000000000000000; 18287483748591730000000000000000; 15219587977735750000000000000000;
  12521843845192840000000000000000; 10083876120409500000000000000000; 8039689050102866000000000000000; 6196545064498247000000000000000;
  4727257827978310000000000000000; 3461990729744796000000000000000; 2441709661296950000000000000000; 1659618170264433000000000000000;
  1047231704593585000000000000000; 623413495644270200000000000000; 332756639024957300000000000000; 141774414781726200000000000000;
  55542182283052810000000000000; 15105096473543160000000000000; 1592686126965297000000000000; 0; 0; 0; 0; 0].
