(** Row 0 of the table of /repo/src/general/sap.cpp:47-27893, the radii, generated from the
    source text, in units of 10^-24 so that every literal is an integer.  The rows of the
    nuclei are not copied: the model takes them as an argument. *)
Require Import List ZArith.
Import ListNotations.
Open Scope Z_scope.

Definition sap_radii : list Z := [
0; 388998520894912; 12430758943027300; 94178861924365500; 395590944314572000; 1202251348274290000;
2976459094673760000; 6394869907645760000; 12381937053385100000; 22138464141230300000; 37164662693434100000; 59277196979672100000;
90619796923652200000; 133667125284592000000; 191221696142517000000; 266403756233519000000; 362634157093561000000; 483610362445513000000;
633275849973865000000; 815783277766470000000; 1035451891511460000000; 1296719747346310000000; 1604091415500730000000; 1962081910120680000000;
2375157659626540000000; 2847675388537970000000; 3383819824972850000000; 3987541177288620000000; 4662493338083520000000; 5411973773743790000000;
6238866042866320000000; 7145585857390810000000; 8134031556556110000000; 9205539806481880000000; 10360847268116600000000; 11600058894524700000000;
12922623426234400000000; 14327316552022000000000; 15812232093588500000000; 17374781457753900000000; 19011701480766600000000; 20719070667940200000000;
22492333709896200000000; 24326334036093500000000; 26215354048880800000000; 28153162568813200000000; 30133068916145900000000; 32147982955863600000000;
34190480345819300000000; 36252872150877500000000; 38327277921556500000000; 40405701284523800000000; 42480107055202800000000; 44542498860260900000000;
46584996250216600000000; 48599910289934400000000; 50579816637267100000000; 52517625157199400000000; 54406645169986700000000; 56240645496184100000000;
58013908538140100000000; 59721277725313700000000; 61358197748326400000000; 62920747112491700000000; 64405662654058300000000; 65810355779845800000000;
67132920311555600000000; 68372131937963600000000; 69527439399598400000000; 70598947649524100000000; 71587393348689400000000; 72494113163213900000000;
73321005432336500000000; 74070485867996700000000; 74745438028791600000000; 75349159381107400000000; 75885303817542300000000; 76357821546453700000000;
76770897295959600000000; 77128887790579500000000; 77436259458733900000000; 77697527314568800000000; 77917195928313800000000; 78099703356106400000000;
78249368843634700000000; 78370345048986700000000; 78466575449846700000000; 78541757509937700000000; 78599312080795700000000; 78642359409156600000000;
78673702009100600000000; 78695814543386800000000; 78710840741939000000000; 78720597269026800000000; 78726584336172600000000; 78730002746985600000000;
78731776954732000000000; 78732583615135900000000; 78732885027218300000000; 78732966775321300000000; 78732978817081700000000; 78732980566673200000000;
78733022684915300000000; 78733308613739500000000; 78734362857191800000000; 78737184298331000000000; 78743389911871400000000; 78755346423993700000000;
78776287277747600000000; 78810412501654200000000; 78862969357740700000000; 78940311958941600000000; 79049938389665900000000; 79200504231965400000000;
79401811787378700000000; 79664774685064400000000; 80001357974016300000000; 80424494204545900000000; 80947976405437400000000; 81586329251893100000000;
82354660089476600000000; 83268491824857200000000; 84343580009811500000000; 85595716725608300000000; 87040524116124700000000; 88693240615938500000000;
90568503071001600000000; 92680128051848000000000; 95040895710874400000000; 97662339535124100000000; 100554545294040000000000; 103725962378484000000000;
107183230574418000000000; 110931025114146000000000; 114971922603010000000000; 119306290133397000000000; 123932199575273000000000; 128845368677969000000000;
134039130236992000000000; 139504430177968000000000; 145229854993543000000000; 151201688544458000000000; 157403997809557000000000; 163818746747662000000000;
170425937023473000000000; 177203773956174000000000; 184128855679269000000000; 191176383158967000000000; 198320388411391000000000; 205533977990670000000000;
212789588594760000000000; 220059251456909000000000; 227314862060999000000000; 234528451640279000000000; 241672456892702000000000; 248719984372400000000000;
255645066095495000000000; 262422903028196000000000; 269030093304008000000000; 275444842242112000000000; 281647151507211000000000; 287618985058126000000000;
293344409873701000000000; 298809709814677000000000; 304003471373700000000000; 308916640476397000000000; 313542549918273000000000; 317876917448659000000000;
321917814937523000000000; 325665609477251000000000; 329122877673185000000000; 332294294757630000000000; 335186500516545000000000; 337807944340795000000000;
340168711999821000000000; 342280336980668000000000; 344155599435731000000000; 345808315935545000000000; 347253123326061000000000; 348505260041858000000000;
349580348226812000000000; 350494179962193000000000; 351262510799776000000000; 351900863646232000000000; 352424345847123000000000; 352847482077653000000000;
353184065366605000000000; 353447028264291000000000; 353648335819704000000000; 353798901662003000000000; 353908528092728000000000; 353985870693929000000000;
354038427550015000000000; 354072552773922000000000; 354093493627676000000000; 354105450139798000000000; 354111655753338000000000; 354114477194477000000000;
354115531437930000000000; 354115817366754000000000; 354115859484996000000000; 354115863928018000000000; 354115959347067000000000; 354116607119980000000000;
354118995512807000000000; 354125387499178000000000; 354139446341882000000000; 354166533868702000000000; 354213975458013000000000; 354291286291503000000000;
354410354062628000000000; 354585574040072000000000; 354833933164545000000000; 355175040692373000000000; 355631103777543000000000; 356226847291280000000000;
356989378100721000000000; 357947994951172000000000; 359133946005418000000000; 360580136974175000000000; 362320793610236000000000; 364391083121764000000000;
366826699775361000000000; 369663420595343000000000; 372936637612170000000000; 376680873561329000000000; 380929288276827000000000; 385713183255378000000000;
391061511984191000000000; 397000403625052000000000; 403552707529633000000000; 410737565827286000000000; 418570020980095000000000; 427060664745855000000000;
436215334434439000000000; 446034861695145000000000; 456514878341544000000000; 467645682917336000000000; 479412170843634000000000; 491793830078139000000000;
504764803273540000000000; 518294016460587000000000; 532345373315075000000000; 546878013112394000000000; 561846629542625000000000; 577201846667774000000000;
592890647464157000000000; 608856849619908000000000; 625041622561981000000000; 641384039079430000000000; 657821654399415000000000; 674291105167161000000000;
690728720487146000000000; 707071137004595000000000; 723255909946668000000000; 739222112102419000000000; 754910912898803000000000; 770266130023952000000000;
785234746454182000000000; 799767386251502000000000; 813818743105990000000000; 827347956293036000000000; 840318929488437000000000; 852700588722942000000000;
864467076649240000000000; 875597881225032000000000; 886077897871431000000000; 895897425132137000000000; 905052094820722000000000; 913542738586481000000000;
921375193739290000000000; 928560052036943000000000; 935112355941524000000000; 941051247582385000000000; 946399576311199000000000; 951183471289749000000000;
955431886005247000000000; 959176121954406000000000; 962449338971234000000000; 965286059791215000000000; 967721676444812000000000; 969791965956341000000000;
971532622592401000000000; 972978813561159000000000; 974164764615404000000000; 975123381465856000000000; 975885912275297000000000; 976481655789033000000000;
976937718874203000000000; 977278826402032000000000; 977527185526505000000000; 977702405503948000000000; 977821473275073000000000; 977898784108563000000000;
977946225697874000000000; 977973313224694000000000; 977987372067398000000000; 977993764053769000000000; 977996152446596000000000; 977996800219510000000000;
977996895638559000000000; 977996905559954000000000; 977997117265641000000000; 977998554475620000000000; 978003853588836000000000; 978018035451664000000000;
978049227723858000000000; 978109326661406000000000; 978214585038522000000000; 978386114133244000000000; 978650289101609000000000; 979039048642170000000000;
979590081581067000000000; 980346894860782000000000; 981358759364157000000000; 982680532018573000000000; 984372354671828000000000; 986499232279009000000000;
989130494956374000000000; 992339150412106000000000; 996201135124021000000000; 1000794474371480000000000; 1006198362815300000000000; 1012492178730390000000000;
1019754446208010000000000; 1028061760639750000000000; 1037487693555660000000000; 1048101693403660000000000; 1059967999116720000000000; 1073144583313500000000000;
1087682141717080000000000; 1103623144858060000000000; 1121000967359210000000000; 1139839109091680000000000; 1160150521260810000000000; 1181937049042010000000000;
1205189000765590000000000; 1229884851867110000000000; 1255991089905610000000000; 1283462204932650000000000; 1312240827402770000000000; 1342258013681890000000000;
1373433677066320000000000; 1405677160105020000000000; 1438887941952780000000000; 1472956472504370000000000; 1507765123198990000000000; 1543189242669450000000000;
1579098303866930000000000; 1615357127944360000000000; 1651827169048960000000000; 1688367843275570000000000; 1724837884380170000000000; 1761096708457600000000000;
1797005769655080000000000; 1832429889125540000000000; 1867238539820160000000000; 1901307070371760000000000; 1934517852219520000000000; 1966761335258220000000000;
1997936998642640000000000; 2027954184921760000000000; 2056732807391880000000000; 2084203922418920000000000; 2110310160457420000000000; 2135006011558940000000000;
2158257963282520000000000; 2180044491063730000000000; 2200355903232850000000000; 2219194044965320000000000; 2236571867466470000000000; 2252512870607460000000000;
2267050429011040000000000; 2280227013207810000000000; 2292093318920880000000000; 2302707318768880000000000; 2312133251684780000000000; 2320440566116520000000000;
2327702833594140000000000; 2333996649509230000000000; 2339400537953060000000000; 2343993877200510000000000; 2347855861912430000000000; 2351064517368160000000000;
2353695780045530000000000; 2355822657652710000000000; 2357514480305960000000000; 2358836252960380000000000; 2359848117463750000000000; 2360604930743470000000000;
2361155963682360000000000; 2361544723222920000000000; 2361808898191290000000000; 2361980427286010000000000; 2362085685663130000000000; 2362145784600680000000000;
2362176976872870000000000; 2362191158735700000000000; 2362196457848910000000000; 2362197895058890000000000; 2362198106764580000000000; 2362198129849760000000000;
2362198632764160000000000; 2362202046907700000000000; 2362214635140040000000000; 2362248324660720000000000; 2362322423015220000000000; 2362465190183680000000000;
2362715235210620000000000; 2363122708689560000000000; 2363750265743850000000000; 2364673777890390000000000; 2365982776279180000000000; 2367780613202950000000000;
2370184333400220000000000; 2373324251457460000000000; 2377343236477960000000000; 2382395710049720000000000; 2388646368335310000000000; 2396268643747990000000000;
2405442926097680000000000; 2416354567216840000000000; 2429191696845280000000000; 2444142880904560000000000; 2461394656172630000000000; 2481128977732570000000000;
2503520617376550000000000; 2528734552368250000000000; 2556923384582830000000000; 2588224830042390000000000; 2622759318244310000000000; 2660627739447920000000000;
2701909376259300000000000; 2746660053460080000000000; 2794910537100160000000000; 2846665210459580000000000; 2901901050631450000000000; 2960566925245680000000000;
3022583224304190000000000; 3087841837302160000000000; 3156206480839340000000000; 3227513376855350000000000; 3301572276530760000000000; 3378167819859020000000000;
3457061215989100000000000; 3537992224740930000000000; 3620681415275290000000000; 3704832673825990000000000; 3790135928735750000000000; 3876270057834680000000000;
3962905940510810000000000; 4049709614686100000000000; 4136345497362240000000000; 4222479626461170000000000; 4307782881370930000000000; 4391934139921630000000000;
4474623330455990000000000; 4555554339207820000000000; 4634447735337900000000000; 4711043278666150000000000; 4785102178341570000000000; 4856409074357580000000000;
4924773717894760000000000; 4990032330892730000000000; 5052048629951240000000000; 5110714504565470000000000; 5165950344737330000000000; 5217705018096750000000000;
5265955501736840000000000; 5310706178937610000000000; 5351987815749000000000000; 5389856236952610000000000; 5424390725154520000000000; 5455692170614090000000000;
5483881002828670000000000; 5509094937820370000000000; 5531486577464350000000000; 5551220899024280000000000; 5568472674292350000000000; 5583423858351640000000000;
5596260987980080000000000; 5607172629099230000000000; 5616346911448930000000000; 5623969186861600000000000; 5630219845147190000000000; 5635272318718960000000000;
5639291303739460000000000; 5642431221796690000000000; 5644834941993970000000000; 5646632778917730000000000; 5647941777306520000000000; 5648865289453070000000000;
5649492846507360000000000; 5649900319986290000000000; 5650150365013230000000000; 5650293132181700000000000; 5650367230536190000000000; 5650400920056880000000000;
5650413508289220000000000; 5650416922432760000000000; 5650417425347160000000000; 5650417484365370000000000; 5650418808406870000000000; 5650427796949840000000000;
5650460938458400000000000; 5650549634115420000000000; 5650744715615630000000000; 5651120584062300000000000; 5651778886926200000000000; 5652851657544490000000000;
5654503850396140000000000; 5656935215252160000000000; 5660381464108750000000000; 5665114696399890000000000; 5671443060172040000000000; 5679709639495000000000000;
5690290571183040000000000; 5703592406707660000000000; 5720048747795740000000000; 5740116196427100000000000; 5764269671579130000000000; 5792997155930890000000000;
5826793945661750000000000; 5866156485302960000000000; 5911575877183770000000000; 5963531161234530000000000; 6022482465667870000000000; 6088864132276100000000000;
6163077921704820000000000; 6245486404059390000000000; 6336406638567020000000000; 6436104242774590000000000; 6544787946954740000000000; 6662604723091120000000000;
6789635570110290000000000; 6925892028036980000000000; 7071313483605950000000000; 7225765318720310000000000; 7389037941170300000000000; 7560846724399600000000000;
7740832870019850000000000; 7928565193425960000000000; 8123542819458720000000000; 8325198761800370000000000; 8532904346875530000000000; 8745974430660560000000000;
8963673345168070000000000; 9185221500646960000000000; 9409802559885860000000000; 9636571092576920000000000; 9864660610615650000000000; 10093191879589400000000000;
10321281397628100000000000; 10548049930319200000000000; 10772630989558000000000000; 10994179145036900000000000; 11211878059544400000000000; 11424948143329500000000000;
11632653728404600000000000; 11834309670746300000000000; 12029287296779000000000000; 12217019620185200000000000; 12397005765805400000000000; 12568814549034700000000000;
12732087171484700000000000; 12886539006599100000000000; 13031960462168000000000000; 13168216920094700000000000; 13295247767113900000000000; 13413064543250300000000000;
13521748247430400000000000; 13621445851638000000000000; 13712366086145600000000000; 13794774568500200000000000; 13868988357928900000000000; 13935370024537100000000000;
13994321328970500000000000; 14046276613021200000000000; 14091696004902000000000000; 14131058544543300000000000; 14164855334274100000000000; 14193582818625900000000000;
14217736293777900000000000; 14237803742409300000000000; 14254260083497300000000000; 14267561919022000000000000; 14278142850710000000000000; 14286409430033000000000000;
14292737793805100000000000; 14297471026096300000000000; 14300917274952800000000000; 14303348639808900000000000; 14305000832660500000000000; 14306073603278800000000000;
14306731906142700000000000; 14307107774589400000000000; 14307302856089600000000000; 14307391551746600000000000; 14307424693255200000000000; 14307433681798100000000000;
14307435005839600000000000; 14307435175551700000000000; 14307439105083100000000000; 14307465781559300000000000; 14307564139954700000000000; 14307827373672400000000000;
14308406342590200000000000; 14309521856606400000000000; 14311475588232700000000000; 14314659390096100000000000; 14319562819207600000000000; 14326778699123700000000000;
14337006583206400000000000; 14351054016582500000000000; 14369835530567200000000000; 14394369340687700000000000; 14425771757430100000000000; 14465249356841700000000000;
14514088995555700000000000; 14573645791068200000000000; 14645329222628100000000000; 14730587540342400000000000; 14830890699551000000000000; 14947712063708100000000000;
15082509141515100000000000; 15236703642512800000000000; 15411661149460100000000000; 15608670715379200000000000; 15828924697956400000000000; 16073499143978500000000000;
16343335031639000000000000; 16639220668919500000000000; 16961775531987100000000000; 17311435808846600000000000; 17688441890620500000000000; 18092828026151700000000000;
18524414325514500000000000; 18982801264951900000000000; 19467366810213000000000000; 19977266237789400000000000; 20511434694712700000000000; 21068592497958500000000000;
21647253134717800000000000; 22245733885438000000000000; 22862168953212800000000000; 23494524946390700000000000; 24140618526736000000000000; 24798136003642500000000000;
25464654626253300000000000; 26137665300318800000000000; 26814596435608400000000000; 27492838613003300000000000; 28169769748292900000000000; 28842780422358400000000000;
29509299044969100000000000; 30166816521875600000000000; 30812910102221000000000000; 31445266095398800000000000; 32061701163173600000000000; 32660181913893800000000000;
33238842550653200000000000; 33796000353899000000000000; 34330168810822200000000000; 34840068238398700000000000; 35324633783659800000000000; 35783020723097200000000000;
36214607022459900000000000; 36618993157991100000000000; 36995999239765100000000000; 37345659516624500000000000; 37668214379692100000000000; 37964100016972600000000000;
38233935904633200000000000; 38478510350655300000000000; 38698764333232400000000000; 38895773899151600000000000; 39070731406098900000000000; 39224925907096500000000000;
39359722984903600000000000; 39476544349060600000000000; 39576847508269200000000000; 39662105825983500000000000; 39733789257543400000000000; 39793346053056000000000000;
39842185691770000000000000; 39881663291181600000000000; 39913065707923900000000000; 39937599518044400000000000; 39956381032029100000000000; 39970428465405200000000000;
39980656349487900000000000; 39987872229404000000000000; 39992775658515600000000000; 39995959460378900000000000; 39997913192005200000000000; 39999028706021500000000000;
39999607674939200000000000; 39999870908656900000000000; 39999969267052400000000000; 39999995943528600000000000; 39999999873059900000000000].
