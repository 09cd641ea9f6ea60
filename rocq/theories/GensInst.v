(** The generator tables of the four parameter sets are bases of the torsion: evaluation of the check of GensP.
    The data are the coordinates of the points; the y-coordinates occur nowhere in /repo. *)
From Bignums Require Import BigZ.
From Verif Require Import Base Params Fp Wf FpInst Primality PrimeInst BaseP Out Ops Sidh Sike SikeP WordOps WordIsog WordSidh Gens GensP.
Open Scope Z_scope.

Definition d434A : gdata := mkGd
  (2634539327592482918121599540115765431217195093350648632832477775508933673747596362667240890051240463853167541162279343167040310088%bigZ, 18590308952679468489364793668589003541299106140709579196186461020066893645141198854487503147226318730158493210982567772716162869840%bigZ)
  (5939431588570449369158683956508528496223453666822913355462649580540912662646185179439579066285003135015364670770167824366051544351%bigZ, 13455704735691655302298811388539123261893682801800581597574165560696355678020645361403425129051999404542345275957892384971808056016%bigZ)
  (8633131302536015373065425580178973814526244742660764898957635611033517358603093513483897324469034427019598357249425684820405193836%bigZ, 1640555213321637736080614728970921962714590288563692816952785470842808462670732196555713644986698688787353020078064569199240185333%bigZ)
  (4162970909124556003706955607859322868250797816630835660512553175654915928672047062846911893014330914397962880488079687378531477530%bigZ, 14394117136099871253105325964947616186856299274446824136456631692972014765735522929249115327770935064507795922916178933171663555625%bigZ)
  (10548244869191429978994573331033429460802791853191679921432716242390096998215982561051229194803656270150791181542353263212179039510%bigZ, 17623338845092751517427595119320347017334966146230013113905734683582704966390296970846105400364294574370981828797535336936167097772%bigZ).
Definition d434B : gdata := mkGd
  (5822289030790821842647204127346110197186614331916510409554480418611145246532692679762948023941031185216358707524703325193156147113%bigZ, 0%bigZ)
  (4631002038627486062145710538859886699092897850004224163519174820337269208909673679867855016325656365561668068341925816094377133115%bigZ, 0%bigZ)
  (13106015910647201458426811493288965923311702902321179794984306791335898269651901670809619116119997952683697617529379507339288983622%bigZ, 0%bigZ)
  (0%bigZ, 10209775938515962501771741506081580425243588708606392462054462399651871393790372518908435424495021346995173633235373991504988757970%bigZ)
  (19978714732817982296321998790126652405475699311529669091328949981490769847281914491438519436155586335833863255694913096932863948652%bigZ, 14167827257511306746606440016400170231086622175754382579855491498256779752299521404090563911050166061448571907478184141518856743652%bigZ).
Lemma check2_434 : check2 bp434 216 d434A = true. Proof. vm_cast_no_check (eq_refl true). Qed.
Lemma check3_434 : check3 bp434 137 d434B = true. Proof. vm_cast_no_check (eq_refl true). Qed.
Lemma gens_434 t : torsion_gens (P434 t) (good_434 t) (genA (P434 t)) (genB (P434 t)).
Proof.
  apply (gens_sound (P434 t) (good_434 t) bp434) with (dA := d434A) (dB := d434B).
  - pose proof bp434_val as E. replace (BigZ.to_Z bp434) with (2 ^ 216 * 3 ^ 137 - 1) by lia. destruct t; vm_compute; reflexivity.
  - destruct t; vm_cast_no_check (eq_refl true).
  - destruct t; vm_cast_no_check (eq_refl true).
  - exact check2_434.
  - exact check3_434.
Qed.

Definition d503A : gdata := mkGd
  (598731473478175178061187348602069297333549163428939979629523574390608068248963076780259720359959333459849068307643602107176506677543421128505637017208%bigZ, 6320532212404399382016063711621672519097819289093008132287422899586558654154409534465288623620152707063792403841177958686744730460358867369790214313426%bigZ)
  (7426962917961886750223017992649030370937754287299592176293296013750046278528127270441749990770397646543053639338703118870066071949533225567468389035535%bigZ, 4933101381662632860793723128899783676713316867789870876301082420674288633349127213108982942657184880054878201780353332330135295382721630567005079288999%bigZ)
  (10303639081125516279001395287746760176758405254609941364872116054854162905961918713361681608991552251201029580427357273234152024018341363107600917423201%bigZ, 12782700525274606080563088995687953414271121242085716929817360778487970449266550563914806669696607531319998303840529920531168654117474642657984154795441%bigZ)
  (11907913747401263372631993650383474010460887355731972007259579839843387604583306264088777388731137707596732200482457305106853755102838384483226607408980%bigZ, 5292840094190856756897919330752760358645449293970119310207955661961420744230791925978770188802827628077305751047954330175704766117841777492781885522580%bigZ)
  (12509218309718532854332942208346153574542996164252915421699889272598958199135267399861163567618642166784471853904581905190717363517810244763641679761055%bigZ, 1335105158761904375086321733636949601061387148884944277886595669505349266124420727230365047604242373250586612001990261861820516208603215663680538711192%bigZ).
Definition d503B : gdata := mkGd
  (10395771746384663457709878182675363876289472956896319955035800944963560043487131351381624225079611557910169511157250351409611867388651460757963950045919%bigZ, 0%bigZ)
  (9309552127100257329408002157658859489453309131568607095068230354479868403549207476529964476434226430001454218770443683472755151470484422193528293469683%bigZ, 0%bigZ)
  (11662485637823763116959534565001872592010882475641226843176985866588019368676991560369559249358763311711849556241666760730606211268182513109721338236243%bigZ, 0%bigZ)
  (0%bigZ, 7634548483727126773543333352398604451954368718228168550650277018082903630942062065511172438901759852748000940036717851411221926820916595391278637026820%bigZ)
  (154459043155387065396424009957419869712039499996384186684154952283149434421831909414629931121223671648463292265394714392291130151414443679316615935266%bigZ, 8286885299052081621711535235896514343196092250707482373802887092860779668469128499005462149290615896285463027295046426298617122298134606667068233750360%bigZ).
Lemma check2_503 : check2 bp503 250 d503A = true. Proof. vm_cast_no_check (eq_refl true). Qed.
Lemma check3_503 : check3 bp503 159 d503B = true. Proof. vm_cast_no_check (eq_refl true). Qed.
Lemma gens_503 t : torsion_gens (P503 t) (good_503 t) (genA (P503 t)) (genB (P503 t)).
Proof.
  apply (gens_sound (P503 t) (good_503 t) bp503) with (dA := d503A) (dB := d503B).
  - pose proof bp503_val as E. replace (BigZ.to_Z bp503) with (2 ^ 250 * 3 ^ 159 - 1) by lia. destruct t; vm_compute; reflexivity.
  - destruct t; vm_cast_no_check (eq_refl true).
  - destruct t; vm_cast_no_check (eq_refl true).
  - exact check2_503.
  - exact check3_503.
Qed.

Definition d610A : gdata := mkGd
  (1806736940449204756670130402045974891976541035129146635282788880605274195484852513511499140814745888005770886742088608789738701225260796101949251672750216548726048403327295530268488300%bigZ, 1351032392344570862820165806841417419483707333389008032303844817986587931915067411261641353376786861740821136696258561077148293590024228334589369728107287048428009459387461704345197218%bigZ)
  (724104148919033259388787147002746650240606969831351664237149209525419030402697893125846026474813514039364466851680546192200753099218569726444062177876475434157913725059437376391400024%bigZ, 514122848961937801046835474049829607110058367441656688271732390392982175253590018018076517770621670290391212737378307120625195428532336692810392832602313110827539508405519680065727399%bigZ)
  (157069315455315725572406262836101190536820419345266922310200723719159706129514384706934713497529220788845330796136656469811063377500153295284407501527218118951386898985387213358467978%bigZ, 2278312578911463860663452047317840188913500964088463497564614625278006320197173705099325691383536120882530302172224873945210653977858551912928766782033403861412424442219027598444372205%bigZ)
  (1954313573333823156436442330838670254141057464150795915877255983006845309802561572954411816223906710089136509212288667148915465696797317853304890106805179194511090613005664918750686515%bigZ, 506996625125987981788448012270391793282908554348267823291015660064424001005635809237346049520980222738986184525348307546443158234640977679277103586671611047886068650086063784828186473%bigZ)
  (1806757458218259225156534580511548505833883774142338473287942070985938962041251026714693281304444695051081172458270390380464507723783778567071195320180990351856314147239093354974560181%bigZ, 1609131430270017471990006924510606609431891799867136925322674553530669498358084247117993461750586570202830035499520725525396028899931410374987906357459699445433374400400750016649013650%bigZ).
Definition d610B : gdata := mkGd
  (1429380650836801398435074225540873431964527974757736685640904411443279737690636600949107717631340803268699150860993995901981057449903476488360396389680606139935614560386298802463567851%bigZ, 0%bigZ)
  (86922338762137764722249229503399840011748426938614565165720420711418613695847056338321754727088992463807067011159743359520826426882081401616192743451060098430406302548560564784275248%bigZ, 0%bigZ)
  (1387566999709320073344076391171172507738190670755781932803785722061027377438810471125423396121694767682815386582033193953279150259291357025344318501976216211001662765956497194286817351%bigZ, 0%bigZ)
  (0%bigZ, 956269241486681620129413265985396885225285468299622733925657142107888353766338280468038649293217037815600441332404132752013327889696962453572069418479767380512285984353519960428869979%bigZ)
  (1972895850285459029794960334469425167487807650191402546363441621434982885771442857918903807540216972404065512911628943430544935487752338262279560904794385436987010367702239754753360418%bigZ, 1804050615893003794750561676329461570838418813828126329026032658780644412457060169809428216963063524684911526771046147309867689093694679672105409554258338717969948675911849061206166344%bigZ).
Lemma check2_610 : check2 bp610 305 d610A = true. Proof. vm_cast_no_check (eq_refl true). Qed.
Lemma check3_610 : check3 bp610 192 d610B = true. Proof. vm_cast_no_check (eq_refl true). Qed.
Lemma gens_610 t : torsion_gens (P610 t) (good_610 t) (genA (P610 t)) (genB (P610 t)).
Proof.
  apply (gens_sound (P610 t) (good_610 t) bp610) with (dA := d610A) (dB := d610B).
  - pose proof bp610_val as E. replace (BigZ.to_Z bp610) with (2 ^ 305 * 3 ^ 192 - 1) by lia. destruct t; vm_compute; reflexivity.
  - destruct t; vm_cast_no_check (eq_refl true).
  - destruct t; vm_cast_no_check (eq_refl true).
  - exact check2_610.
  - exact check3_610.
Qed.

Definition d751A : gdata := mkGd
  (6392653750389499144594798145926583444354409039583606858359849849952175922439864668710005278778374444865434395866810086432449384862893379044515952989369610078853427396744868696171536543536691791447062025853410930611265727936250%bigZ, 1993436594774325849134512059294984900092784525889309731865924302516333954639088053874784298502590615500299169775920492705338536494948131816798689951115100682529755597000522266521373993031102110056636212011317531431383151419457%bigZ)
  (9247561791639700308919663107747389810162712094554375412255326325523073102380394676797573527834115015313117465754859533501369969873773397723456556675506747402160405921967469917480003880221889567490084040289902466364882051607127%bigZ, 8410356927494312285187073482780420792515820835044177126889672090440017632758357493072853735551054168879467716099648873692928286881114924733792187243585672698913280382197829936159494515960785972718545366807421318769978028646529%bigZ)
  (2141306817115640038993862181765492931500972641785085350947220052387904285572880641340973064166142567836013875254694387171253686309941716659316458912387577733949836538957913038827049600784199475852241950366745525218545897974030%bigZ, 3462139332946457351613256472394206428708902796442953775366163334092154110965882738568198703970873585433373209361346635159539572450380354861849053160099274714477389537230240941950694098078938506114926490884815238642940114646471%bigZ)
  (5383666533092486714847461593265900570819791506794988927186620828665840923123900217595990075043682305247165255510000605374687560428773530620189222584262511048630714680572078219525179617277933044284019771928602630801277160484523%bigZ, 8954299928771936332062216555686428039790492316302219769147431701241971172458021787368901805188682166197589586832719387500582488288660450142597093487406646085156999051283144453448593208236383907820353677617513234450146921666526%bigZ)
  (8920767099889265354270903767976190589347780532338110811601966065539889197224092469005030134458217535515117192741315988190233956060833229415177951494574325212388096836354324553840374916089004540013556866495215628182837045568955%bigZ, 7485054888408186199988187951947272686736588976237807119427933559723580777349951819085282578750816796140208081851358534302244661919771165437390420226722284298495663460285754671947773474537816261384790115136982920513335294841189%bigZ).
Definition d751B : gdata := mkGd
  (8917296521312037934018779383955573993264347381711746006893090701936594237023232166684104618705889709151882479004705477580016078091729035680421189641116128972780575456542140523559278016360828837041023736833315936592076152779518%bigZ, 0%bigZ)
  (2377565889714143383335748974228750316369281985064679658127207622879541362842475435772709313377958381629996664175469014842333337692849954715390040534493917153868793565112827867106608451513463331154966763771251612437312246249960%bigZ, 0%bigZ)
  (8511019311184218364369646557252415173765495706553816075924705665118452233626065646710473783622713033004291163624815196837285573011460225202480327659675906178097793861901498715713456623486950717478378070640744966049319812387057%bigZ, 0%bigZ)
  (0%bigZ, 5605691888548155805588620430004646826322105701293681452143720262470942943608008792664234512354847485276767855611060858353893946678516523226918092803442191503844598649846129089082808194761547180843303509015807356423798641118652%bigZ)
  (7948472920477987382026230091597296324770743133322382953559027144948810258767547973629670019619498810386907603969957459770220385943384654803338204542090155222002874700542244358439397441360179573140328384790672595434635205779427%bigZ, 8399745264634857705578681279266694258039523836471824133317786739845301013095107323108209992417182837952421722872170331095872127782294209276940273704388772866734580589843768351599575913837321305038643830671122310284823719495713%bigZ).
Lemma check2_751 : check2 bp751 372 d751A = true. Proof. vm_cast_no_check (eq_refl true). Qed.
Lemma check3_751 : check3 bp751 239 d751B = true. Proof. vm_cast_no_check (eq_refl true). Qed.
Lemma gens_751 t : torsion_gens (P751 t) (good_751 t) (genA (P751 t)) (genB (P751 t)).
Proof.
  apply (gens_sound (P751 t) (good_751 t) bp751) with (dA := d751A) (dB := d751B).
  - pose proof bp751_val as E. replace (BigZ.to_Z bp751) with (2 ^ 372 * 3 ^ 239 - 1) by lia. destruct t; vm_compute; reflexivity.
  - destruct t; vm_cast_no_check (eq_refl true).
  - destruct t; vm_cast_no_check (eq_refl true).
  - exact check2_751.
  - exact check3_751.
Qed.

Definition configurations : list params := [P434 T64; P503 T64; P610 T64; P751 T64; P434 T32; P503 T32; P610 T32; P751 T32].
Lemma gens_configurations P : In P configurations -> exists HG : good P, torsion_gens P HG (genA P) (genB P).
Proof.
  unfold configurations. cbn [In]. intros H. destruct H as [<-|[<-|[<-|[<-|[<-|[<-|[<-|[<-|[]]]]]]]]];
    eexists; first [apply gens_434|apply gens_503|apply gens_610|apply gens_751].
Qed.
Lemma sidh_configurations P : In P configurations -> forall skA skB differ square,
  length skA = skA_bytes P -> length skB = skB_bytes P -> exists pkA pkB s,
  EphemeralKeyGeneration_A (word_ops P) P (genA P) (genB P) skA = Ok pkA /\
  EphemeralKeyGeneration_B (word_ops P) P (genA P) (genB P) skB = Ok pkB /\
  EphemeralSecretAgreement_A (word_ops P) P skA pkB = Ok s /\
  EphemeralSecretAgreement_B (word_ops P) P differ square skB pkA = Ok (Some s) /\
  length pkA = pk_bytes P /\ length pkB = pk_bytes P /\ length s = ss_bytes P /\ digits 256 pkA /\ digits 256 pkB /\ digits 256 s.
Proof.
  intros HI skA skB differ square LA LB. destruct (gens_configurations P HI) as [HG HT].
  exact (sidh_agree_word P HG (strat_configurations P HI) _ _ HT skA skB differ square LA LB).
Qed.
Lemma sike_configurations P : In P configurations -> forall differ square ssb maskA maskB tp tp1 temp, let msgb := msg_bytes P in
  digits 256 tp -> digits 256 tp1 -> (msgb + skB_bytes P <= length tp)%nat -> (msgb <= length tp1)%nat -> length temp = msgb -> digits 256 temp ->
  let kgA := EphemeralKeyGeneration_A (word_ops P) P (genA P) (genB P) in let kgB := EphemeralKeyGeneration_B (word_ops P) P (genA P) (genB P) in
  let agB b pk := EphemeralSecretAgreement_B_extended (word_ops P) P differ square b pk true in
  exists pk sk ct ss tp' tp1', crypto_kem_keypair msgb (skB_bytes P) maskB kgB tp = Ok (pk, sk, tp') /\
    crypto_kem_enc msgb (skA_bytes P) ssb maskA kgA (EphemeralSecretAgreement_A (word_ops P) P) pk tp1 = Ok (ct, ss, tp1') /\
    (not_rejected msgb (skB_bytes P) (pk_bytes P) agB sk ct ->
     crypto_kem_dec msgb (skA_bytes P) (skB_bytes P) (pk_bytes P) ssb maskA kgA agB ct sk temp = Ok ss).
Proof.
  intros HI differ square ssb maskA maskB tp tp1 temp msgb D D1 L L1 Lt Dt. destruct (gens_configurations P HI) as [HG HT].
  exact (sike_word P HG (strat_configurations P HI) _ _ HT differ square msgb ssb maskA maskB tp tp1 temp D D1 L L1 Lt Dt).
Qed.
