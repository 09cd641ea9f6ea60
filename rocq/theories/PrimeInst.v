(** The four field characteristics are prime (P434/P503/P610/P751 files under
    c-impl/PQCrypto-SIDH/src, table p434 and its siblings). *)
From Coq Require Import Znumtheory.
From Bignums Require Import BigZ.
From Verif Require Import Base Params Wf Primality.
Open Scope Z_scope.

Definition bp434 : bigZ := BigZ.sub (BigZ.mul (BigZ.pow 2%bigZ 216%bigZ) (BigZ.pow 3%bigZ 137%bigZ)) 1%bigZ.
Definition bg434 : bcx := (4887884732269044310381829002291498723817156048752319302265161467241044247866395345194043334365723689179743805338576987868462946714%bigZ, 9775769464538088620763658004582997447634312097504638604530322934482088495732790690388086668731447378359487610677153975736925893426%bigZ).
Lemma bp434_val : BigZ.to_Z bp434 + 1 = 2 ^ 216 * 3 ^ 137.
Proof. unfold bp434. rewrite BigZ.spec_sub, BigZ.spec_mul, !BigZ.spec_pow. vm_compute. reflexivity. Qed.
Lemma bcheck_434 : bcheck bp434 216 137 bg434 = true.
Proof. vm_cast_no_check (eq_refl true). Qed.
Lemma prime_434 : prime (2 ^ 216 * 3 ^ 137 - 1).
Proof.
  replace (2 ^ 216 * 3 ^ 137 - 1) with (BigZ.to_Z bp434) by (pose proof bp434_val; lia).
  apply (bcheck_prime bp434 216 137 bg434); try lia; [exact bp434_val|exact bcheck_434].
Qed.

Definition bp503 : bigZ := BigZ.sub (BigZ.mul (BigZ.pow 2%bigZ 250%bigZ) (BigZ.pow 3%bigZ 159%bigZ)) 1%bigZ.
Definition bg503 : bcx := (2635168631381423476167850583239869008498437353515672799689132695407168786404152246703782982309204870321721430078017531396596461266203918792230847486362%bigZ, 5270337262762846952335701166479738016996874707031345599378265390814337572808304493407565964618409740643442860156035062793192922532407837584461694972722%bigZ).
Lemma bp503_val : BigZ.to_Z bp503 + 1 = 2 ^ 250 * 3 ^ 159.
Proof. unfold bp503. rewrite BigZ.spec_sub, BigZ.spec_mul, !BigZ.spec_pow. vm_compute. reflexivity. Qed.
Lemma bcheck_503 : bcheck bp503 250 159 bg503 = true.
Proof. vm_cast_no_check (eq_refl true). Qed.
Lemma prime_503 : prime (2 ^ 250 * 3 ^ 159 - 1).
Proof.
  replace (2 ^ 250 * 3 ^ 159 - 1) with (BigZ.to_Z bp503) by (pose proof bp503_val; lia).
  apply (bcheck_prime bp503 250 159 bg503); try lia; [exact bp503_val|exact bcheck_503].
Qed.

Definition bp610 : bigZ := BigZ.sub (BigZ.mul (BigZ.pow 2%bigZ 305%bigZ) (BigZ.pow 3%bigZ 192%bigZ)) 1%bigZ.
Definition bg610 : bcx := (855872565753490596312525632201606520059533047952612643270402450745612919787208048701586658487079740588448407596935556103135289866635371417537534212693863529950352203605163982630321291%bigZ, 2496294983447680905911533093921352350173638056528453542872007148008037682712690142046294420587315910049641188824395371967477928777686499967817808120357101962355193927181728282671770429%bigZ).
Lemma bp610_val : BigZ.to_Z bp610 + 1 = 2 ^ 305 * 3 ^ 192.
Proof. unfold bp610. rewrite BigZ.spec_sub, BigZ.spec_mul, !BigZ.spec_pow. vm_compute. reflexivity. Qed.
Lemma bcheck_610 : bcheck bp610 305 192 bg610 = true.
Proof. vm_cast_no_check (eq_refl true). Qed.
Lemma prime_610 : prime (2 ^ 305 * 3 ^ 192 - 1).
Proof.
  replace (2 ^ 305 * 3 ^ 192 - 1) with (BigZ.to_Z bp610) by (pose proof bp610_val; lia).
  apply (bcheck_prime bp610 305 192 bg610); try lia; [exact bp610_val|exact bcheck_610].
Qed.

Definition bp751 : bigZ := BigZ.sub (BigZ.mul (BigZ.pow 2%bigZ 372%bigZ) (BigZ.pow 3%bigZ 239%bigZ)) 1%bigZ.
Definition bg751 : bcx := (3982583746834348174222218553025694354395149863672719680813919107328722669493261094808801114061948736009443542930323154763539966144816367074247754026450443006529502630799582051676307588827990356530859648788842885335640635221859%bigZ, 9558200992402435618133324527261666450548359672814527233953405857588934406783826627541122673748676966422664503032775571432495918747559280978194609663481063215670806313918996924023138213187176855674063157093222924805537524532459%bigZ).
Lemma bp751_val : BigZ.to_Z bp751 + 1 = 2 ^ 372 * 3 ^ 239.
Proof. unfold bp751. rewrite BigZ.spec_sub, BigZ.spec_mul, !BigZ.spec_pow. vm_compute. reflexivity. Qed.
Lemma bcheck_751 : bcheck bp751 372 239 bg751 = true.
Proof. vm_cast_no_check (eq_refl true). Qed.
Lemma prime_751 : prime (2 ^ 372 * 3 ^ 239 - 1).
Proof.
  replace (2 ^ 372 * 3 ^ 239 - 1) with (BigZ.to_Z bp751) by (pose proof bp751_val; lia).
  apply (bcheck_prime bp751 372 239 bg751); try lia; [exact bp751_val|exact bcheck_751].
Qed.

Definition bptoy : bigZ := BigZ.sub (BigZ.mul (BigZ.pow 2%bigZ 8%bigZ) (BigZ.pow 3%bigZ 5%bigZ)) 1%bigZ.
Definition bgtoy : bcx := (12442%bigZ, 24882%bigZ).
Lemma bptoy_val : BigZ.to_Z bptoy + 1 = 2 ^ 8 * 3 ^ 5.
Proof. unfold bptoy. rewrite BigZ.spec_sub, BigZ.spec_mul, !BigZ.spec_pow. vm_compute. reflexivity. Qed.
Lemma bcheck_toy : bcheck bptoy 8 5 bgtoy = true.
Proof. vm_cast_no_check (eq_refl true). Qed.
Lemma prime_toy : prime (2 ^ 8 * 3 ^ 5 - 1).
Proof.
  replace (2 ^ 8 * 3 ^ 5 - 1) with (BigZ.to_Z bptoy) by (pose proof bptoy_val; lia).
  apply (bcheck_prime bptoy 8 5 bgtoy); try lia; [exact bptoy_val|exact bcheck_toy].
Qed.
