(** Parameter sets: the constant tables of S/P434/P434.c, S/P503/P503.c, S/P610/P610.c,
    S/P751/P751.c and the numeric macros of S/Pxxx/Pxxx_internal.h, S/poik.h
    (S = /repo/c-impl/PQCrypto-SIDH/src).  Literal data, transcribed; nothing is computed
    here except the splitting of the uint64_t tables into 32-bit digits.  The addition
    chains of S/fpx.c:360-777 are recorded as data and interpreted in Fpx.v. *)
From Verif Require Import Base.

(** One multiplication of an addition chain: square [tt] [k] times, then multiply by [a]
    ([None]) or by [t[i]] ([Some i]). *)
Definition chain_step : Type := nat * option nat.

Record params := mkparams {
  radix : Z;            (* RADIX, config.h *)
  nwords : nat;         (* NWORDS_FIELD *)
  zwords : nat;         (* pXXX_ZERO_WORDS *)
  w_p : list Z;         (* pXXX *)
  w_px2 : list Z;       (* pXXXx2 *)
  w_px4 : list Z;       (* pXXXx4 *)
  w_pp1 : list Z;       (* pXXXp1 *)
  w_R2 : list Z;        (* Montgomery_R2 *)
  w_one : list Z;       (* Montgomery_one *)
  nbits : Z;            (* NBITS_FIELD *)
  e2 : nat;             (* OALICE_BITS *)
  e3 : nat;             (* OBOB_EXPON *)
  max_alice : nat; max_bob : nat;           (* MAX_Alice, MAX_Bob *)
  max_int_alice : nat; max_int_bob : nat;   (* MAX_INT_POINTS_* *)
  strat_alice : list nat; strat_bob : list nat;
  inv_size : nat;                  (* felm_t t[..] of fpinv_chain_mont *)
  inv_table : list (nat * nat);    (* fpmul_mont(t[i], tt, t[j]) *)
  inv_steps : list chain_step;
  inv_loop : nat * list chain_step; (* the trailing for-loop over j *)
  obob_bits : Z;                   (* OBOB_BITS *)
  mask_alice : Z; mask_bob : Z;    (* MASK_ALICE, MASK_BOB *)
  msg_bytes : nat;                 (* MSG_BYTES *)
  w_Agen : list Z; w_Bgen : list Z; (* A_gen, B_gen *)
  poik_reps : nat; poik_width : nat; poik_height : nat; (* poik.h *)
  poik_hash : nat; poik_hide : nat
}.

(** FP2_ENCODED_BYTES / 2 = (NBITS_FIELD + 7) / 8, Pxxx_internal.h:54 *)
Definition fp_bytes (P : params) : nat := Z.to_nat ((nbits P + 7) / 8).

(** The cast (digit_t * )table on a little-endian 32-bit target: each uint64_t is two digits. *)
Definition split32 (l : list Z) : list Z := flat_map (fun x => [x mod 2 ^ 32; x / 2 ^ 32]) l.

(** The two widths of digit_t (config.h:22-58). *)
Inductive target := T64 | T32.
Definition view (t : target) (l : list Z) : list Z := match t with T64 => l | T32 => split32 l end.
Definition on (t : target) {A} (x y : A) : A := match t with T64 => x | T32 => y end.

(* S/P434/P434.c:28-29 p434 *)
Definition t434_p : list Z :=
    [ 0xFFFFFFFFFFFFFFFF; 0xFFFFFFFFFFFFFFFF; 0xFFFFFFFFFFFFFFFF; 0xFDC1767AE2FFFFFF;
      0x7BC65C783158AEA3; 0x6CFC5FD681C52056; 0x0002341F27177344 ].
(* S/P434/P434.c:30-31 p434x2 *)
Definition t434_px2 : list Z :=
    [ 0xFFFFFFFFFFFFFFFE; 0xFFFFFFFFFFFFFFFF; 0xFFFFFFFFFFFFFFFF; 0xFB82ECF5C5FFFFFF;
      0xF78CB8F062B15D47; 0xD9F8BFAD038A40AC; 0x0004683E4E2EE688 ].
(* S/P434/P434.c:32-33 p434x4 *)
Definition t434_px4 : list Z :=
    [ 0xFFFFFFFFFFFFFFFC; 0xFFFFFFFFFFFFFFFF; 0xFFFFFFFFFFFFFFFF; 0xF705D9EB8BFFFFFF;
      0xEF1971E0C562BA8F; 0xB3F17F5A07148159; 0x0008D07C9C5DCD11 ].
(* S/P434/P434.c:36-37 p434p1 *)
Definition t434_pp1 : list Z :=
    [ 0x0000000000000000; 0x0000000000000000; 0x0000000000000000; 0xFDC1767AE3000000;
      0x7BC65C783158AEA3; 0x6CFC5FD681C52056; 0x0002341F27177344 ].
(* S/P434/P434.c:69-70 Montgomery_R2 *)
Definition t434_R2 : list Z :=
    [ 0x28E55B65DCD69B30; 0xACEC7367768798C2; 0xAB27973F8311688D; 0x175CC6AF8D6C7C0B;
      0xABCD92BF2DDE347E; 0x69E16A61C7686D9A; 0x000025A89BCDD12A ].
(* S/P434/P434.c:72-73 Montgomery_one *)
Definition t434_one : list Z :=
    [ 0x000000000000742C; 0x0000000000000000; 0x0000000000000000; 0xB90FF404FC000000;
      0xD801A4FB559FACD4; 0xE93254545F77410C; 0x0000ECEEA7BD2EDA ].
(* S/P434/P434.c:43-54 A_gen *)
Definition t434_Agen : list Z :=
    [ 0x05ADF455C5C345BF; 0x91935C5CC767AC2B; 0xAFE4E879951F0257; 0x70E792DC89FA27B1;
      0xF797F526BB48C8CD; 0x2181DB6131AF621F; 0x00000A1C08B1ECC4; 0x74840EB87CDA7788;
      0x2971AA0ECF9F9D0B; 0xCB5732BDF41715D5; 0x8CD8E51F7AACFFAA; 0xA7F424730D7E419F;
      0xD671EB919A179E8C; 0x0000FFA26C5A924A; 0xFEC6E64588B7273B; 0xD2A626D74CBBF1C6;
      0xF8F58F07A78098C7; 0xE23941F470841B03; 0x1B63EDA2045538DD; 0x735CFEB0FFD49215;
      0x0001C4CB77542876; 0xADB0F733C17FFDD6; 0x6AFFBD037DA0A050; 0x680EC43DB144E02F;
      0x1E2E5D5FF524E374; 0xE2DDA115260E2995; 0xA6E4B552E2EDE508; 0x00018ECCDDF4B53E;
      0x01BA4DB518CD6C7D; 0x2CB0251FE3CC0611; 0x259B0C6949A9121B; 0x60E17AC16D2F82AD;
      0x3AA41F1CE175D92D; 0x413FBE6A9B9BC4F3; 0x00022A81D8D55643; 0xB8ADBC70FC82E54A;
      0xEF9CDDB0D5FADDED; 0x5820C734C80096A0; 0x7799994BAA96E0E4; 0x044961599E379AF8;
      0xDB2B94FBF09F27E2; 0x0000B87FC716C0C6 ].
(* S/P434/P434.c:56-67 B_gen *)
Definition t434_Bgen : list Z :=
    [ 0x6E5497556EDD48A3; 0x2A61B501546F1C05; 0xEB919446D049887D; 0x5864A4A69D450C4F;
      0xB883F276A6490D2B; 0x22CC287022D5F5B9; 0x0001BED4772E551F; 0x0000000000000000;
      0x0000000000000000; 0x0000000000000000; 0x0000000000000000; 0x0000000000000000;
      0x0000000000000000; 0x0000000000000000; 0xFAE2A3F93D8B6B8E; 0x494871F51700FE1C;
      0xEF1A94228413C27C; 0x498FF4A4AF60BD62; 0xB00AD2A708267E8A; 0xF4328294E017837F;
      0x000034080181D8AE; 0x0000000000000000; 0x0000000000000000; 0x0000000000000000;
      0x0000000000000000; 0x0000000000000000; 0x0000000000000000; 0x0000000000000000;
      0x283B34FAFEFDC8E4; 0x9208F44977C3E647; 0x7DEAE962816F4E9A; 0x68A2BA8AA262EC9D;
      0x8176F112EA43F45B; 0x02106D022634F504; 0x00007E8A50F02E37; 0xB378B7C1DA22CCB1;
      0x6D089C99AD1D9230; 0xEBE15711813E2369; 0x2B35A68239D48A53; 0x445F6FD138407C93;
      0xBEF93B29A3F6B54B; 0x000173FA910377D3 ].
(* S/P434/P434.c:77-80 strat_Alice *)
Definition t434_stratA : list nat :=
    [ 48; 28; 16; 8; 4; 2; 1; 1; 2; 1; 1; 4; 2; 1; 1; 2; 1; 1; 8; 4; 2; 1; 1; 2; 1; 1; 4; 2; 1;
      1; 2; 1; 1; 13; 7; 4; 2; 1; 1; 2; 1; 1; 3; 2; 1; 1; 1; 1; 5; 4; 2; 1; 1; 2; 1; 1; 2; 1;
      1; 1; 21; 12; 7; 4; 2; 1; 1; 2; 1; 1; 3; 2; 1; 1; 1; 1; 5; 3; 2; 1; 1; 1; 1; 2; 1; 1; 1;
      9; 5; 3; 2; 1; 1; 1; 1; 2; 1; 1; 1; 4; 2; 1; 1; 1; 2; 1; 1 ]%nat.
(* S/P434/P434.c:82-85 strat_Bob *)
Definition t434_stratB : list nat :=
    [ 66; 33; 17; 9; 5; 3; 2; 1; 1; 1; 1; 2; 1; 1; 1; 4; 2; 1; 1; 1; 2; 1; 1; 8; 4; 2; 1; 1; 1;
      2; 1; 1; 4; 2; 1; 1; 2; 1; 1; 16; 8; 4; 2; 1; 1; 1; 2; 1; 1; 4; 2; 1; 1; 2; 1; 1; 8; 4;
      2; 1; 1; 2; 1; 1; 4; 2; 1; 1; 2; 1; 1; 32; 16; 8; 4; 3; 1; 1; 1; 1; 2; 1; 1; 4; 2; 1; 1;
      2; 1; 1; 8; 4; 2; 1; 1; 2; 1; 1; 4; 2; 1; 1; 2; 1; 1; 16; 8; 4; 2; 1; 1; 2; 1; 1; 4; 2;
      1; 1; 2; 1; 1; 8; 4; 2; 1; 1; 2; 1; 1; 4; 2; 1; 1; 2; 1; 1 ]%nat.
(* S/fpx.c:365-440, precomputed table: t[0] = a*a^2, then fpmul_mont(t[i], tt, t[j]) *)
Definition t434_invtab : list (nat * nat) :=
    [ (0, 1); (1, 2); (2, 3); (3, 4); (4, 5); (5, 6); (6, 7); (7, 8); (8, 9); (9, 10);
      (10, 11); (11, 12); (12, 13); (13, 14); (14, 15); (15, 16); (16, 17); (17, 18); (18, 19);
      (19, 20); (20, 21); (21, 22); (22, 23); (23, 24); (24, 25); (25, 26); (26, 27); (27, 28);
      (28, 29); (29, 30) ]%nat.
Definition t434_invsteps : list chain_step :=
    [ (7, Some 5); (10, Some 14); (6, Some 3); (6, Some 23); (6, Some 13); (6, Some 24);
      (6, Some 7); (8, Some 12); (8, Some 30); (6, Some 1); (6, Some 30); (7, Some 21);
      (9, Some 2); (9, Some 19); (9, Some 1); (7, Some 24); (6, Some 26); (6, Some 16);
      (7, Some 10); (7, Some 6); (7, Some 0); (9, Some 20); (8, Some 9); (6, Some 25);
      (9, Some 30); (6, Some 26); (6, None); (7, Some 28); (6, Some 6); (6, Some 10);
      (9, Some 22) ]%nat.
Definition t434_invloop : nat * list chain_step := (35, [(6, Some 30)])%nat.
(* S/P434/P434_internal.h:18-54, S/poik.h:12-60 *)
Definition P434 (t : target) : params := {|
  radix := on t 64 32; nwords := on t 7%nat 14%nat; zwords := on t 3%nat 6%nat;
  w_p := view t t434_p; w_px2 := view t t434_px2; w_px4 := view t t434_px4; w_pp1 := view t t434_pp1;
  w_R2 := view t t434_R2; w_one := view t t434_one;
  nbits := 434; e2 := 216; e3 := 137;
  max_alice := 108; max_bob := 137; max_int_alice := 7; max_int_bob := 8;
  strat_alice := t434_stratA; strat_bob := t434_stratB;
  inv_size := 31; inv_table := t434_invtab; inv_steps := t434_invsteps; inv_loop := t434_invloop;
  obob_bits := 218; mask_alice := 0xFF; mask_bob := 0x01; msg_bytes := 16;
  w_Agen := view t t434_Agen; w_Bgen := view t t434_Bgen;
  poik_reps := 219; poik_width := 4; poik_height := 7; poik_hash := 32; poik_hide := 64 |}.

(* S/P503/P503.c:28-29 p503 *)
Definition t503_p : list Z :=
    [ 0xFFFFFFFFFFFFFFFF; 0xFFFFFFFFFFFFFFFF; 0xFFFFFFFFFFFFFFFF; 0xABFFFFFFFFFFFFFF;
      0x13085BDA2211E7A0; 0x1B9BF6C87B7E7DAF; 0x6045C6BDDA77A4D0; 0x004066F541811E1E ].
(* S/P503/P503.c:30-31 p503x2 *)
Definition t503_px2 : list Z :=
    [ 0xFFFFFFFFFFFFFFFE; 0xFFFFFFFFFFFFFFFF; 0xFFFFFFFFFFFFFFFF; 0x57FFFFFFFFFFFFFF;
      0x2610B7B44423CF41; 0x3737ED90F6FCFB5E; 0xC08B8D7BB4EF49A0; 0x0080CDEA83023C3C ].
(* S/P503/P503.c:32-33 p503x4 *)
Definition t503_px4 : list Z :=
    [ 0xFFFFFFFFFFFFFFFC; 0xFFFFFFFFFFFFFFFF; 0xFFFFFFFFFFFFFFFF; 0xAFFFFFFFFFFFFFFF;
      0x4C216F6888479E82; 0x6E6FDB21EDF9F6BC; 0x81171AF769DE9340; 0x01019BD506047879 ].
(* S/P503/P503.c:36-37 p503p1 *)
Definition t503_pp1 : list Z :=
    [ 0x0000000000000000; 0x0000000000000000; 0x0000000000000000; 0xAC00000000000000;
      0x13085BDA2211E7A0; 0x1B9BF6C87B7E7DAF; 0x6045C6BDDA77A4D0; 0x004066F541811E1E ].
(* S/P503/P503.c:69-70 Montgomery_R2 *)
Definition t503_R2 : list Z :=
    [ 0x5289A0CF641D011F; 0x9B88257189FED2B9; 0xA3B365D58DC8F17A; 0x5BC57AB6EFF168EC;
      0x9E51998BD84D4423; 0xBF8999CBAC3B5695; 0x46E9127BCE14CDB6; 0x003F6CFCE8B81771 ].
(* S/P503/P503.c:72-73 Montgomery_one *)
Definition t503_one : list Z :=
    [ 0x00000000000003F9; 0x0000000000000000; 0x0000000000000000; 0xB400000000000000;
      0x63CB1A6EA6DED2B4; 0x51689D8D667EB37D; 0x8ACD77C71AB24142; 0x0026FBAEC60F5953 ].
(* S/P503/P503.c:43-54 A_gen *)
Definition t503_Agen : list Z :=
    [ 0x5D083011589AD893; 0xADFD8D2CB67D0637; 0x330C9AC34FFB6361; 0xF0D47489A2E805A2;
      0x27E2789259C6B8DC; 0x63866A2C121931B9; 0x8D4C65A7137DCF44; 0x003A183AE5967B3F;
      0x7E3541B8C96D1519; 0xD3ADAEEC0D61A26C; 0xC0A2219CE7703DD9; 0xFF3E46658FCDBC52;
      0xD5B38DEAE6E196FF; 0x1AAC826364956D58; 0xEC9F4875B9A5F27A; 0x001B0B475AB99843;
      0x4D83695107D03BAD; 0x221F3299005E2FCF; 0x78E6AE22F30DECF2; 0x6D982DB5111253E4;
      0x504C80A8AB4526A8; 0xEFD0C3AA210BB024; 0xCB77483501DC6FCF; 0x001052544A96BDF3;
      0x0D74FE3402BCAE47; 0xDF5B8CDA832D8AED; 0xB86BCF06E4BD837E; 0x892A2933A0FA1F63;
      0x9F88FC67B6CCB461; 0x822926EA9DDA3AC8; 0xEAC8DDE5855425ED; 0x000618FE6DA37A80;
      0x1D9D32D2DC877C17; 0x5517CD8F71D5B02B; 0x395AFB8F6B60C117; 0x3AE31AC85F9098C8;
      0x5F5341C198450848; 0xF8C609DBEA435C6A; 0xD832BC7EDC7BA5E4; 0x002AD98AA6968BF5;
      0xC466CAB0F73C2E5B; 0x7B1817148FB2CF9C; 0x873E87C099E470A0; 0xBB17AC6D17A7BAC1;
      0xA146FDCD0F2E2A58; 0x88B311E9CEAB6201; 0x37604CF5C7951757; 0x0006804071C74BF9 ].
(* S/P503/P503.c:56-67 B_gen *)
Definition t503_Bgen : list Z :=
    [ 0xDF630FC5FB2468DB; 0xC30C5541C102040E; 0x3CDC9987B76511FC; 0xF54B5A09353D0CDD;
      0x3ADBA8E00703C42F; 0x8253F9303DDC95D0; 0x62D30778763ABFD7; 0x001CD00FB581CD55;
      0x0000000000000000; 0x0000000000000000; 0x0000000000000000; 0x0000000000000000;
      0x0000000000000000; 0x0000000000000000; 0x0000000000000000; 0x0000000000000000;
      0x2E3457A12B429261; 0x311F94E89627DCF8; 0x5B71C98FD1DB73F6; 0x3671DB7DCFC21541;
      0xB6D1484C9FE0CF4F; 0x19CD110717356E35; 0xF4F9FB00AC9919DF; 0x0035BC124D38A70B;
      0x0000000000000000; 0x0000000000000000; 0x0000000000000000; 0x0000000000000000;
      0x0000000000000000; 0x0000000000000000; 0x0000000000000000; 0x0000000000000000;
      0x2E08BB99413D2952; 0xD3021467CD088D72; 0x21017AF859752245; 0x26314ED8FFD9DE5C;
      0x4AF43C73344B6686; 0xCFA1F91149DF0993; 0xF327A95365587A89; 0x000DBF54E03D3906;
      0x03E03FF342F5F304; 0x993D604D7B4B6E56; 0x80412F4D9280E71F; 0x0FFDC9EF990B3982;
      0xE584E64C51604931; 0x1374F42AC8B0BBD7; 0x07D5BC37DFA41A5F; 0x00396CCFD61FD34C ].
(* S/P503/P503.c:77-82 strat_Alice *)
Definition t503_stratA : list nat :=
    [ 61; 32; 16; 8; 4; 2; 1; 1; 2; 1; 1; 4; 2; 1; 1; 2; 1; 1; 8; 4; 2; 1; 1; 2; 1; 1; 4; 2; 1;
      1; 2; 1; 1; 16; 8; 4; 2; 1; 1; 2; 1; 1; 4; 2; 1; 1; 2; 1; 1; 8; 4; 2; 1; 1; 2; 1; 1; 4;
      2; 1; 1; 2; 1; 1; 29; 16; 8; 4; 2; 1; 1; 2; 1; 1; 4; 2; 1; 1; 2; 1; 1; 8; 4; 2; 1; 1; 2;
      1; 1; 4; 2; 1; 1; 2; 1; 1; 13; 8; 4; 2; 1; 1; 2; 1; 1; 4; 2; 1; 1; 2; 1; 1; 5; 4; 2; 1;
      1; 2; 1; 1; 2; 1; 1; 1 ]%nat.
(* S/P503/P503.c:84-90 strat_Bob *)
Definition t503_stratB : list nat :=
    [ 71; 38; 21; 13; 8; 4; 2; 1; 1; 2; 1; 1; 4; 2; 1; 1; 2; 1; 1; 5; 4; 2; 1; 1; 2; 1; 1; 2;
      1; 1; 1; 9; 5; 3; 2; 1; 1; 1; 1; 2; 1; 1; 1; 4; 2; 1; 1; 1; 2; 1; 1; 17; 9; 5; 3; 2; 1;
      1; 1; 1; 2; 1; 1; 1; 4; 2; 1; 1; 1; 2; 1; 1; 8; 4; 2; 1; 1; 1; 2; 1; 1; 4; 2; 1; 1; 2; 1;
      1; 33; 17; 9; 5; 3; 2; 1; 1; 1; 1; 2; 1; 1; 1; 4; 2; 1; 1; 1; 2; 1; 1; 8; 4; 2; 1; 1; 1;
      2; 1; 1; 4; 2; 1; 1; 2; 1; 1; 16; 8; 4; 2; 1; 1; 1; 2; 1; 1; 4; 2; 1; 1; 2; 1; 1; 8; 4;
      2; 1; 1; 2; 1; 1; 4; 2; 1; 1; 2; 1; 1 ]%nat.
(* S/fpx.c:442-539, precomputed table: t[0] = a*a^2, then fpmul_mont(t[i], tt, t[j]) *)
Definition t503_invtab : list (nat * nat) :=
    [ (0, 1); (1, 2); (2, 3); (3, 4); (4, 5); (5, 6); (6, 7); (7, 8); (8, 9); (9, 10);
      (10, 11); (11, 12); (12, 13); (13, 14) ]%nat.
Definition t503_invsteps : list chain_step :=
    [ (8, None); (5, Some 8); (5, Some 6); (6, Some 9); (7, Some 0); (7, None); (7, Some 6);
      (7, Some 2); (5, Some 8); (7, None); (8, Some 10); (5, Some 0); (6, Some 10);
      (5, Some 10); (5, Some 5); (5, Some 2); (5, Some 6); (5, Some 3); (6, Some 5);
      (12, Some 12); (5, Some 8); (5, Some 6); (5, Some 12); (6, Some 11); (8, Some 6);
      (5, Some 5); (5, Some 14); (7, Some 14); (5, Some 5); (5, Some 6); (8, Some 8);
      (5, None); (8, Some 4); (5, Some 6); (5, Some 5); (8, Some 7); (5, None); (5, Some 0);
      (5, Some 11); (5, Some 13); (8, Some 1); (6, Some 10) ]%nat.
Definition t503_invloop : nat * list chain_step := (49, [(5, Some 14)])%nat.
(* S/P503/P503_internal.h:18-54, S/poik.h:12-60 *)
Definition P503 (t : target) : params := {|
  radix := on t 64 32; nwords := on t 8%nat 16%nat; zwords := on t 3%nat 7%nat;
  w_p := view t t503_p; w_px2 := view t t503_px2; w_px4 := view t t503_px4; w_pp1 := view t t503_pp1;
  w_R2 := view t t503_R2; w_one := view t t503_one;
  nbits := 503; e2 := 250; e3 := 159;
  max_alice := 125; max_bob := 159; max_int_alice := 7; max_int_bob := 8;
  strat_alice := t503_stratA; strat_bob := t503_stratB;
  inv_size := 15; inv_table := t503_invtab; inv_steps := t503_invsteps; inv_loop := t503_invloop;
  obob_bits := 253; mask_alice := 0x03; mask_bob := 0x0F; msg_bytes := 24;
  w_Agen := view t t503_Agen; w_Bgen := view t t503_Bgen;
  poik_reps := 219; poik_width := 4; poik_height := 7; poik_hash := 32; poik_hide := 64 |}.

(* S/P610/P610.c:28-29 p610 *)
Definition t610_p : list Z :=
    [ 0xFFFFFFFFFFFFFFFF; 0xFFFFFFFFFFFFFFFF; 0xFFFFFFFFFFFFFFFF; 0xFFFFFFFFFFFFFFFF;
      0x6E01FFFFFFFFFFFF; 0xB1784DE8AA5AB02E; 0x9AE7BF45048FF9AB; 0xB255B2FA10C4252A;
      0x819010C251E7D88C; 0x000000027BF6A768 ].
(* S/P610/P610.c:30-31 p610x2 *)
Definition t610_px2 : list Z :=
    [ 0xFFFFFFFFFFFFFFFE; 0xFFFFFFFFFFFFFFFF; 0xFFFFFFFFFFFFFFFF; 0xFFFFFFFFFFFFFFFF;
      0xDC03FFFFFFFFFFFF; 0x62F09BD154B5605C; 0x35CF7E8A091FF357; 0x64AB65F421884A55;
      0x03202184A3CFB119; 0x00000004F7ED4ED1 ].
(* S/P610/P610.c:32-33 p610x4 *)
Definition t610_px4 : list Z :=
    [ 0xFFFFFFFFFFFFFFFC; 0xFFFFFFFFFFFFFFFF; 0xFFFFFFFFFFFFFFFF; 0xFFFFFFFFFFFFFFFF;
      0xB807FFFFFFFFFFFF; 0xC5E137A2A96AC0B9; 0x6B9EFD14123FE6AE; 0xC956CBE8431094AA;
      0x06404309479F6232; 0x00000009EFDA9DA2 ].
(* S/P610/P610.c:36-37 p610p1 *)
Definition t610_pp1 : list Z :=
    [ 0x0000000000000000; 0x0000000000000000; 0x0000000000000000; 0x0000000000000000;
      0x6E02000000000000; 0xB1784DE8AA5AB02E; 0x9AE7BF45048FF9AB; 0xB255B2FA10C4252A;
      0x819010C251E7D88C; 0x000000027BF6A768 ].
(* S/P610/P610.c:69-70 Montgomery_R2 *)
Definition t610_R2 : list Z :=
    [ 0xE75F5D201A197727; 0xE0B85963B627392E; 0x6BC1707818DE493D; 0xDC7F419940D1A0C5;
      0x7358030979EDE54A; 0x84F4BEBDEED75A5C; 0x7ECCA66E13427B47; 0xC5BB4E65280080B3;
      0x7019950F516DA19A; 0x000000008E290FF3 ].
(* S/P610/P610.c:72-73 Montgomery_one *)
Definition t610_one : list Z :=
    [ 0x00000000670CC8E6; 0x0000000000000000; 0x0000000000000000; 0x0000000000000000;
      0x9A34000000000000; 0x4D99C2BD28717A3F; 0x0A4A1839A323D41C; 0xD2B62215D06AD1E2;
      0x1369026E862CAF3D; 0x000000010894E964 ].
(* S/P610/P610.c:43-54 A_gen *)
Definition t610_Agen : list Z :=
    [ 0x5019EC96A75AC57A; 0x8AEA0E717712C6F1; 0x03C067C819D29E5E; 0x59F454425FE307D9;
      0x6D29215D9AD5E6D4; 0xD8C5A27CDC9DD34A; 0x972DC274DAB435B3; 0x82A597C70A80E10F;
      0x48175986EFED547F; 0x00000000671A3592; 0xE4BA9CC3EEEC53F4; 0xBD34E4FEDB0132D3;
      0x1B7125C87BEE960C; 0x25D615BF3CFAA355; 0xFC8EC20DC367D66A; 0xB44F3FD1CC73289C;
      0xD84BF51195C2E012; 0x38D7C756EB370F48; 0xBBC236249F94F72A; 0x000000013020CC63;
      0x1D7C945D3DBCC38C; 0x9A5F7C12CA8BA5B9; 0x1E8F87985B01CBE3; 0xD2CABF82F5BC5235;
      0x3BDE474ECCA9FAA2; 0xB98CD975DF9FB0A8; 0x444E4464B9C67790; 0xCB2E888565CE6AD9;
      0xDB64FFE2A1C350E2; 0x00000001D7532756; 0x1E8B3AA2382C9079; 0x28CB31E08A943C00;
      0xE04D02266E8A63E1; 0x84A2D260214EF65F; 0xD5933DA25018E226; 0xBC8BF038928C4BA9;
      0x91E9D0CB7EAF58A9; 0x04A4627B75E008E1; 0x58CEF27583E50C2E; 0x00000002170DDF44;
      0x261DD0782CEC958D; 0xC25B3AE64BBC0311; 0x9F21B8A8981B15FE; 0xA3C0B52CD5FFC45B;
      0x5D2E65A016702C6A; 0x8C5586CA98722EDE; 0x61490A967A6B4B1A; 0xFA64E30231F719AF;
      0x9CEAB8B6301BB2DF; 0x00000000CF5AEA7D; 0xB980435A77B912C0; 0x2B4A97F70E0FC873;
      0x415C7FA4DE96F43C; 0xE5EED95643E443FD; 0xCBE18DB57C51B354; 0x51C96C3FFABD2D46;
      0x5C14637B9A5765D6; 0x45D2369C4D0199A5; 0x25A1F9C5BBF1E683; 0x000000025AD7A11B ].
(* S/P610/P610.c:56-67 B_gen *)
Definition t610_Bgen : list Z :=
    [ 0xC6C8E180E41884BA; 0x2161D2F4FBC32B95; 0xCBF83091BDB34092; 0xD742CC0AD4CC7E38;
      0x61A1FA7E1B14FBD7; 0xF0E5FC70137597C4; 0x1F0C8F2585E20B1F; 0xC68E44A1C032A4C2;
      0xE3C65FB8AF155A0D; 0x00000001409EE8D5; 0x0000000000000000; 0x0000000000000000;
      0x0000000000000000; 0x0000000000000000; 0x0000000000000000; 0x0000000000000000;
      0x0000000000000000; 0x0000000000000000; 0x0000000000000000; 0x0000000000000000;
      0xF586DB4A16BE1880; 0x712F10D95E6C65A9; 0x9D5AAC3B83584B87; 0x4ECDAA98182C8261;
      0xAD7D4C15588FD230; 0x4197C54E96B7D926; 0xED15BB13E8C588ED; 0x3E299AEAD5AAD7C7;
      0xF36B25F1BD579F79; 0x000000021CE65B5B; 0x0000000000000000; 0x0000000000000000;
      0x0000000000000000; 0x0000000000000000; 0x0000000000000000; 0x0000000000000000;
      0x0000000000000000; 0x0000000000000000; 0x0000000000000000; 0x0000000000000000;
      0x7A87897A0C4C3FD7; 0x3C1879ECD4D33D76; 0x595C28A36FFBA1A0; 0xF53FF66A2A7FD0FB;
      0xB39F5A91230E56FA; 0x81F21610DA3EA8B5; 0xEBB3B9A627428A90; 0x8661123B35748010;
      0xE196173B9C48781D; 0x00000002198166AC; 0x5E3CC79B37006D6A; 0xE0358A9AB2EA7923;
      0x3B725CB595180951; 0x0724637F1DD0C191; 0x7BB031B67DAB9D19; 0x53CCB8BECEDD3435;
      0xEE5DF7FFEBFA7A0A; 0x899EDB7D8B9694C4; 0x0CA38EB4AE5506B6; 0x00000001489DE1CD ].
(* S/P610/P610.c:77-83 strat_Alice *)
Definition t610_stratA : list nat :=
    [ 67; 37; 21; 12; 7; 4; 2; 1; 1; 2; 1; 1; 3; 2; 1; 1; 1; 1; 5; 3; 2; 1; 1; 1; 1; 2; 1; 1;
      1; 9; 5; 3; 2; 1; 1; 1; 1; 2; 1; 1; 1; 4; 2; 1; 1; 1; 2; 1; 1; 16; 9; 5; 3; 2; 1; 1; 1;
      1; 2; 1; 1; 1; 4; 2; 1; 1; 1; 2; 1; 1; 8; 4; 2; 1; 1; 2; 1; 1; 4; 2; 1; 1; 2; 1; 1; 33;
      16; 8; 5; 2; 1; 1; 1; 2; 1; 1; 1; 4; 2; 1; 1; 2; 1; 1; 8; 4; 2; 1; 1; 2; 1; 1; 4; 2; 1;
      1; 2; 1; 1; 16; 8; 4; 2; 1; 1; 1; 2; 1; 1; 4; 2; 1; 1; 2; 1; 1; 8; 4; 2; 1; 1; 2; 1; 1;
      4; 2; 1; 1; 2; 1; 1 ]%nat.
(* S/P610/P610.c:85-93 strat_Bob *)
Definition t610_stratB : list nat :=
    [ 86; 48; 27; 15; 8; 4; 2; 1; 1; 2; 1; 1; 4; 2; 1; 1; 2; 1; 1; 7; 4; 2; 1; 1; 2; 1; 1; 3;
      2; 1; 1; 1; 1; 12; 7; 4; 2; 1; 1; 2; 1; 1; 3; 2; 1; 1; 1; 1; 5; 3; 2; 1; 1; 1; 1; 2; 1;
      1; 1; 21; 12; 7; 4; 2; 1; 1; 2; 1; 1; 3; 2; 1; 1; 1; 1; 5; 3; 2; 1; 1; 1; 1; 2; 1; 1; 1;
      9; 5; 3; 2; 1; 1; 1; 1; 2; 1; 1; 1; 4; 2; 1; 1; 1; 2; 1; 1; 38; 21; 12; 7; 4; 2; 1; 1; 2;
      1; 1; 3; 2; 1; 1; 1; 1; 5; 3; 2; 1; 1; 1; 1; 2; 1; 1; 1; 9; 5; 3; 2; 1; 1; 1; 1; 2; 1; 1;
      1; 4; 2; 1; 1; 1; 2; 1; 1; 17; 9; 5; 3; 2; 1; 1; 1; 1; 2; 1; 1; 1; 4; 2; 1; 1; 1; 2; 1;
      1; 8; 4; 2; 1; 1; 1; 2; 1; 1; 4; 2; 1; 1; 2; 1; 1 ]%nat.
(* S/fpx.c:541-640, precomputed table: t[0] = a*a^2, then fpmul_mont(t[i], tt, t[j]) *)
Definition t610_invtab : list (nat * nat) :=
    [ (0, 1); (1, 2); (2, 3); (3, 4); (4, 5); (5, 6); (6, 7); (7, 8); (8, 9); (9, 10);
      (10, 11); (11, 12); (12, 13); (13, 14); (14, 15); (15, 16); (16, 17); (17, 18); (18, 19);
      (19, 20); (20, 21); (21, 22); (22, 23); (23, 24); (24, 25); (25, 26); (26, 27); (27, 28);
      (28, 29); (29, 30) ]%nat.
Definition t610_invsteps : list chain_step :=
    [ (6, Some 6); (7, Some 30); (7, Some 25); (8, Some 28); (6, Some 7); (11, Some 11);
      (8, None); (6, Some 0); (8, Some 3); (7, Some 16); (6, Some 24); (6, Some 28);
      (9, Some 16); (6, Some 4); (6, Some 3); (7, Some 20); (6, Some 11); (6, Some 14);
      (7, Some 15); (6, Some 0); (9, Some 15); (8, Some 19); (6, Some 9); (6, Some 5);
      (7, Some 27); (6, Some 28); (6, Some 29); (6, Some 1); (9, Some 3); (6, Some 2);
      (6, Some 30); (8, Some 25); (7, Some 28); (9, Some 22); (8, Some 3); (6, Some 22);
      (6, Some 7); (6, Some 9); (6, Some 4); (7, Some 20); (11, Some 10); (8, Some 26);
      (11, Some 2) ]%nat.
Definition t610_invloop : nat * list chain_step := (50, [(6, Some 30)])%nat.
(* S/P610/P610_internal.h:18-54, S/poik.h:12-60 *)
Definition P610 (t : target) : params := {|
  radix := on t 64 32; nwords := on t 10%nat 20%nat; zwords := on t 4%nat 9%nat;
  w_p := view t t610_p; w_px2 := view t t610_px2; w_px4 := view t t610_px4; w_pp1 := view t t610_pp1;
  w_R2 := view t t610_R2; w_one := view t t610_one;
  nbits := 610; e2 := 305; e3 := 192;
  max_alice := 152; max_bob := 192; max_int_alice := 8; max_int_bob := 10;
  strat_alice := t610_stratA; strat_bob := t610_stratB;
  inv_size := 31; inv_table := t610_invtab; inv_steps := t610_invsteps; inv_loop := t610_invloop;
  obob_bits := 305; mask_alice := 0x01; mask_bob := 0xFF; msg_bytes := 24;
  w_Agen := view t t610_Agen; w_Bgen := view t t610_Bgen;
  poik_reps := 329; poik_width := 4; poik_height := 7; poik_hash := 48; poik_hide := 96 |}.

(* S/P751/P751.c:28-29 p751 *)
Definition t751_p : list Z :=
    [ 0xFFFFFFFFFFFFFFFF; 0xFFFFFFFFFFFFFFFF; 0xFFFFFFFFFFFFFFFF; 0xFFFFFFFFFFFFFFFF;
      0xFFFFFFFFFFFFFFFF; 0xEEAFFFFFFFFFFFFF; 0xE3EC968549F878A8; 0xDA959B1A13F7CC76;
      0x084E9867D6EBE876; 0x8562B5045CB25748; 0x0E12909F97BADC66; 0x00006FE5D541F71C ].
(* S/P751/P751.c:30-31 p751x2 *)
Definition t751_px2 : list Z :=
    [ 0xFFFFFFFFFFFFFFFE; 0xFFFFFFFFFFFFFFFF; 0xFFFFFFFFFFFFFFFF; 0xFFFFFFFFFFFFFFFF;
      0xFFFFFFFFFFFFFFFF; 0xDD5FFFFFFFFFFFFF; 0xC7D92D0A93F0F151; 0xB52B363427EF98ED;
      0x109D30CFADD7D0ED; 0x0AC56A08B964AE90; 0x1C25213F2F75B8CD; 0x0000DFCBAA83EE38 ].
(* S/P751/P751.c:32-33 p751x4 *)
Definition t751_px4 : list Z :=
    [ 0xFFFFFFFFFFFFFFFC; 0xFFFFFFFFFFFFFFFF; 0xFFFFFFFFFFFFFFFF; 0xFFFFFFFFFFFFFFFF;
      0xFFFFFFFFFFFFFFFF; 0xBABFFFFFFFFFFFFF; 0x8FB25A1527E1E2A3; 0x6A566C684FDF31DB;
      0x213A619F5BAFA1DB; 0x158AD41172C95D20; 0x384A427E5EEB719A; 0x0001BF975507DC70 ].
(* S/P751/P751.c:34-35 p751p1 *)
Definition t751_pp1 : list Z :=
    [ 0x0000000000000000; 0x0000000000000000; 0x0000000000000000; 0x0000000000000000;
      0x0000000000000000; 0xEEB0000000000000; 0xE3EC968549F878A8; 0xDA959B1A13F7CC76;
      0x084E9867D6EBE876; 0x8562B5045CB25748; 0x0E12909F97BADC66; 0x00006FE5D541F71C ].
(* S/P751/P751.c:67-68 Montgomery_R2 *)
Definition t751_R2 : list Z :=
    [ 0x233046449DAD4058; 0xDB010161A696452A; 0x5E36941472E3FD8E; 0xF40BFE2082A2E706;
      0x4932CCA8904F8751; 0x1F735F1F1EE7FC81; 0xA24F4D80C1048E18; 0xB56C383CCDB607C5;
      0x441DD47B735F9C90; 0x5673ED2C6A6AC82A; 0x06C905261132294B; 0x000041AD830F1F35 ].
(* S/P751/P751.c:70-71 Montgomery_one *)
Definition t751_one : list Z :=
    [ 0x00000000000249ad; 0x0000000000000000; 0x0000000000000000; 0x0000000000000000;
      0x0000000000000000; 0x8310000000000000; 0x5527b1e4375c6c66; 0x697797bf3f4f24d0;
      0xc89db7b2ac5c4e2e; 0x4ca4b439d2076956; 0x10f7926c7512c7e9; 0x00002d5b24bce5e2 ].
(* S/P751/P751.c:41-52 A_gen *)
Definition t751_Agen : list Z :=
    [ 0x884F46B74000BAA8; 0xBA52630F939DEC20; 0xC16FB97BA714A04D; 0x082536745B1AB3DB;
      0x1117157F446F9E82; 0xD2F27D621A018490; 0x6B24AB523D544BCD; 0x9307D6AA2EA85C94;
      0xE1A096729528F20F; 0x896446F868F3255C; 0x2401D996B1BFF8A5; 0x00000EF8786A5C0A;
      0xAEB78B3B96F59394; 0xAB26681E29C90B74; 0xE520AC30FDC4ACF1; 0x870AAAE3A4B8111B;
      0xF875BDB738D64EFF; 0x50109A7ECD7ED6BC; 0x4CC64848FF0C56FB; 0xE617CB6C519102C9;
      0x9C74B3835921E609; 0xC91DDAE4A35A7146; 0x7FC82A155C1B9129; 0x0000214FA6B980B3;
      0x0F93CC38680A8CA9; 0x762E733822E7FED7; 0xE549F005AC0ADB67; 0x94A71FDD2C43A4ED;
      0xD48645C2B04721C5; 0x432DA1FE4D4CA4DC; 0xBC99655FAA7A80E8; 0xB2C6D502BCFD4823;
      0xEE92F40CA2EC8BDB; 0x7B074132EFB6D16C; 0x3340B46FA38A7633; 0x0000215749657F6C;
      0xECFF375BF3079F4C; 0xFBFE74B043E80EF3; 0x17376CBE3C5C7AD1; 0xC06327A7E29CDBF2;
      0x2111649C438BF3D4; 0xC1F9298261BA2E97; 0x1F9FECE869CFD1C2; 0x01A39B4FC9346D62;
      0x147CD1D3E82A3C9F; 0xDE84E9D249E533EE; 0x1C48A5ADFB7C578D; 0x000061ACA0B82E1D;
      0x1600C525D41059F1; 0xA596899A0A1D83F7; 0x6BFDEED6D2B23F35; 0x5C7E707270C23910;
      0x276CA1A4E8369411; 0xB193651A602925A0; 0x243D239F1CA1F04A; 0x543DC6DA457860AD;
      0xCDA590F325181DE9; 0xD3AB7ACFDA80B395; 0x6C97468580FDDF7B; 0x0000352A3E5C4C77;
      0x9B794F9FD1CC3EE8; 0xDB32E40A9B2FD23E; 0x26192A2542E42B67; 0xA18E94FCA045BCE7;
      0x96DC1BC38E7CDA2D; 0x9A1D91B752487DE2; 0xCC63763987436DA3; 0x1316717AACCC551D;
      0xC4C368A4632AFE72; 0x4B6EA85C9CCD5710; 0x7A12CAD582C7BC9A; 0x00001C7E240149BF ].
(* S/P751/P751.c:54-65 B_gen *)
Definition t751_Bgen : list Z :=
    [ 0x85691AAF4015F88C; 0x7478C5B8C36E9631; 0x7EF2A185DE4DD6E2; 0x943BBEE46BEB9DC7;
      0x1A3EC62798792D22; 0x791BC4B084B31D69; 0x03DBE6522CEA17C4; 0x04749AA65D665D83;
      0x3D52B5C45EF450F3; 0x0B4219848E36947D; 0xA4CF7070466BDE27; 0x0000334B1FA6D193;
      0x0000000000000000; 0x0000000000000000; 0x0000000000000000; 0x0000000000000000;
      0x0000000000000000; 0x0000000000000000; 0x0000000000000000; 0x0000000000000000;
      0x0000000000000000; 0x0000000000000000; 0x0000000000000000; 0x0000000000000000;
      0x8E7CB3FA53211340; 0xD67CE54F7A05EEE0; 0xFDDC2C8BCE46FC38; 0x08587FAE3110DF1E;
      0xD6B8246FA22B058B; 0x4DAC3ACC905A5DBD; 0x51D0BF2FADCED3E8; 0xE5A2406DF6484425;
      0x907F177584F671B8; 0x4738A2FFCCED051C; 0x2B0067B4177E4853; 0x00002806AC948D3D;
      0x0000000000000000; 0x0000000000000000; 0x0000000000000000; 0x0000000000000000;
      0x0000000000000000; 0x0000000000000000; 0x0000000000000000; 0x0000000000000000;
      0x0000000000000000; 0x0000000000000000; 0x0000000000000000; 0x0000000000000000;
      0xB56457016D1D6D1C; 0x03DECCB38F39C491; 0xDFB910AC8A559452; 0xA9D0F17D1FF24883;
      0x8562BBAF515C248C; 0x249B2A6DDB1CB67D; 0x3131AF96FB46835C; 0xE10258398480C3E1;
      0xEAB5E2B872D4FAB1; 0xB71E63875FAEB1DF; 0xF8384D4F13757CF6; 0x0000361EC9B09912;
      0x58C967899ED16EF4; 0x81998376DC622A4B; 0x3D1C1DCFE0B12681; 0x9347DEBB953E1730;
      0x9ABB344D3A82C2D7; 0xE4881BD2820552B2; 0x0037247923D90266; 0x2E3156EDB157E5A5;
      0xF86A46A7506823F7; 0x8FE5523A7B7F1CFC; 0xFA3CFFA38372F67B; 0x0000692DCE85FFBD ].
(* S/P751/P751.c:75-82 strat_Alice *)
Definition t751_stratA : list nat :=
    [ 80; 48; 27; 15; 8; 4; 2; 1; 1; 2; 1; 1; 4; 2; 1; 1; 2; 1; 1; 7; 4; 2; 1; 1; 2; 1; 1; 3;
      2; 1; 1; 1; 1; 12; 7; 4; 2; 1; 1; 2; 1; 1; 3; 2; 1; 1; 1; 1; 5; 3; 2; 1; 1; 1; 1; 2; 1;
      1; 1; 21; 12; 7; 4; 2; 1; 1; 2; 1; 1; 3; 2; 1; 1; 1; 1; 5; 3; 2; 1; 1; 1; 1; 2; 1; 1; 1;
      9; 5; 3; 2; 1; 1; 1; 1; 2; 1; 1; 1; 4; 2; 1; 1; 1; 2; 1; 1; 33; 20; 12; 7; 4; 2; 1; 1; 2;
      1; 1; 3; 2; 1; 1; 1; 1; 5; 3; 2; 1; 1; 1; 1; 2; 1; 1; 1; 8; 5; 3; 2; 1; 1; 1; 1; 2; 1; 1;
      1; 4; 2; 1; 1; 2; 1; 1; 16; 8; 4; 2; 1; 1; 1; 2; 1; 1; 4; 2; 1; 1; 2; 1; 1; 8; 4; 2; 1;
      1; 2; 1; 1; 4; 2; 1; 1; 2; 1; 1 ]%nat.
(* S/P751/P751.c:84-93 strat_Bob *)
Definition t751_stratB : list nat :=
    [ 112; 63; 32; 16; 8; 4; 2; 1; 1; 2; 1; 1; 4; 2; 1; 1; 2; 1; 1; 8; 4; 2; 1; 1; 2; 1; 1; 4;
      2; 1; 1; 2; 1; 1; 16; 8; 4; 2; 1; 1; 2; 1; 1; 4; 2; 1; 1; 2; 1; 1; 8; 4; 2; 1; 1; 2; 1;
      1; 4; 2; 1; 1; 2; 1; 1; 31; 16; 8; 4; 2; 1; 1; 2; 1; 1; 4; 2; 1; 1; 2; 1; 1; 8; 4; 2; 1;
      1; 2; 1; 1; 4; 2; 1; 1; 2; 1; 1; 15; 8; 4; 2; 1; 1; 2; 1; 1; 4; 2; 1; 1; 2; 1; 1; 7; 4;
      2; 1; 1; 2; 1; 1; 3; 2; 1; 1; 1; 1; 49; 31; 16; 8; 4; 2; 1; 1; 2; 1; 1; 4; 2; 1; 1; 2; 1;
      1; 8; 4; 2; 1; 1; 2; 1; 1; 4; 2; 1; 1; 2; 1; 1; 15; 8; 4; 2; 1; 1; 2; 1; 1; 4; 2; 1; 1;
      2; 1; 1; 7; 4; 2; 1; 1; 2; 1; 1; 3; 2; 1; 1; 1; 1; 21; 12; 8; 4; 2; 1; 1; 2; 1; 1; 4; 2;
      1; 1; 2; 1; 1; 5; 3; 2; 1; 1; 1; 1; 2; 1; 1; 1; 9; 5; 3; 2; 1; 1; 1; 1; 2; 1; 1; 1; 4; 2;
      1; 1; 1; 2; 1; 1 ]%nat.
(* S/fpx.c:642-775, precomputed table: t[0] = a*a^2, then fpmul_mont(t[i], tt, t[j]) *)
Definition t751_invtab : list (nat * nat) :=
    [ (0, 1); (1, 2); (2, 3); (3, 3); (3, 4); (4, 5); (5, 6); (6, 7); (7, 8); (8, 9); (9, 9);
      (9, 10); (10, 11); (11, 12); (12, 13); (13, 14); (14, 15); (15, 16); (16, 17); (17, 18);
      (18, 19); (19, 20); (20, 21); (21, 21); (21, 22); (22, 23); (23, 24); (24, 25); (25, 25);
      (25, 26) ]%nat.
Definition t751_invsteps : list chain_step :=
    [ (6, Some 20); (6, Some 24); (6, Some 11); (6, Some 8); (8, Some 2); (6, Some 23);
      (6, Some 2); (9, Some 2); (10, Some 15); (8, Some 13); (8, Some 26); (8, Some 20);
      (6, Some 11); (6, Some 10); (6, Some 14); (6, Some 4); (10, Some 18); (6, Some 1);
      (7, Some 22); (10, Some 6); (7, Some 24); (6, Some 9); (8, Some 18); (6, Some 17);
      (8, None); (10, Some 16); (6, Some 7); (6, Some 0); (7, Some 12); (7, Some 19);
      (6, Some 22); (6, Some 25); (7, Some 2); (6, Some 10); (7, Some 22); (8, Some 18);
      (6, Some 4); (6, Some 14); (7, Some 13); (6, Some 5); (6, Some 23); (6, Some 21);
      (6, Some 2); (7, Some 23); (8, Some 12); (6, Some 9); (6, Some 3); (7, Some 13);
      (7, Some 17); (8, Some 26); (8, Some 5); (8, Some 8); (6, Some 2); (6, Some 11);
      (7, Some 20) ]%nat.
Definition t751_invloop : nat * list chain_step := (61, [(6, Some 26)])%nat.
(* S/P751/P751_internal.h:18-54, S/poik.h:12-60 *)
Definition P751 (t : target) : params := {|
  radix := on t 64 32; nwords := on t 12%nat 24%nat; zwords := on t 5%nat 11%nat;
  w_p := view t t751_p; w_px2 := view t t751_px2; w_px4 := view t t751_px4; w_pp1 := view t t751_pp1;
  w_R2 := view t t751_R2; w_one := view t t751_one;
  nbits := 751; e2 := 372; e3 := 239;
  max_alice := 186; max_bob := 239; max_int_alice := 8; max_int_bob := 10;
  strat_alice := t751_stratA; strat_bob := t751_stratB;
  inv_size := 27; inv_table := t751_invtab; inv_steps := t751_invsteps; inv_loop := t751_invloop;
  obob_bits := 379; mask_alice := 0x0F; mask_bob := 0x03; msg_bytes := 32;
  w_Agen := view t t751_Agen; w_Bgen := view t t751_Bgen;
  poik_reps := 438; poik_width := 4; poik_height := 7; poik_hash := 64; poik_hide := 128 |}.

(** A toy parameter set (p = 2^8 * 3^5 - 1 = 62207, 8-bit digits) used only in Examples: the
    whole model runs on it in a fraction of a second.  Not part of /repo. *)
Definition Ptoy : params := {|
  radix := 8; nwords := 3; zwords := 1;
  w_p := [ 255; 242; 0 ]; w_px2 := [ 254; 229; 1 ]; w_px4 := [ 252; 203; 3 ]; w_pp1 := [ 0; 243; 0 ];
  w_R2 := [ 169; 187; 0 ]; w_one := [ 13; 170; 0 ];
  nbits := 16; e2 := 8; e3 := 5; max_alice := 4; max_bob := 5; max_int_alice := 3; max_int_bob := 3;
  strat_alice := [2; 1; 1]%nat; strat_bob := [2; 1; 1; 1]%nat;
  inv_size := 1; inv_table := []; inv_steps := [(1, None); (1, None); (1, None); (3, None); (2, None); (1, None); (1, None); (1, None); (1, None); (1, None)]%nat; inv_loop := (0%nat, []);
  obob_bits := 8; mask_alice := 0xFF; mask_bob := 0x7F; msg_bytes := 1;
  w_Agen := []; w_Bgen := [];
  poik_reps := 3; poik_width := 4; poik_height := 7; poik_hash := 32; poik_hide := 64 |}.
