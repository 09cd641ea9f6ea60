(** S/P503/AMD64/fp_x64_asm.S, the branch for MULX and ADX: the macros and the functions of the field arithmetic,
    line by line, for the machine of Asm.v.  reg_p1, reg_p2 and reg_p3 are rdi, rsi and rdx (lines 21-24). *)
From Verif Require Import Base Params Asm.

Local Notation P := (P503 T64).
(* S/P503/P503.c:34-35 p503x8 *)
Definition t503_px8 : list Z :=
    [ 0xFFFFFFFFFFFFFFF8; 0xFFFFFFFFFFFFFFFF; 0xFFFFFFFFFFFFFFFF; 0x5FFFFFFFFFFFFFFF;
      0x9842DED1108F3D05; 0xDCDFB643DBF3ED78; 0x022E35EED3BD2680; 0x020337AA0C08F0F3 ].

(* S/P503/AMD64/fp_x64_asm.S:32-58 *)
Definition mp_add503_asm : list instr :=
  [MOV R8 (Mm RDI 0); MOV R9 (Mm RDI 8); MOV R10 (Mm RDI 16); MOV R11 (Mm RDI 24); ADD R8 (Mm RSI 0);
   ADC R9 (Mm RSI 8); ADC R10 (Mm RSI 16); ADC R11 (Mm RSI 24); STO (Mm RDX 0) R8; STO (Mm RDX 8) R9;
   STO (Mm RDX 16) R10; STO (Mm RDX 24) R11; MOV R8 (Mm RDI 32); MOV R9 (Mm RDI 40); MOV R10 (Mm RDI 48);
   MOV R11 (Mm RDI 56); ADC R8 (Mm RSI 32); ADC R9 (Mm RSI 40); ADC R10 (Mm RSI 48); ADC R11 (Mm RSI 56);
   STO (Mm RDX 32) R8; STO (Mm RDX 40) R9; STO (Mm RDX 48) R10; STO (Mm RDX 56) R11].

(* S/P503/AMD64/fp_x64_asm.S:66-147 *)
Definition fpadd503_asm : list instr :=
  [PUSH R12; PUSH R13; PUSH R14; PUSH R15; XOR RAX RAX; MOV R8 (Mm RDI 0); MOV R9 (Mm RDI 8); MOV R10 (Mm RDI 16);
   MOV R11 (Mm RDI 24); MOV R12 (Mm RDI 32); MOV R13 (Mm RDI 40); MOV R14 (Mm RDI 48); MOV R15 (Mm RDI 56);
   ADD R8 (Mm RSI 0); ADC R9 (Mm RSI 8); ADC R10 (Mm RSI 16); ADC R11 (Mm RSI 24); ADC R12 (Mm RSI 32);
   ADC R13 (Mm RSI 40); ADC R14 (Mm RSI 48); ADC R15 (Mm RSI 56); MOV RCX (mT (w_px2 P) 0 0); SUB R8 (Rg RCX);
   MOV RCX (mT (w_px2 P) 8 0); SBB R9 (Rg RCX); SBB R10 (Rg RCX); MOV RCX (mT (w_px2 P) 24 0); SBB R11 (Rg RCX);
   MOV RCX (mT (w_px2 P) 32 0); SBB R12 (Rg RCX); MOV RCX (mT (w_px2 P) 40 0); SBB R13 (Rg RCX);
   MOV RCX (mT (w_px2 P) 48 0); SBB R14 (Rg RCX); MOV RCX (mT (w_px2 P) 56 0); SBB R15 (Rg RCX); SBB RAX (Cn 0);
   MOV RDI (mT (w_px2 P) 0 0); AND RDI RAX; MOV RSI (mT (w_px2 P) 8 0); AND RSI RAX; MOV RCX (mT (w_px2 P) 24 0);
   AND RCX RAX; ADD R8 (Rg RDI); ADC R9 (Rg RSI); ADC R10 (Rg RSI); ADC R11 (Rg RCX); STO (Mm RDX 0) R8;
   STO (Mm RDX 8) R9; STO (Mm RDX 16) R10; STO (Mm RDX 24) R11; SETC_CL; MOV R8 (mT (w_px2 P) 32 0); AND R8 RAX;
   MOV R9 (mT (w_px2 P) 40 0); AND R9 RAX; MOV R10 (mT (w_px2 P) 48 0); AND R10 RAX; MOV R11 (mT (w_px2 P) 56 0);
   AND R11 RAX; BT0 RCX; ADC R12 (Rg R8); ADC R13 (Rg R9); ADC R14 (Rg R10); ADC R15 (Rg R11); STO (Mm RDX 32) R12;
   STO (Mm RDX 40) R13; STO (Mm RDX 48) R14; STO (Mm RDX 56) R15; POP R15; POP R14; POP R13; POP R12].

(* S/P503/AMD64/fp_x64_asm.S:155-220 *)
Definition fpsub503_asm : list instr :=
  [PUSH R12; PUSH R13; PUSH R14; PUSH R15; XOR RAX RAX; MOV R8 (Mm RDI 0); MOV R9 (Mm RDI 8); MOV R10 (Mm RDI 16);
   MOV R11 (Mm RDI 24); MOV R12 (Mm RDI 32); MOV R13 (Mm RDI 40); MOV R14 (Mm RDI 48); MOV R15 (Mm RDI 56);
   SUB R8 (Mm RSI 0); SBB R9 (Mm RSI 8); SBB R10 (Mm RSI 16); SBB R11 (Mm RSI 24); SBB R12 (Mm RSI 32);
   SBB R13 (Mm RSI 40); SBB R14 (Mm RSI 48); SBB R15 (Mm RSI 56); SBB RAX (Cn 0); MOV RDI (mT (w_px2 P) 0 0);
   AND RDI RAX; MOV RSI (mT (w_px2 P) 8 0); AND RSI RAX; MOV RCX (mT (w_px2 P) 24 0); AND RCX RAX; ADD R8 (Rg RDI);
   ADC R9 (Rg RSI); ADC R10 (Rg RSI); ADC R11 (Rg RCX); STO (Mm RDX 0) R8; STO (Mm RDX 8) R9; STO (Mm RDX 16) R10;
   STO (Mm RDX 24) R11; SETC_CL; MOV R8 (mT (w_px2 P) 32 0); AND R8 RAX; MOV R9 (mT (w_px2 P) 40 0); AND R9 RAX;
   MOV R10 (mT (w_px2 P) 48 0); AND R10 RAX; MOV R11 (mT (w_px2 P) 56 0); AND R11 RAX; BT0 RCX; ADC R12 (Rg R8);
   ADC R13 (Rg R9); ADC R14 (Rg R10); ADC R15 (Rg R11); STO (Mm RDX 32) R12; STO (Mm RDX 40) R13;
   STO (Mm RDX 48) R14; STO (Mm RDX 56) R15; POP R15; POP R14; POP R13; POP R12].

(* S/P503/AMD64/fp_x64_asm.S:224-273 *)
Definition SUB503_PX (P0 : list Z) : list instr :=
  [PUSH R12; PUSH R13; PUSH R14; MOV R8 (Mm RDI 0); MOV R9 (Mm RDI 8); MOV R10 (Mm RDI 16); MOV R11 (Mm RDI 24);
   MOV R12 (Mm RDI 32); MOV R13 (Mm RDI 40); MOV R14 (Mm RDI 48); MOV RCX (Mm RDI 56); SUB R8 (Mm RSI 0);
   SBB R9 (Mm RSI 8); SBB R10 (Mm RSI 16); SBB R11 (Mm RSI 24); SBB R12 (Mm RSI 32); SBB R13 (Mm RSI 40);
   SBB R14 (Mm RSI 48); SBB RCX (Mm RSI 56); MOV RAX (mT P0 0 0); MOV RDI (mT P0 8 0); MOV RSI (mT P0 24 0);
   ADD R8 (Rg RAX); MOV RAX (mT P0 32 0); ADC R9 (Rg RDI); ADC R10 (Rg RDI); ADC R11 (Rg RSI); ADC R12 (Rg RAX);
   MOV RDI (mT P0 40 0); MOV RSI (mT P0 48 0); MOV RAX (mT P0 56 0); ADC R13 (Rg RDI); ADC R14 (Rg RSI);
   ADC RCX (Rg RAX); STO (Mm RDX 0) R8; STO (Mm RDX 8) R9; STO (Mm RDX 16) R10; STO (Mm RDX 24) R11;
   STO (Mm RDX 32) R12; STO (Mm RDX 40) R13; STO (Mm RDX 48) R14; STO (Mm RDX 56) RCX; POP R14; POP R13; POP R12].

(* S/P503/AMD64/fp_x64_asm.S:281-284 *)
Definition mp_sub503_p2_asm : list instr :=
  SUB503_PX (w_px2 P).

(* S/P503/AMD64/fp_x64_asm.S:298-325 *)
Definition MULADD64x512 (M1 : Z -> opnd) (Z0 Z1 Z2 Z3 Z4 Z5 Z6 Z7 Z8 T0 T1 C : reg) : list instr :=
  [XOR C C; MULX T0 T1 (M1 0); ADOX Z0 (Rg T1); ADOX Z1 (Rg T0); MULX T0 T1 (M1 8); ADCX Z1 (Rg T1); ADOX Z2 (Rg T0);
   MULX T0 T1 (M1 16); ADCX Z2 (Rg T1); ADOX Z3 (Rg T0); MULX T0 T1 (M1 24); ADCX Z3 (Rg T1); ADOX Z4 (Rg T0);
   MULX T0 T1 (M1 32); ADCX Z4 (Rg T1); ADOX Z5 (Rg T0); MULX T0 T1 (M1 40); ADCX Z5 (Rg T1); ADOX Z6 (Rg T0);
   MULX T0 T1 (M1 48); ADCX Z6 (Rg T1); ADOX Z7 (Rg T0); MULX T0 T1 (M1 56); ADCX Z7 (Rg T1); ADOX Z8 (Rg T0);
   ADC Z8 (Cn 0)].

(* S/P503/AMD64/fp_x64_asm.S:328-346 *)
Definition MULADD64x320 (M1 : Z -> opnd) (Z0 Z1 Z2 Z3 Z4 Z5 T0 T1 : reg) : list instr :=
  [XOR T0 T0; MULX T0 T1 (M1 0); ADOX Z0 (Rg T1); ADOX Z1 (Rg T0); MULX T0 T1 (M1 8); ADCX Z1 (Rg T1);
   ADOX Z2 (Rg T0); MULX T0 T1 (M1 16); ADCX Z2 (Rg T1); ADOX Z3 (Rg T0); MULX T0 T1 (M1 24); ADCX Z3 (Rg T1);
   ADOX Z4 (Rg T0); MULX T0 T1 (M1 32); ADCX Z4 (Rg T1); ADOX Z5 (Rg T0); ADC Z5 (Cn 0)].

(* S/P503/AMD64/fp_x64_asm.S:357-428 *)
Definition FPDBLMUL512x512 (M00 M01 M10 M11 : Z -> opnd) (Z0 Z1 Z2 Z3 Z4 Z5 Z6 Z7 Z8 T0 T1 : reg) : list instr :=
  [MOV RDX (M11 0)] ++
  MULADD64x512 M01 Z0 Z1 Z2 Z3 Z4 Z5 Z6 Z7 Z8 T0 T1 T0 ++
  [MOV RDX (Rg Z0)] ++
  MULADD64x320 (mT (w_pp1 P) 24) Z3 Z4 Z5 Z6 Z7 Z8 T0 T1 ++
  [MOV RDX (M10 8)] ++
  MULADD64x512 M00 Z1 Z2 Z3 Z4 Z5 Z6 Z7 Z8 Z0 T0 T1 Z0 ++
  [MOV RDX (M11 8)] ++
  MULADD64x512 M01 Z1 Z2 Z3 Z4 Z5 Z6 Z7 Z8 Z0 T0 T1 T0 ++
  [MOV RDX (Rg Z1)] ++
  MULADD64x320 (mT (w_pp1 P) 24) Z4 Z5 Z6 Z7 Z8 Z0 T0 T1 ++
  [MOV RDX (M10 16)] ++
  MULADD64x512 M00 Z2 Z3 Z4 Z5 Z6 Z7 Z8 Z0 Z1 T0 T1 Z1 ++
  [MOV RDX (M11 16)] ++
  MULADD64x512 M01 Z2 Z3 Z4 Z5 Z6 Z7 Z8 Z0 Z1 T0 T1 T0 ++
  [MOV RDX (Rg Z2)] ++
  MULADD64x320 (mT (w_pp1 P) 24) Z5 Z6 Z7 Z8 Z0 Z1 T0 T1 ++
  [MOV RDX (M10 24)] ++
  MULADD64x512 M00 Z3 Z4 Z5 Z6 Z7 Z8 Z0 Z1 Z2 T0 T1 Z2 ++
  [MOV RDX (M11 24)] ++
  MULADD64x512 M01 Z3 Z4 Z5 Z6 Z7 Z8 Z0 Z1 Z2 T0 T1 T0 ++
  [MOV RDX (Rg Z3)] ++
  MULADD64x320 (mT (w_pp1 P) 24) Z6 Z7 Z8 Z0 Z1 Z2 T0 T1 ++
  [MOV RDX (M10 32)] ++
  MULADD64x512 M00 Z4 Z5 Z6 Z7 Z8 Z0 Z1 Z2 Z3 T0 T1 Z3 ++
  [MOV RDX (M11 32)] ++
  MULADD64x512 M01 Z4 Z5 Z6 Z7 Z8 Z0 Z1 Z2 Z3 T0 T1 T0 ++
  [MOV RDX (Rg Z4)] ++
  MULADD64x320 (mT (w_pp1 P) 24) Z7 Z8 Z0 Z1 Z2 Z3 T0 T1 ++
  [MOV RDX (M10 40)] ++
  MULADD64x512 M00 Z5 Z6 Z7 Z8 Z0 Z1 Z2 Z3 Z4 T0 T1 Z4 ++
  [MOV RDX (M11 40)] ++
  MULADD64x512 M01 Z5 Z6 Z7 Z8 Z0 Z1 Z2 Z3 Z4 T0 T1 T0 ++
  [MOV RDX (Rg Z5)] ++
  MULADD64x320 (mT (w_pp1 P) 24) Z8 Z0 Z1 Z2 Z3 Z4 T0 T1 ++
  [MOV RDX (M10 48)] ++
  MULADD64x512 M00 Z6 Z7 Z8 Z0 Z1 Z2 Z3 Z4 Z5 T0 T1 Z5 ++
  [MOV RDX (M11 48)] ++
  MULADD64x512 M01 Z6 Z7 Z8 Z0 Z1 Z2 Z3 Z4 Z5 T0 T1 T0 ++
  [MOV RDX (Rg Z6)] ++
  MULADD64x320 (mT (w_pp1 P) 24) Z0 Z1 Z2 Z3 Z4 Z5 T0 T1 ++
  [MOV RDX (M10 56)] ++
  MULADD64x512 M00 Z7 Z8 Z0 Z1 Z2 Z3 Z4 Z5 Z6 T0 T1 Z6 ++
  [MOV RDX (M11 56)] ++
  MULADD64x512 M01 Z7 Z8 Z0 Z1 Z2 Z3 Z4 Z5 Z6 T0 T1 T0 ++
  [MOV RDX (Rg Z7); STO (Mm RCX 0) Z8; STO (Mm RCX 8) Z0] ++
  MULADD64x320 (mT (w_pp1 P) 24) Z1 Z2 Z3 Z4 Z5 Z6 T0 T1.

(* S/P503/AMD64/fp_x64_asm.S:439-517 *)
Definition fp2mul503_c0_asm : list instr :=
  [PUSH R12; MOV RCX (Rg RDX); MOV R8 (mT t503_px8 0 0); MOV R9 (mT t503_px8 8 0); MOV R11 (mT t503_px8 24 0);
   MOV R12 (mT t503_px8 32 0); MOV RAX (Mm RSI 64); MOV RDX (Mm RSI 72); MOV R10 (Rg R9); SUB R8 (Rg RAX);
   PUSH R13; SBB R9 (Rg RDX); MOV RAX (Mm RSI 80); MOV RDX (Mm RSI 88); SBB R10 (Rg RAX); PUSH R14;
   SBB R11 (Rg RDX); MOV RAX (Mm RSI 96); MOV RDX (Mm RSI 104); STO (Mm RCX 0) R8; STO (Mm RCX 8) R9;
   MOV R13 (mT t503_px8 40 0); MOV R14 (mT t503_px8 48 0); SBB R12 (Rg RAX); PUSH R15; SBB R13 (Rg RDX);
   MOV RAX (Mm RSI 112); MOV RDX (Mm RSI 120); MOV R15 (mT t503_px8 56 0); SBB R14 (Rg RAX); SBB R15 (Rg RDX);
   STO (Mm RCX 16) R10; MOV RDX (Mm RSI 0); MULX R9 R8 (Mm RDI 0); STO (Mm RCX 24) R11; XOR RAX RAX;
   MULX R10 R11 (Mm RDI 8); STO (Mm RCX 32) R12; ADCX R9 (Rg R11); MULX R11 R12 (Mm RDI 16); STO (Mm RCX 40) R13;
   ADCX R10 (Rg R12); MULX R12 R13 (Mm RDI 24); STO (Mm RCX 48) R14; ADCX R11 (Rg R13); MULX R13 R14 (Mm RDI 32);
   STO (Mm RCX 56) R15; ADCX R12 (Rg R14); MULX R14 RAX (Mm RDI 40); PUSH RBX; ADCX R13 (Rg RAX);
   MULX R15 RAX (Mm RDI 48); PUSH RBP; ADCX R14 (Rg RAX); MULX RAX RBX (Mm RDI 56); MOV RDX (Mm RCX 0);
   ADCX R15 (Rg RBX); ADC RAX (Cn 0)] ++
  FPDBLMUL512x512 (mB RDI 0) (mB RDI 64) (mB RSI 0) (mB RCX 0) R8 R9 R10 R11 R12 R13 R14 R15 RAX RBX RBP ++
  [STO (Mm RCX 16) R9; STO (Mm RCX 24) R10; STO (Mm RCX 32) R11; STO (Mm RCX 40) R12; STO (Mm RCX 48) R13;
   STO (Mm RCX 56) R14; POP RBP; POP RBX; POP R15; POP R14; POP R13; POP R12].

(* S/P503/AMD64/fp_x64_asm.S:528-571 *)
Definition fp2mul503_c1_asm : list instr :=
  [MOV RCX (Rg RDX); MOV RDX (Mm RSI 0); MULX R9 R8 (Mm RDI 64); XOR RAX RAX; PUSH R12; MULX R10 R11 (Mm RDI 72);
   PUSH R13; ADCX R9 (Rg R11); MULX R11 R12 (Mm RDI 80); PUSH R14; ADCX R10 (Rg R12); MULX R12 R13 (Mm RDI 88);
   PUSH R15; ADCX R11 (Rg R13); MULX R13 R14 (Mm RDI 96); PUSH RBX; ADCX R12 (Rg R14); MULX R14 R15 (Mm RDI 104);
   PUSH RBP; ADCX R13 (Rg R15); MULX R15 RBP (Mm RDI 112); ADCX R14 (Rg RBP); MULX RAX RBX (Mm RDI 120);
   ADCX R15 (Rg RBX); ADC RAX (Cn 0)] ++
  FPDBLMUL512x512 (mB RDI 64) (mB RDI 0) (mB RSI 0) (mB RSI 64) R8 R9 R10 R11 R12 R13 R14 R15 RAX RBX RBP ++
  [STO (Mm RCX 16) R9; STO (Mm RCX 24) R10; STO (Mm RCX 32) R11; STO (Mm RCX 40) R12; STO (Mm RCX 48) R13;
   STO (Mm RCX 56) R14; POP RBP; POP RBX; POP R15; POP R14; POP R13; POP R12].

(* S/P503/AMD64/fp_x64_asm.S:1385-1438 *)
Definition FPMUL512x512 (M0 M1 : Z -> opnd) (Z0 Z1 Z2 Z3 Z4 Z5 Z6 Z7 Z8 T0 T1 : reg) : list instr :=
  [MOV RDX (Rg Z0)] ++
  MULADD64x320 (mT (w_pp1 P) 24) Z3 Z4 Z5 Z6 Z7 Z8 T0 T1 ++
  [MOV RDX (M0 8)] ++
  MULADD64x512 M1 Z1 Z2 Z3 Z4 Z5 Z6 Z7 Z8 Z0 T0 T1 Z0 ++
  [MOV RDX (Rg Z1)] ++
  MULADD64x320 (mT (w_pp1 P) 24) Z4 Z5 Z6 Z7 Z8 Z0 T0 T1 ++
  [MOV RDX (M0 16)] ++
  MULADD64x512 M1 Z2 Z3 Z4 Z5 Z6 Z7 Z8 Z0 Z1 T0 T1 Z1 ++
  [MOV RDX (Rg Z2)] ++
  MULADD64x320 (mT (w_pp1 P) 24) Z5 Z6 Z7 Z8 Z0 Z1 T0 T1 ++
  [MOV RDX (M0 24)] ++
  MULADD64x512 M1 Z3 Z4 Z5 Z6 Z7 Z8 Z0 Z1 Z2 T0 T1 Z2 ++
  [MOV RDX (Rg Z3)] ++
  MULADD64x320 (mT (w_pp1 P) 24) Z6 Z7 Z8 Z0 Z1 Z2 T0 T1 ++
  [MOV RDX (M0 32)] ++
  MULADD64x512 M1 Z4 Z5 Z6 Z7 Z8 Z0 Z1 Z2 Z3 T0 T1 Z3 ++
  [MOV RDX (Rg Z4)] ++
  MULADD64x320 (mT (w_pp1 P) 24) Z7 Z8 Z0 Z1 Z2 Z3 T0 T1 ++
  [MOV RDX (M0 40)] ++
  MULADD64x512 M1 Z5 Z6 Z7 Z8 Z0 Z1 Z2 Z3 Z4 T0 T1 Z4 ++
  [MOV RDX (Rg Z5)] ++
  MULADD64x320 (mT (w_pp1 P) 24) Z8 Z0 Z1 Z2 Z3 Z4 T0 T1 ++
  [MOV RDX (M0 48)] ++
  MULADD64x512 M1 Z6 Z7 Z8 Z0 Z1 Z2 Z3 Z4 Z5 T0 T1 Z5 ++
  [MOV RDX (Rg Z6)] ++
  MULADD64x320 (mT (w_pp1 P) 24) Z0 Z1 Z2 Z3 Z4 Z5 T0 T1 ++
  [MOV RDX (M0 56)] ++
  MULADD64x512 M1 Z7 Z8 Z0 Z1 Z2 Z3 Z4 Z5 Z6 T0 T1 Z6 ++
  [MOV RDX (Rg Z7)] ++
  MULADD64x320 (mT (w_pp1 P) 24) Z1 Z2 Z3 Z4 Z5 Z6 T0 T1.

(* S/P503/AMD64/fp_x64_asm.S:1448-1552 *)
Definition fp2sqr503_c0_asm : list instr :=
  [PUSH R12; PUSH R13; MOV R8 (Mm RDI 0); MOV R9 (Mm RDI 8); MOV R10 (Mm RDI 16); MOV R11 (Mm RDI 24);
   MOV R12 (Mm RDI 32); MOV R13 (Mm RDI 40); ADD R8 (Mm RDI 64); ADC R9 (Mm RDI 72); PUSH R14; ADC R10 (Mm RDI 80);
   ADC R11 (Mm RDI 88); PUSH R15; ADC R12 (Mm RDI 96); ADC R13 (Mm RDI 104); MOV R14 (Mm RDI 48);
   MOV R15 (Mm RDI 56); ADC R14 (Mm RDI 112); ADC R15 (Mm RDI 120); STO (Mm RSI 8) R9; STO (Mm RSI 16) R10;
   STO (Mm RSI 24) R11; STO (Mm RSI 32) R12; STO (Mm RSI 40) R13; STO (Mm RSI 48) R14; STO (Mm RSI 56) R15;
   MOV RCX (Mm RDI 0); MOV R10 (Mm RDI 8); MOV R12 (Mm RDI 16); MOV R13 (Mm RDI 24); MOV R14 (Mm RDI 32);
   MOV R15 (Mm RDI 40); SUB RCX (Mm RDI 64); SBB R10 (Mm RDI 72); PUSH RBX; SBB R12 (Mm RDI 80);
   SBB R13 (Mm RDI 88); PUSH RBP; SBB R14 (Mm RDI 96); SBB R15 (Mm RDI 104); MOV RBX (Mm RDI 48);
   MOV RBP (Mm RDI 56); SBB RBX (Mm RDI 112); SBB RBP (Mm RDI 120); ADD RCX (mT (w_px4 P) 0 0);
   MOV RDX (mT (w_px4 P) 8 0); ADC R10 (Rg RDX); ADC R12 (Rg RDX); ADC R13 (mT (w_px4 P) 24 0);
   ADC R14 (mT (w_px4 P) 32 0); ADC R15 (mT (w_px4 P) 40 0); ADC RBX (mT (w_px4 P) 48 0);
   ADC RBP (mT (w_px4 P) 56 0); STO (Mm RSI 64) RCX; STO (Mm RSI 72) R10; MOV RDX (Rg R8); MULX R9 R8 (Rg RCX);
   XOR RAX RAX; STO (Mm RSI 80) R12; MULX R10 R11 (Rg R10); STO (Mm RSI 88) R13; ADOX R9 (Rg R11);
   MULX R11 R12 (Rg R12); STO (Mm RSI 96) R14; ADOX R10 (Rg R12); MULX R12 R13 (Rg R13); STO (Mm RSI 104) R15;
   ADOX R11 (Rg R13); MULX R13 R14 (Rg R14); STO (Mm RSI 112) RBX; ADOX R12 (Rg R14); MULX R14 R15 (Rg R15);
   STO (Mm RSI 120) RBP; ADOX R13 (Rg R15); MULX R15 RBP (Rg RBX); ADOX R14 (Rg RBP); MULX RBP RBX (Mm RSI 120);
   ADOX R15 (Rg RBX); ADOX RBP (Rg RAX)] ++
  FPMUL512x512 (mB RSI 0) (mB RSI 64) R8 R9 R10 R11 R12 R13 R14 R15 RBP RBX RCX ++
  [STO (Mm RSI 0) RBP; STO (Mm RSI 8) R8; STO (Mm RSI 16) R9; STO (Mm RSI 24) R10; STO (Mm RSI 32) R11;
   STO (Mm RSI 40) R12; STO (Mm RSI 48) R13; STO (Mm RSI 56) R14; POP RBP; POP RBX; POP R15; POP R14; POP R13;
   POP R12].

(* S/P503/AMD64/fp_x64_asm.S:1562-1632 *)
Definition fp2sqr503_c1_asm : list instr :=
  [PUSH R12; PUSH R13; MOV R8 (Mm RDI 0); MOV R9 (Mm RDI 8); MOV R10 (Mm RDI 16); MOV R11 (Mm RDI 24);
   MOV R12 (Mm RDI 32); MOV R13 (Mm RDI 40); ADD R8 (Rg R8); ADC R9 (Rg R9); PUSH R14; ADC R10 (Rg R10);
   ADC R11 (Rg R11); PUSH R15; ADC R12 (Rg R12); MOV R14 (Mm RDI 48); MOV R15 (Mm RDI 56); ADC R13 (Rg R13);
   PUSH RBX; ADC R14 (Rg R14); PUSH RBP; ADC R15 (Rg R15); SUBSP 8; STO (Sp 8) R9; STO (Sp 16) R10;
   MOV RDX (Rg R8); MULX R9 R8 (Mm RDI 64); STO (Sp 24) R11; XOR RAX RAX; MULX R10 R11 (Mm RDI 72);
   STO (Sp 32) R12; ADOX R9 (Rg R11); MULX R11 R12 (Mm RDI 80); STO (Sp 40) R13; ADOX R10 (Rg R12);
   MULX R12 R13 (Mm RDI 88); STO (Sp 48) R14; ADOX R11 (Rg R13); MULX R13 R14 (Mm RDI 96); STO (Sp 56) R15;
   ADOX R12 (Rg R14); MULX R14 R15 (Mm RDI 104); ADOX R13 (Rg R15); MULX R15 RBP (Mm RDI 112); ADOX R14 (Rg RBP);
   MULX RBP RBX (Mm RDI 120); ADOX R15 (Rg RBX); ADOX RBP (Rg RAX)] ++
  FPMUL512x512 (mS 0) (mB RDI 64) R8 R9 R10 R11 R12 R13 R14 R15 RBP RBX RCX ++
  [STO (Mm RSI 0) RBP; STO (Mm RSI 8) R8; STO (Mm RSI 16) R9; STO (Mm RSI 24) R10; STO (Mm RSI 32) R11;
   STO (Mm RSI 40) R12; STO (Mm RSI 48) R13; STO (Mm RSI 56) R14; ADDSP 8; POP RBP; POP RBX; POP R15; POP R14;
   POP R13; POP R12].

(* S/P503/AMD64/fp_x64_asm.S:1642-1686 *)
Definition fpmul503_asm : list instr :=
  [MOV RCX (Rg RDX); MOV RDX (Mm RSI 0); MULX R9 R8 (Mm RDI 0); PUSH R12; XOR RAX RAX; MULX R10 R11 (Mm RDI 8);
   PUSH R13; ADOX R9 (Rg R11); MULX R11 R12 (Mm RDI 16); PUSH R14; ADOX R10 (Rg R12); MULX R12 R13 (Mm RDI 24);
   PUSH R15; ADOX R11 (Rg R13); MULX R13 R14 (Mm RDI 32); PUSH RBX; ADOX R12 (Rg R14); MULX R14 R15 (Mm RDI 40);
   PUSH RBP; ADOX R13 (Rg R15); MULX R15 RBX (Mm RDI 48); ADOX R14 (Rg RBX); MULX RBX RBP (Mm RDI 56);
   ADOX R15 (Rg RBP); ADOX RAX (Rg RBX)] ++
  FPMUL512x512 (mB RSI 0) (mB RDI 0) R8 R9 R10 R11 R12 R13 R14 R15 RAX RBX RBP ++
  [STO (Mm RCX 0) RAX; STO (Mm RCX 8) R8; STO (Mm RCX 16) R9; STO (Mm RCX 24) R10; STO (Mm RCX 32) R11;
   STO (Mm RCX 40) R12; STO (Mm RCX 48) R13; STO (Mm RCX 56) R14; POP RBP; POP RBX; POP R15; POP R14; POP R13;
   POP R12].
