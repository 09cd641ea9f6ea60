(** S/P434/AMD64/fp_x64_asm.S, the branch for MULX and ADX: its macros as functions of their arguments and its nine
    functions, line by line, for the machine of Asm.v.  reg_p1, reg_p2 and reg_p3 are rdi, rsi and rdx (lines 21-24). *)
From Verif Require Import Base Params Asm.

Local Notation P := (P434 T64).
(* S/P434/P434.c:34-35 p434x8 *)
Definition t434_px8 : list Z :=
    [ 0xFFFFFFFFFFFFFFF8; 0xFFFFFFFFFFFFFFFF; 0xFFFFFFFFFFFFFFFF; 0xEE0BB3D717FFFFFF;
      0xDE32E3C18AC5751F; 0x67E2FEB40E2902B3; 0x0011A0F938BB9A23 ].

(* S/P434/AMD64/fp_x64_asm.S:32-55 *)
Definition mp_add434_asm : list instr :=
  [MOV R8 (Mm RDI 0); MOV R9 (Mm RDI 8); MOV R10 (Mm RDI 16); MOV R11 (Mm RDI 24); ADD R8 (Mm RSI 0);
   ADC R9 (Mm RSI 8); ADC R10 (Mm RSI 16); ADC R11 (Mm RSI 24); STO (Mm RDX 0) R8; STO (Mm RDX 8) R9;
   STO (Mm RDX 16) R10; STO (Mm RDX 24) R11; MOV R8 (Mm RDI 32); MOV R9 (Mm RDI 40); MOV R10 (Mm RDI 48);
   ADC R8 (Mm RSI 32); ADC R9 (Mm RSI 40); ADC R10 (Mm RSI 48); STO (Mm RDX 32) R8; STO (Mm RDX 40) R9;
   STO (Mm RDX 48) R10].

(* S/P434/AMD64/fp_x64_asm.S:63-130 *)
Definition fpadd434_asm : list instr :=
  [PUSH R12; PUSH R13; PUSH R14; PUSH R15; PUSH RBX; PUSH RBP; XOR RAX RAX; MOV R8 (Mm RDI 0); MOV R9 (Mm RDI 8);
   MOV R10 (Mm RDI 16); MOV R11 (Mm RDI 24); MOV R12 (Mm RDI 32); MOV R13 (Mm RDI 40); MOV R14 (Mm RDI 48);
   ADD R8 (Mm RSI 0); ADC R9 (Mm RSI 8); ADC R10 (Mm RSI 16); ADC R11 (Mm RSI 24); ADC R12 (Mm RSI 32);
   ADC R13 (Mm RSI 40); ADC R14 (Mm RSI 48); MOV RBX (mT (w_px2 P) 0 0); SUB R8 (Rg RBX);
   MOV RCX (mT (w_px2 P) 8 0); SBB R9 (Rg RCX); SBB R10 (Rg RCX); MOV RDI (mT (w_px2 P) 24 0); SBB R11 (Rg RDI);
   MOV RSI (mT (w_px2 P) 32 0); SBB R12 (Rg RSI); MOV RBP (mT (w_px2 P) 40 0); SBB R13 (Rg RBP);
   MOV R15 (mT (w_px2 P) 48 0); SBB R14 (Rg R15); SBB RAX (Cn 0); AND RBX RAX; AND RCX RAX; AND RDI RAX;
   AND RSI RAX; AND RBP RAX; AND R15 RAX; ADD R8 (Rg RBX); ADC R9 (Rg RCX); ADC R10 (Rg RCX); ADC R11 (Rg RDI);
   ADC R12 (Rg RSI); ADC R13 (Rg RBP); ADC R14 (Rg R15); STO (Mm RDX 0) R8; STO (Mm RDX 8) R9; STO (Mm RDX 16) R10;
   STO (Mm RDX 24) R11; STO (Mm RDX 32) R12; STO (Mm RDX 40) R13; STO (Mm RDX 48) R14; POP RBP; POP RBX; POP R15;
   POP R14; POP R13; POP R12].

(* S/P434/AMD64/fp_x64_asm.S:138-193 *)
Definition fpsub434_asm : list instr :=
  [PUSH R12; PUSH R13; PUSH R14; XOR RAX RAX; MOV R8 (Mm RDI 0); MOV R9 (Mm RDI 8); MOV R10 (Mm RDI 16);
   MOV R11 (Mm RDI 24); MOV R12 (Mm RDI 32); MOV R13 (Mm RDI 40); MOV R14 (Mm RDI 48); SUB R8 (Mm RSI 0);
   SBB R9 (Mm RSI 8); SBB R10 (Mm RSI 16); SBB R11 (Mm RSI 24); SBB R12 (Mm RSI 32); SBB R13 (Mm RSI 40);
   SBB R14 (Mm RSI 48); SBB RAX (Cn 0); MOV RCX (mT (w_px2 P) 0 0); MOV RDI (mT (w_px2 P) 8 0);
   MOV RSI (mT (w_px2 P) 24 0); AND RCX RAX; AND RDI RAX; AND RSI RAX; ADD R8 (Rg RCX); ADC R9 (Rg RDI);
   ADC R10 (Rg RDI); ADC R11 (Rg RSI); STO (Mm RDX 0) R8; STO (Mm RDX 8) R9; STO (Mm RDX 16) R10;
   STO (Mm RDX 24) R11; SETC_CL; MOV R8 (mT (w_px2 P) 32 0); MOV RDI (mT (w_px2 P) 40 0);
   MOV RSI (mT (w_px2 P) 48 0); AND R8 RAX; AND RDI RAX; AND RSI RAX; BT0 RCX; ADC R12 (Rg R8); ADC R13 (Rg RDI);
   ADC R14 (Rg RSI); STO (Mm RDX 32) R12; STO (Mm RDX 40) R13; STO (Mm RDX 48) R14; POP R14; POP R13; POP R12].

(* S/P434/AMD64/fp_x64_asm.S:197-239 *)
Definition SUB434_PX (P0 : list Z) : list instr :=
  [PUSH R12; PUSH R13; MOV R8 (Mm RDI 0); MOV R9 (Mm RDI 8); MOV R10 (Mm RDI 16); MOV R11 (Mm RDI 24);
   MOV R12 (Mm RDI 32); MOV R13 (Mm RDI 40); MOV RCX (Mm RDI 48); SUB R8 (Mm RSI 0); SBB R9 (Mm RSI 8);
   SBB R10 (Mm RSI 16); SBB R11 (Mm RSI 24); SBB R12 (Mm RSI 32); SBB R13 (Mm RSI 40); SBB RCX (Mm RSI 48);
   MOV RAX (mT P0 0 0); MOV RDI (mT P0 8 0); MOV RSI (mT P0 24 0); ADD R8 (Rg RAX); MOV RAX (mT P0 32 0);
   ADC R9 (Rg RDI); ADC R10 (Rg RDI); ADC R11 (Rg RSI); MOV RDI (mT P0 40 0); MOV RSI (mT P0 48 0);
   ADC R12 (Rg RAX); ADC R13 (Rg RDI); ADC RCX (Rg RSI); STO (Mm RDX 0) R8; STO (Mm RDX 8) R9; STO (Mm RDX 16) R10;
   STO (Mm RDX 24) R11; STO (Mm RDX 32) R12; STO (Mm RDX 40) R13; STO (Mm RDX 48) RCX; POP R13; POP R12].

(* S/P434/AMD64/fp_x64_asm.S:247-250 *)
Definition mp_sub434_p2_asm : list instr :=
  SUB434_PX (w_px2 P).

(* S/P434/AMD64/fp_x64_asm.S:264-288 *)
Definition MULADD64x448 (M1 : Z -> opnd) (Z0 Z1 Z2 Z3 Z4 Z5 Z6 Z7 T0 T1 C : reg) : list instr :=
  [MULX T0 T1 (M1 0); XOR C C; ADOX Z0 (Rg T1); ADOX Z1 (Rg T0); MULX T0 T1 (M1 8); ADCX Z1 (Rg T1); ADOX Z2 (Rg T0);
   MULX T0 T1 (M1 16); ADCX Z2 (Rg T1); ADOX Z3 (Rg T0); MULX T0 T1 (M1 24); ADCX Z3 (Rg T1); ADOX Z4 (Rg T0);
   MULX T0 T1 (M1 32); ADCX Z4 (Rg T1); ADOX Z5 (Rg T0); MULX T0 T1 (M1 40); ADCX Z5 (Rg T1); ADOX Z6 (Rg T0);
   MULX T0 T1 (M1 48); ADCX Z6 (Rg T1); ADOX Z7 (Rg T0); ADC Z7 (Cn 0)].

(* S/P434/AMD64/fp_x64_asm.S:291-306 *)
Definition MULADD64x256 (M1 : Z -> opnd) (Z0 Z1 Z2 Z3 Z4 T0 T1 : reg) : list instr :=
  [MULX T0 T1 (M1 0); XOR RAX RAX; ADOX Z0 (Rg T1); ADOX Z1 (Rg T0); MULX T0 T1 (M1 8); ADCX Z1 (Rg T1);
   ADOX Z2 (Rg T0); MULX T0 T1 (M1 16); ADCX Z2 (Rg T1); ADOX Z3 (Rg T0); MULX T0 T1 (M1 24); ADCX Z3 (Rg T1);
   ADOX Z4 (Rg T0); ADCX Z4 (Rg RAX)].

(* S/P434/AMD64/fp_x64_asm.S:317-399 *)
Definition FPDBLMUL448x448 (M00 M01 M10 M11 : Z -> opnd) (Z0 Z1 Z2 Z3 Z4 Z5 Z6 Z7 T0 T1 : reg) : list instr :=
  [MOV RDX (M11 0)] ++
  MULADD64x448 M01 Z0 Z1 Z2 Z3 Z4 Z5 Z6 Z7 T0 T1 RAX ++
  [MOV RDX (Rg Z0)] ++
  MULADD64x256 (mT (w_pp1 P) 24) Z3 Z4 Z5 Z6 Z7 T0 T1 ++
  [MOV RDX (M10 8)] ++
  MULADD64x448 M00 Z1 Z2 Z3 Z4 Z5 Z6 Z7 Z0 T0 T1 Z0 ++
  [MOV RDX (M11 8)] ++
  MULADD64x448 M01 Z1 Z2 Z3 Z4 Z5 Z6 Z7 Z0 T0 T1 RAX ++
  [MOV RDX (Rg Z1)] ++
  MULADD64x256 (mT (w_pp1 P) 24) Z4 Z5 Z6 Z7 Z0 T0 T1 ++
  [MOV RDX (M10 16)] ++
  MULADD64x448 M00 Z2 Z3 Z4 Z5 Z6 Z7 Z0 Z1 T0 T1 Z1 ++
  [MOV RDX (M11 16)] ++
  MULADD64x448 M01 Z2 Z3 Z4 Z5 Z6 Z7 Z0 Z1 T0 T1 RAX ++
  [MOV RDX (Rg Z2)] ++
  MULADD64x256 (mT (w_pp1 P) 24) Z5 Z6 Z7 Z0 Z1 T0 T1 ++
  [MOV RDX (M10 24)] ++
  MULADD64x448 M00 Z3 Z4 Z5 Z6 Z7 Z0 Z1 Z2 T0 T1 Z2 ++
  [MOV RDX (M11 24)] ++
  MULADD64x448 M01 Z3 Z4 Z5 Z6 Z7 Z0 Z1 Z2 T0 T1 RAX ++
  [MOV RDX (Rg Z3)] ++
  MULADD64x256 (mT (w_pp1 P) 24) Z6 Z7 Z0 Z1 Z2 T0 T1 ++
  [MOV RDX (M10 32)] ++
  MULADD64x448 M00 Z4 Z5 Z6 Z7 Z0 Z1 Z2 Z3 T0 T1 Z3 ++
  [MOV RDX (M11 32)] ++
  MULADD64x448 M01 Z4 Z5 Z6 Z7 Z0 Z1 Z2 Z3 T0 T1 RAX ++
  [MOV RDX (Rg Z4)] ++
  MULADD64x256 (mT (w_pp1 P) 24) Z7 Z0 Z1 Z2 Z3 T0 T1 ++
  [MOV RDX (M10 40)] ++
  MULADD64x448 M00 Z5 Z6 Z7 Z0 Z1 Z2 Z3 Z4 T0 T1 Z4 ++
  [MOV RDX (M11 40)] ++
  MULADD64x448 M01 Z5 Z6 Z7 Z0 Z1 Z2 Z3 Z4 T0 T1 RAX ++
  [MOV RDX (Rg Z5)] ++
  MULADD64x256 (mT (w_pp1 P) 24) Z0 Z1 Z2 Z3 Z4 T0 T1 ++
  [MOV RDX (M10 48)] ++
  MULADD64x448 M00 Z6 Z7 Z0 Z1 Z2 Z3 Z4 Z5 T0 T1 Z5 ++
  [MOV RDX (M11 48)] ++
  MULADD64x448 M01 Z6 Z7 Z0 Z1 Z2 Z3 Z4 Z5 T0 T1 RAX ++
  [POP T1; STO (Mm RCX 0) Z7; MOV RDX (Rg Z6); MULX Z6 Z7 (mT (w_pp1 P) 24 0); POP T0; ADOX Z1 (Rg Z7);
   ADOX Z2 (Rg Z6); STO (Mm RCX 8) Z0; MULX Z6 Z7 (mT (w_pp1 P) 32 0); STO (Mm RCX 16) Z1; ADCX Z2 (Rg Z7);
   ADOX Z3 (Rg Z6); STO (Mm RCX 24) Z2; MULX Z2 Z1 (mT (w_pp1 P) 40 0); POP Z7; ADCX Z3 (Rg Z1); ADOX Z4 (Rg Z2);
   STO (Mm RCX 32) Z3; MULX Z2 Z1 (mT (w_pp1 P) 48 0); POP Z6; ADCX Z4 (Rg Z1); ADOX Z5 (Rg Z2); ADC Z5 (Cn 0)].

(* S/P434/AMD64/fp_x64_asm.S:410-473 *)
Definition fp2mul434_c0_asm : list instr :=
  [PUSH R12; MOV RCX (Rg RDX); MOV R8 (mT t434_px8 0 0); MOV R9 (mT t434_px8 8 0); MOV R11 (mT t434_px8 24 0);
   MOV R12 (mT t434_px8 32 0); MOV RAX (Mm RSI 56); MOV RDX (Mm RSI 64); MOV R10 (Rg R9); SUB R8 (Rg RAX);
   PUSH R13; SBB R9 (Rg RDX); MOV RAX (Mm RSI 72); MOV RDX (Mm RSI 80); SBB R10 (Rg RAX); PUSH R14;
   SBB R11 (Rg RDX); MOV RAX (Mm RSI 88); MOV RDX (Mm RSI 96); MOV R13 (mT t434_px8 40 0);
   MOV R14 (mT t434_px8 48 0); STO (Mm RCX 0) R8; SBB R12 (Rg RAX); PUSH R15; SBB R13 (Rg RDX);
   MOV RAX (Mm RSI 104); STO (Mm RCX 8) R9; SBB R14 (Rg RAX); STO (Mm RCX 16) R10; MOV RDX (Mm RSI 0);
   MULX R9 R8 (Mm RDI 0); STO (Mm RCX 24) R11; XOR RAX RAX; MULX R10 R11 (Mm RDI 8); STO (Mm RCX 32) R12;
   ADOX R9 (Rg R11); MULX R11 R12 (Mm RDI 16); STO (Mm RCX 40) R13; ADOX R10 (Rg R12); MULX R12 R13 (Mm RDI 24);
   STO (Mm RCX 48) R14; ADOX R11 (Rg R13); MULX R13 R14 (Mm RDI 32); PUSH RBX; ADOX R12 (Rg R14);
   MULX R14 R15 (Mm RDI 40); PUSH RBP; ADOX R13 (Rg R15); MULX R15 RBX (Mm RDI 48); ADOX R14 (Rg RBX);
   ADOX R15 (Rg RAX)] ++
  FPDBLMUL448x448 (mB RDI 0) (mB RDI 56) (mB RSI 0) (mB RCX 0) R8 R9 R10 R11 R12 R13 R14 R15 RBX RBP ++
  [STO (Mm RCX 40) R12; STO (Mm RCX 48) R13; POP R13; POP R12].

(* S/P434/AMD64/fp_x64_asm.S:484-517 *)
Definition fp2mul434_c1_asm : list instr :=
  [MOV RCX (Rg RDX); MOV RDX (Mm RSI 0); MULX R9 R8 (Mm RDI 56); XOR RAX RAX; PUSH R12; MULX R10 R11 (Mm RDI 64);
   PUSH R13; ADOX R9 (Rg R11); MULX R11 R12 (Mm RDI 72); PUSH R14; ADOX R10 (Rg R12); MULX R12 R13 (Mm RDI 80);
   PUSH R15; ADOX R11 (Rg R13); MULX R13 R14 (Mm RDI 88); PUSH RBX; ADOX R12 (Rg R14); MULX R14 R15 (Mm RDI 96);
   PUSH RBP; ADOX R13 (Rg R15); MULX R15 RBX (Mm RDI 104); ADOX R14 (Rg RBX); ADOX R15 (Rg RAX)] ++
  FPDBLMUL448x448 (mB RDI 56) (mB RDI 0) (mB RSI 0) (mB RSI 56) R8 R9 R10 R11 R12 R13 R14 R15 RBX RBP ++
  [STO (Mm RCX 40) R12; STO (Mm RCX 48) R13; POP R13; POP R12].

(* S/P434/AMD64/fp_x64_asm.S:540-586 *)
Definition FPMUL448x448 (M0 M1 : Z -> opnd) (Z0 Z1 Z2 Z3 Z4 Z5 Z6 Z7 T0 T1 : reg) : list instr :=
  [MOV RDX (Rg Z0)] ++
  MULADD64x256 (mT (w_pp1 P) 24) Z3 Z4 Z5 Z6 Z7 T0 T1 ++
  [MOV RDX (M0 8)] ++
  MULADD64x448 M1 Z1 Z2 Z3 Z4 Z5 Z6 Z7 Z0 T0 T1 Z0 ++
  [MOV RDX (Rg Z1)] ++
  MULADD64x256 (mT (w_pp1 P) 24) Z4 Z5 Z6 Z7 Z0 T0 T1 ++
  [MOV RDX (M0 16)] ++
  MULADD64x448 M1 Z2 Z3 Z4 Z5 Z6 Z7 Z0 Z1 T0 T1 Z1 ++
  [MOV RDX (Rg Z2)] ++
  MULADD64x256 (mT (w_pp1 P) 24) Z5 Z6 Z7 Z0 Z1 T0 T1 ++
  [MOV RDX (M0 24)] ++
  MULADD64x448 M1 Z3 Z4 Z5 Z6 Z7 Z0 Z1 Z2 T0 T1 Z2 ++
  [MOV RDX (Rg Z3)] ++
  MULADD64x256 (mT (w_pp1 P) 24) Z6 Z7 Z0 Z1 Z2 T0 T1 ++
  [MOV RDX (M0 32)] ++
  MULADD64x448 M1 Z4 Z5 Z6 Z7 Z0 Z1 Z2 Z3 T0 T1 Z3 ++
  [MOV RDX (Rg Z4)] ++
  MULADD64x256 (mT (w_pp1 P) 24) Z7 Z0 Z1 Z2 Z3 T0 T1 ++
  [MOV RDX (M0 40)] ++
  MULADD64x448 M1 Z5 Z6 Z7 Z0 Z1 Z2 Z3 Z4 T0 T1 Z4 ++
  [MOV RDX (Rg Z5)] ++
  MULADD64x256 (mT (w_pp1 P) 24) Z0 Z1 Z2 Z3 Z4 T0 T1 ++
  [MOV RDX (M0 48)] ++
  MULADD64x448 M1 Z6 Z7 Z0 Z1 Z2 Z3 Z4 Z5 T0 T1 Z5 ++
  [MOV RDX (Rg Z6)] ++
  MULADD64x256 (mT (w_pp1 P) 24) Z1 Z2 Z3 Z4 Z5 T0 T1.

(* S/P434/AMD64/fp_x64_asm.S:596-689 *)
Definition fp2sqr434_c0_asm : list instr :=
  [PUSH R12; MOV R8 (Mm RDI 0); MOV R9 (Mm RDI 8); MOV R10 (Mm RDI 16); MOV R11 (Mm RDI 24); MOV R12 (Mm RDI 32);
   ADD R8 (Mm RDI 56); PUSH R13; ADC R9 (Mm RDI 64); ADC R10 (Mm RDI 72); PUSH R14; ADC R11 (Mm RDI 80);
   ADC R12 (Mm RDI 88); MOV R13 (Mm RDI 40); MOV R14 (Mm RDI 48); ADC R13 (Mm RDI 96); ADC R14 (Mm RDI 104);
   STO (Mm RSI 0) R8; STO (Mm RSI 8) R9; STO (Mm RSI 16) R10; STO (Mm RSI 24) R11; STO (Mm RSI 32) R12;
   STO (Mm RSI 40) R13; STO (Mm RSI 48) R14; MOV RAX (Mm RDI 0); MOV R10 (Mm RDI 8); MOV R12 (Mm RDI 16);
   MOV R13 (Mm RDI 24); MOV R14 (Mm RDI 32); SUB RAX (Mm RDI 56); SBB R10 (Mm RDI 64); SBB R12 (Mm RDI 72);
   PUSH R15; SBB R13 (Mm RDI 80); SBB R14 (Mm RDI 88); MOV R15 (Mm RDI 40); MOV RCX (Mm RDI 48);
   SBB R15 (Mm RDI 96); SBB RCX (Mm RDI 104); ADD RAX (mT (w_px4 P) 0 0); MOV RDX (mT (w_px4 P) 8 0);
   ADC R10 (Rg RDX); ADC R12 (Rg RDX); ADC R13 (mT (w_px4 P) 24 0); ADC R14 (mT (w_px4 P) 32 0);
   ADC R15 (mT (w_px4 P) 40 0); ADC RCX (mT (w_px4 P) 48 0); STO (Mm RSI 56) RAX; MOV RDX (Rg R8);
   MULX R9 R8 (Rg RAX); STO (Mm RSI 64) R10; XOR RAX RAX; PUSH RBX; MULX R10 R11 (Rg R10); STO (Mm RSI 72) R12;
   ADOX R9 (Rg R11); MULX R11 R12 (Rg R12); STO (Mm RSI 80) R13; ADOX R10 (Rg R12); MULX R12 R13 (Rg R13);
   STO (Mm RSI 88) R14; ADOX R11 (Rg R13); MULX R13 R14 (Rg R14); STO (Mm RSI 96) R15; ADOX R12 (Rg R14);
   MULX R14 R15 (Rg R15); STO (Mm RSI 104) RCX; ADOX R13 (Rg R15); MULX R15 RBX (Rg RCX); ADOX R14 (Rg RBX);
   ADOX R15 (Rg RAX)] ++
  FPMUL448x448 (mB RSI 0) (mB RSI 56) R8 R9 R10 R11 R12 R13 R14 R15 RBX RCX ++
  [STO (Mm RSI 0) R15; STO (Mm RSI 8) R8; STO (Mm RSI 16) R9; STO (Mm RSI 24) R10; STO (Mm RSI 32) R11;
   STO (Mm RSI 40) R12; STO (Mm RSI 48) R13; POP RBX; POP R15; POP R14; POP R13; POP R12].

(* S/P434/AMD64/fp_x64_asm.S:699-761 *)
Definition fp2sqr434_c1_asm : list instr :=
  [PUSH R12; MOV R8 (Mm RDI 0); MOV R9 (Mm RDI 8); MOV R10 (Mm RDI 16); MOV R11 (Mm RDI 24); MOV R12 (Mm RDI 32);
   ADD R8 (Rg R8); PUSH R13; ADC R9 (Rg R9); ADC R10 (Rg R10); PUSH R14; ADC R11 (Rg R11); MOV R13 (Mm RDI 40);
   MOV R14 (Mm RDI 48); ADC R12 (Rg R12); PUSH R15; ADC R13 (Rg R13); PUSH RBX; ADC R14 (Rg R14); SUBSP 7;
   STO (Sp 8) R9; STO (Sp 16) R10; MOV RDX (Rg R8); MULX R9 R8 (Mm RDI 56); STO (Sp 24) R11; XOR RAX RAX;
   MULX R10 R11 (Mm RDI 64); STO (Sp 32) R12; ADOX R9 (Rg R11); MULX R11 R12 (Mm RDI 72); STO (Sp 40) R13;
   ADOX R10 (Rg R12); MULX R12 R13 (Mm RDI 80); STO (Sp 48) R14; ADOX R11 (Rg R13); MULX R13 R14 (Mm RDI 88);
   ADOX R12 (Rg R14); MULX R14 R15 (Mm RDI 96); ADOX R13 (Rg R15); MULX R15 RBX (Mm RDI 104); ADOX R14 (Rg RBX);
   ADOX R15 (Rg RAX)] ++
  FPMUL448x448 (mS 0) (mB RDI 56) R8 R9 R10 R11 R12 R13 R14 R15 RBX RCX ++
  [ADDSP 7; STO (Mm RSI 0) R15; STO (Mm RSI 8) R8; STO (Mm RSI 16) R9; STO (Mm RSI 24) R10; STO (Mm RSI 32) R11;
   STO (Mm RSI 40) R12; STO (Mm RSI 48) R13; POP RBX; POP R15; POP R14; POP R13; POP R12].

(* S/P434/AMD64/fp_x64_asm.S:771-813 *)
Definition fpmul434_asm : list instr :=
  [MOV RCX (Rg RDX); MOV RDX (Mm RSI 0); MULX R9 R8 (Mm RDI 0); PUSH R12; XOR RAX RAX; MULX R10 R11 (Mm RDI 8);
   PUSH R13; ADOX R9 (Rg R11); MULX R11 R12 (Mm RDI 16); PUSH R14; ADOX R10 (Rg R12); MULX R12 R13 (Mm RDI 24);
   PUSH R15; ADOX R11 (Rg R13); MULX R13 R14 (Mm RDI 32); PUSH RBX; ADOX R12 (Rg R14); MULX R14 R15 (Mm RDI 40);
   PUSH RBP; ADOX R13 (Rg R15); MULX R15 RBX (Mm RDI 48); ADOX R14 (Rg RBX); ADOX R15 (Rg RAX)] ++
  FPMUL448x448 (mB RSI 0) (mB RDI 0) R8 R9 R10 R11 R12 R13 R14 R15 RBX RBP ++
  [STO (Mm RCX 0) R15; STO (Mm RCX 8) R8; STO (Mm RCX 16) R9; STO (Mm RCX 24) R10; STO (Mm RCX 32) R11;
   STO (Mm RCX 40) R12; STO (Mm RCX 48) R13; POP RBP; POP RBX; POP R15; POP R14; POP R13; POP R12].

