(** S/P610/AMD64/fp_x64_asm.S: the functions for addition and subtraction, line by line, for the machine of Asm.v.
    reg_p1, reg_p2 and reg_p3 are rdi, rsi and rdx (lines 21-24).  The multiplication in GF(p) is in AsmM610.v. *)
From Verif Require Import Base Params Asm.

Local Notation P := (P610 T64).

(* S/P610/AMD64/fp_x64_asm.S:32-64 *)
Definition mp_add610_asm : list instr :=
  [MOV R8 (Mm RDI 0); MOV R9 (Mm RDI 8); MOV R10 (Mm RDI 16); MOV R11 (Mm RDI 24); MOV RAX (Mm RDI 32);
   ADD R8 (Mm RSI 0); ADC R9 (Mm RSI 8); ADC R10 (Mm RSI 16); ADC R11 (Mm RSI 24); ADC RAX (Mm RSI 32);
   STO (Mm RDX 0) R8; STO (Mm RDX 8) R9; STO (Mm RDX 16) R10; STO (Mm RDX 24) R11; STO (Mm RDX 32) RAX;
   MOV R8 (Mm RDI 40); MOV R9 (Mm RDI 48); MOV R10 (Mm RDI 56); MOV R11 (Mm RDI 64); MOV RAX (Mm RDI 72);
   ADC R8 (Mm RSI 40); ADC R9 (Mm RSI 48); ADC R10 (Mm RSI 56); ADC R11 (Mm RSI 64); ADC RAX (Mm RSI 72);
   STO (Mm RDX 40) R8; STO (Mm RDX 48) R9; STO (Mm RDX 56) R10; STO (Mm RDX 64) R11; STO (Mm RDX 72) RAX].

(* S/P610/AMD64/fp_x64_asm.S:72-170 *)
Definition fpadd610_asm : list instr :=
  [PUSH R12; PUSH R13; PUSH R14; PUSH R15; MOV R8 (Mm RDI 0); MOV R9 (Mm RDI 8); MOV R10 (Mm RDI 16);
   MOV R11 (Mm RDI 24); MOV R12 (Mm RDI 32); MOV R13 (Mm RDI 40); MOV R14 (Mm RDI 48); MOV R15 (Mm RDI 56);
   MOV RCX (Mm RDI 64); MOV RDI (Mm RDI 72); ADD R8 (Mm RSI 0); ADC R9 (Mm RSI 8); ADC R10 (Mm RSI 16);
   ADC R11 (Mm RSI 24); ADC R12 (Mm RSI 32); ADC R13 (Mm RSI 40); ADC R14 (Mm RSI 48); ADC R15 (Mm RSI 56);
   ADC RCX (Mm RSI 64); ADC RDI (Mm RSI 72); MOV RAX (mT (w_px2 P) 0 0); SUB R8 (Rg RAX);
   MOV RAX (mT (w_px2 P) 8 0); SBB R9 (Rg RAX); SBB R10 (Rg RAX); SBB R11 (Rg RAX); MOV RAX (mT (w_px2 P) 32 0);
   SBB R12 (Rg RAX); MOV RAX (mT (w_px2 P) 40 0); SBB R13 (Rg RAX); MOV RAX (mT (w_px2 P) 48 0); SBB R14 (Rg RAX);
   MOV RAX (mT (w_px2 P) 56 0); SBB R15 (Rg RAX); MOV RAX (mT (w_px2 P) 64 0); SBB RCX (Rg RAX);
   MOV RAX (mT (w_px2 P) 72 0); SBB RDI (Rg RAX); STO (Mm RDX 64) RCX; STO (Mm RDX 72) RDI; MOV RAX (Cn 0);
   SBB RAX (Cn 0); MOV RSI (mT (w_px2 P) 0 0); AND RSI RAX; MOV RDI (mT (w_px2 P) 8 0); AND RDI RAX;
   ADD R8 (Rg RSI); ADC R9 (Rg RDI); ADC R10 (Rg RDI); ADC R11 (Rg RDI); STO (Mm RDX 0) R8; STO (Mm RDX 8) R9;
   STO (Mm RDX 16) R10; STO (Mm RDX 24) R11; SETC_CL; MOV RDI (mT (w_px2 P) 32 0); AND RDI RAX;
   MOV RSI (mT (w_px2 P) 40 0); AND RSI RAX; MOV R8 (mT (w_px2 P) 48 0); AND R8 RAX; MOV R9 (mT (w_px2 P) 56 0);
   AND R9 RAX; MOV R10 (mT (w_px2 P) 64 0); AND R10 RAX; MOV R11 (mT (w_px2 P) 72 0); AND R11 RAX; BT0 RCX;
   ADC R12 (Rg RDI); ADC R13 (Rg RSI); ADC R14 (Rg R8); ADC R15 (Rg R9); MOV RSI (Mm RDX 64); MOV RDI (Mm RDX 72);
   ADC RSI (Rg R10); ADC RDI (Rg R11); STO (Mm RDX 32) R12; STO (Mm RDX 40) R13; STO (Mm RDX 48) R14;
   STO (Mm RDX 56) R15; STO (Mm RDX 64) RSI; STO (Mm RDX 72) RDI; POP R15; POP R14; POP R13; POP R12].

(* S/P610/AMD64/fp_x64_asm.S:178-257 *)
Definition fpsub610_asm : list instr :=
  [PUSH R12; PUSH R13; PUSH R14; PUSH R15; MOV R8 (Mm RDI 0); MOV R9 (Mm RDI 8); MOV R10 (Mm RDI 16);
   MOV R11 (Mm RDI 24); MOV R12 (Mm RDI 32); MOV R13 (Mm RDI 40); MOV R14 (Mm RDI 48); MOV R15 (Mm RDI 56);
   MOV RCX (Mm RDI 64); MOV RDI (Mm RDI 72); SUB R8 (Mm RSI 0); SBB R9 (Mm RSI 8); SBB R10 (Mm RSI 16);
   SBB R11 (Mm RSI 24); SBB R12 (Mm RSI 32); SBB R13 (Mm RSI 40); SBB R14 (Mm RSI 48); SBB R15 (Mm RSI 56);
   SBB RCX (Mm RSI 64); SBB RDI (Mm RSI 72); STO (Mm RDX 64) RCX; STO (Mm RDX 72) RDI; MOV RAX (Cn 0);
   SBB RAX (Cn 0); MOV RSI (mT (w_px2 P) 0 0); AND RSI RAX; MOV RDI (mT (w_px2 P) 8 0); AND RDI RAX;
   ADD R8 (Rg RSI); ADC R9 (Rg RDI); ADC R10 (Rg RDI); ADC R11 (Rg RDI); STO (Mm RDX 0) R8; STO (Mm RDX 8) R9;
   STO (Mm RDX 16) R10; STO (Mm RDX 24) R11; SETC_CL; MOV RDI (mT (w_px2 P) 32 0); AND RDI RAX;
   MOV RSI (mT (w_px2 P) 40 0); AND RSI RAX; MOV R8 (mT (w_px2 P) 48 0); AND R8 RAX; MOV R9 (mT (w_px2 P) 56 0);
   AND R9 RAX; MOV R10 (mT (w_px2 P) 64 0); AND R10 RAX; MOV R11 (mT (w_px2 P) 72 0); AND R11 RAX; BT0 RCX;
   ADC R12 (Rg RDI); ADC R13 (Rg RSI); ADC R14 (Rg R8); ADC R15 (Rg R9); MOV RSI (Mm RDX 64); MOV RDI (Mm RDX 72);
   ADC RSI (Rg R10); ADC RDI (Rg R11); STO (Mm RDX 32) R12; STO (Mm RDX 40) R13; STO (Mm RDX 48) R14;
   STO (Mm RDX 56) R15; STO (Mm RDX 64) RSI; STO (Mm RDX 72) RDI; POP R15; POP R14; POP R13; POP R12].

(* S/P610/AMD64/fp_x64_asm.S:261-321 *)
Definition SUB610_PX (P0 : list Z) : list instr :=
  [PUSH R12; PUSH R13; PUSH R14; PUSH R15; MOV R8 (Mm RDI 0); MOV R9 (Mm RDI 8); MOV R10 (Mm RDI 16);
   MOV R11 (Mm RDI 24); MOV R12 (Mm RDI 32); MOV R13 (Mm RDI 40); MOV R14 (Mm RDI 48); MOV R15 (Mm RDI 56);
   MOV RAX (Mm RDI 64); MOV RCX (Mm RDI 72); SUB R8 (Mm RSI 0); SBB R9 (Mm RSI 8); SBB R10 (Mm RSI 16);
   SBB R11 (Mm RSI 24); SBB R12 (Mm RSI 32); SBB R13 (Mm RSI 40); SBB R14 (Mm RSI 48); SBB R15 (Mm RSI 56);
   SBB RAX (Mm RSI 64); SBB RCX (Mm RSI 72); MOV RDI (mT P0 0 0); MOV RSI (mT P0 8 0); ADD R8 (Rg RDI);
   ADC R9 (Rg RSI); ADC R10 (Rg RSI); ADC R11 (Rg RSI); MOV RDI (mT P0 32 0); MOV RSI (mT P0 40 0);
   ADC R12 (Rg RDI); ADC R13 (Rg RSI); STO (Mm RDX 0) R8; STO (Mm RDX 8) R9; STO (Mm RDX 16) R10;
   STO (Mm RDX 24) R11; STO (Mm RDX 32) R12; STO (Mm RDX 40) R13; MOV RDI (mT P0 48 0); MOV RSI (mT P0 56 0);
   ADC R14 (Rg RDI); ADC R15 (Rg RSI); MOV RDI (mT P0 64 0); MOV RSI (mT P0 72 0); ADC RAX (Rg RDI);
   ADC RCX (Rg RSI); STO (Mm RDX 48) R14; STO (Mm RDX 56) R15; STO (Mm RDX 64) RAX; STO (Mm RDX 72) RCX; POP R15;
   POP R14; POP R13; POP R12].

(* S/P610/AMD64/fp_x64_asm.S:329-332 *)
Definition mp_sub610_p2_asm : list instr :=
  SUB610_PX (w_px2 P).
