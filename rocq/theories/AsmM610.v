(** S/P610/AMD64/fp_x64_asm.S: the multiplication in GF(p), line by line, for the machine of Asm.v.  reg_p1, reg_p2 and reg_p3 are
    rdi, rsi and rdx (lines 21-24).  The functions for GF(p^2) (lines 457-727 and 814-1033) are not transcribed. *)
From Verif Require Import Base Params Asm.

Local Notation P := (P610 T64).

(* S/P610/AMD64/fp_x64_asm.S:385-422 *)
Definition MULADD64x640b (M1 : Z -> opnd) (M : Z -> opnd) (MM : Z -> opnd) (Z3 : reg) (Z4 : reg) (Z5 : reg) (Z6 : reg) (Z7 : reg) (Z8 : reg) (Z9 : reg) (Z10 : reg) (T0 : reg) (T1 : reg) (T2 : reg) (C : reg) : list instr :=
  [MULX T0 T1 (M1 0); XOR C C; ADOX T1 (M 0); ADOX T0 (M 8); STO (M 24) T1; MULX T1 T2 (M1 8); ADCX T0 (Rg T2);
   ADOX T1 (M 16); STO (MM 0) T0; MULX T0 T2 (M1 16); ADCX T1 (Rg T2); ADOX Z3 (Rg T0); STO (MM 8) T1;
   MULX T0 T1 (M1 24); ADCX Z3 (Rg T1); ADOX Z4 (Rg T0); MULX T0 T1 (M1 32); STO (MM 16) Z3; ADCX Z4 (Rg T1);
   ADOX Z5 (Rg T0); MULX T0 T1 (M1 40); ADCX Z5 (Rg T1); ADOX Z6 (Rg T0); MULX T0 T1 (M1 48); ADCX Z6 (Rg T1);
   ADOX Z7 (Rg T0); MULX T0 T1 (M1 56); ADCX Z7 (Rg T1); ADOX Z8 (Rg T0); MULX T0 T1 (M1 64); ADCX Z8 (Rg T1);
   ADOX Z9 (Rg T0); MULX T0 T1 (M1 72); ADCX Z9 (Rg T1); ADOX Z10 (Rg T0); ADC Z10 (Cn 0)].

(* S/P610/AMD64/fp_x64_asm.S:425-446 *)
Definition MULADD64x384 (M1 : Z -> opnd) (Z0 : reg) (Z1 : reg) (Z2 : reg) (Z3 : reg) (Z4 : reg) (Z5 : reg) (Z6 : reg) (T0 : reg) (T1 : reg) : list instr :=
  [MULX T0 T1 (M1 0); XOR RAX RAX; ADOX Z0 (Rg T1); ADOX Z1 (Rg T0); MULX T0 T1 (M1 8); ADCX Z1 (Rg T1);
   ADOX Z2 (Rg T0); MULX T0 T1 (M1 16); ADCX Z2 (Rg T1); ADOX Z3 (Rg T0); MULX T0 T1 (M1 24); ADCX Z3 (Rg T1);
   ADOX Z4 (Rg T0); MULX T0 T1 (M1 32); ADCX Z4 (Rg T1); ADOX Z5 (Rg T0); MULX T0 T1 (M1 40); ADCX Z5 (Rg T1);
   ADOX Z6 (Rg T0); ADC Z6 (Cn 0)].

(* S/P610/AMD64/fp_x64_asm.S:737-804 *)
Definition FPMUL640x640 (M0 : Z -> opnd) (M1 : Z -> opnd) (MM : Z -> opnd) (OUT : Z -> opnd) (Z0 : reg) (Z1 : reg) (Z2 : reg) (Z3 : reg) (Z4 : reg) (Z5 : reg) (Z6 : reg) (Z7 : reg) (T0 : reg) (T1 : reg) (T2 : reg) : list instr :=
  [MOV RDX (MM 24)] ++
  MULADD64x384 (mT (w_pp1 P) 32) Z4 Z5 Z6 Z7 Z0 Z1 Z2 T0 T1 ++
  [MOV RDX (M0 8)] ++
  MULADD64x640b M1 MM MM Z4 Z5 Z6 Z7 Z0 Z1 Z2 Z3 T0 T1 T2 Z3 ++
  [MOV RDX (MM 24)] ++
  MULADD64x384 (mT (w_pp1 P) 32) Z5 Z6 Z7 Z0 Z1 Z2 Z3 T0 T1 ++
  [MOV RDX (M0 16)] ++
  MULADD64x640b M1 MM MM Z5 Z6 Z7 Z0 Z1 Z2 Z3 Z4 T0 T1 T2 Z4 ++
  [MOV RDX (MM 24)] ++
  MULADD64x384 (mT (w_pp1 P) 32) Z6 Z7 Z0 Z1 Z2 Z3 Z4 T0 T1 ++
  [MOV RDX (M0 24)] ++
  MULADD64x640b M1 MM MM Z6 Z7 Z0 Z1 Z2 Z3 Z4 Z5 T0 T1 T2 Z5 ++
  [MOV RDX (MM 24)] ++
  MULADD64x384 (mT (w_pp1 P) 32) Z7 Z0 Z1 Z2 Z3 Z4 Z5 T0 T1 ++
  [MOV RDX (M0 32)] ++
  MULADD64x640b M1 MM MM Z7 Z0 Z1 Z2 Z3 Z4 Z5 Z6 T0 T1 T2 Z6 ++
  [MOV RDX (MM 24)] ++
  MULADD64x384 (mT (w_pp1 P) 32) Z0 Z1 Z2 Z3 Z4 Z5 Z6 T0 T1 ++
  [MOV RDX (M0 40)] ++
  MULADD64x640b M1 MM MM Z0 Z1 Z2 Z3 Z4 Z5 Z6 Z7 T0 T1 T2 Z7 ++
  [MOV RDX (MM 24)] ++
  MULADD64x384 (mT (w_pp1 P) 32) Z1 Z2 Z3 Z4 Z5 Z6 Z7 T0 T1 ++
  [MOV RDX (M0 48)] ++
  MULADD64x640b M1 MM MM Z1 Z2 Z3 Z4 Z5 Z6 Z7 Z0 T0 T1 T2 Z0 ++
  [MOV RDX (MM 24)] ++
  MULADD64x384 (mT (w_pp1 P) 32) Z2 Z3 Z4 Z5 Z6 Z7 Z0 T0 T1 ++
  [MOV RDX (M0 56)] ++
  MULADD64x640b M1 MM MM Z2 Z3 Z4 Z5 Z6 Z7 Z0 Z1 T0 T1 T2 Z1 ++
  [MOV RDX (MM 24)] ++
  MULADD64x384 (mT (w_pp1 P) 32) Z3 Z4 Z5 Z6 Z7 Z0 Z1 T0 T1 ++
  [MOV RDX (M0 64)] ++
  MULADD64x640b M1 MM MM Z3 Z4 Z5 Z6 Z7 Z0 Z1 Z2 T0 T1 T2 Z2 ++
  [MOV RDX (MM 24)] ++
  MULADD64x384 (mT (w_pp1 P) 32) Z4 Z5 Z6 Z7 Z0 Z1 Z2 T0 T1 ++
  [MOV RDX (M0 72)] ++
  MULADD64x640b M1 MM OUT Z4 Z5 Z6 Z7 Z0 Z1 Z2 Z3 T0 T1 T2 Z3 ++
  [MOV RDX (MM 24)] ++
  MULADD64x384 (mT (w_pp1 P) 32) Z5 Z6 Z7 Z0 Z1 Z2 Z3 T0 T1.

(* S/P610/AMD64/fp_x64_asm.S:1044-1097 *)
Definition fpmul610_asm : list instr :=
  [MOV RCX (Rg RDX); PUSH R12; PUSH R13; PUSH R14; PUSH R15; PUSH RBX; PUSH RBP; SUBSP 4; MOV RDX (Mm RSI 0);
   MULX R9 R8 (Mm RDI 0); XOR RAX RAX; STO (Sp 24) R8; MULX R10 R11 (Mm RDI 8); ADCX R9 (Rg R11);
   MULX R11 R12 (Mm RDI 16); ADCX R10 (Rg R12); MULX R12 R13 (Mm RDI 24); ADCX R11 (Rg R13);
   MULX R13 R8 (Mm RDI 32); ADCX R12 (Rg R8); MULX R14 RAX (Mm RDI 40); ADCX R13 (Rg RAX);
   MULX R15 RAX (Mm RDI 48); STO (Sp 0) R9; ADCX R14 (Rg RAX); MULX R8 RBX (Mm RDI 56); STO (Sp 8) R10;
   ADCX R15 (Rg RBX); MULX R9 RAX (Mm RDI 64); STO (Sp 16) R11; ADCX R8 (Rg RAX); MULX R10 RBX (Mm RDI 72);
   ADCX R9 (Rg RBX); ADC R10 (Cn 0)] ++
  FPMUL640x640 (mB RSI 0) (mB RDI 0) (mS 0) (mB RCX 0) R8 R9 R10 R11 R12 R13 R14 R15 RBX RBP RAX ++
  [STO (Mm RCX 24) R13; STO (Mm RCX 32) R14; STO (Mm RCX 40) R15; STO (Mm RCX 48) R8; STO (Mm RCX 56) R9;
   STO (Mm RCX 64) R10; STO (Mm RCX 72) R11; ADDSP 4; POP RBP; POP RBX; POP R15; POP R14; POP R13; POP R12].
