(** A machine for the straight-line x86-64 code of S/Pxxx/AMD64/fp_x64_asm.S (the default build, S/../Makefile
    _AMD64_, _MULX_ and _ADX_).  The instructions are those the files use, in the order destination, source of
    the Intel syntax.  A register is a [Z] in [0,2^64).

    Simplifications.  Memory is a map from addresses to 64-bit words, all accesses are to whole words and addresses
    are not reduced modulo 2^64.  The stack is kept apart from this memory: [stk] are the words from rsp upwards
    and [low] those below it, so the model covers calls whose buffers do not overlap the stack frame.  Only CF and
    OF are kept; BT leaves OF undefined and here leaves it unchanged; moving rsp sets both to 0, as rsp is far from
    the ends of the address space.  RET is the end of the code. *)
From Verif Require Import Base.

Definition W : Z := 2 ^ 64.

Inductive reg := RAX | RBX | RCX | RDX | RSI | RDI | RBP | R8 | R9 | R10 | R11 | R12 | R13 | R14 | R15.
Scheme Equality for reg.

(** Operands: a register, [base+d], [rsp+d], and a constant: an immediate or a word of a table read with [rip+...]. *)
Inductive opnd := Rg (r : reg) | Mm (b : reg) (d : Z) | Sp (d : Z) | Cn (v : Z).

Inductive instr :=
| MOV (d : reg) (s : opnd)
| STO (d : opnd) (s : reg)         (* MOV to memory *)
| ADD (d : reg) (s : opnd)
| ADC (d : reg) (s : opnd)
| SUB (d : reg) (s : opnd)
| SBB (d : reg) (s : opnd)
| XOR (d s : reg)
| AND (d s : reg)
| MULX (hi lo : reg) (s : opnd)
| ADCX (d : reg) (s : opnd)
| ADOX (d : reg) (s : opnd)
| PUSH (r : reg)
| POP (r : reg)
| SETC_CL
| BT0 (r : reg)                    (* BT r, 0 *)
| SUBSP (n : nat)                  (* SUB rsp, 8n *)
| ADDSP (n : nat).                 (* ADD rsp, 8n *)

Record st := mkst { rg : reg -> Z; cf : Z; ovf : Z; mem : Z -> Z; stk : list Z; low : list Z }.

Definition rd (s : st) (o : opnd) : Z :=
  match o with
  | Rg r => rg s r
  | Mm b d => mem s (rg s b + d)
  | Sp d => nth (Z.to_nat (d / 8)) (stk s) 0
  | Cn v => v
  end.
Definition setr (s : st) (r : reg) (v : Z) : st :=
  mkst (fun x => if reg_beq x r then v else rg s x) (cf s) (ovf s) (mem s) (stk s) (low s).
Definition flags (s : st) (c o : Z) : st := mkst (rg s) c o (mem s) (stk s) (low s).
Fixpoint set_nth (n : nat) (v : Z) (l : list Z) : list Z :=
  match l, n with
  | [], _ => []
  | _ :: r, O => v :: r
  | x :: r, S k => x :: set_nth k v r
  end.
Definition store (s : st) (o : opnd) (v : Z) : st :=
  match o with
  | Rg r => setr s r v
  | Mm b d => let a := rg s b + d in
              mkst (rg s) (cf s) (ovf s) (fun x => if x =? a then v else mem s x) (stk s) (low s)
  | Sp d => mkst (rg s) (cf s) (ovf s) (mem s) (set_nth (Z.to_nat (d / 8)) v (stk s)) (low s)
  | Cn _ => s
  end.

(** The signed value of a word, and whether a signed result does not fit. *)
Definition sgn (x : Z) : Z := if x <? 2 ^ 63 then x else x - W.
Definition over (x : Z) : Z := if (- 2 ^ 63 <=? x) && (x <? 2 ^ 63) then 0 else 1.

Definition do_add (s : st) (d : reg) (y c : Z) : st :=
  let x := rg s d in
  flags (setr s d ((x + y + c) mod W)) ((x + y + c) / W) (over (sgn x + sgn y + c)).
Definition do_sub (s : st) (d : reg) (y c : Z) : st :=
  let x := rg s d in
  flags (setr s d ((x - y - c) mod W)) (if x - y - c <? 0 then 1 else 0) (over (sgn x - sgn y - c)).
Definition do_push (s : st) (v : Z) : st :=
  mkst (rg s) (cf s) (ovf s) (mem s) (v :: stk s) (tl (low s)).
Definition do_drop (s : st) : st :=
  mkst (rg s) (cf s) (ovf s) (mem s) (tl (stk s)) (hd 0 (stk s) :: low s).

Definition step (i : instr) (s : st) : st :=
  match i with
  | MOV d o => setr s d (rd s o)
  | STO o r => store s o (rg s r)
  | ADD d o => do_add s d (rd s o) 0
  | ADC d o => do_add s d (rd s o) (cf s)
  | SUB d o => do_sub s d (rd s o) 0
  | SBB d o => do_sub s d (rd s o) (cf s)
  | XOR d r => flags (setr s d (Z.lxor (rg s d) (rg s r))) 0 0
  | AND d r => flags (setr s d (Z.land (rg s d) (rg s r))) 0 0
  | MULX hi lo o => let x := rg s RDX * rd s o in setr (setr s lo (x mod W)) hi (x / W)
  | ADCX d o => let x := rg s d + rd s o + cf s in flags (setr s d (x mod W)) (x / W) (ovf s)
  | ADOX d o => let x := rg s d + rd s o + ovf s in flags (setr s d (x mod W)) (cf s) (x / W)
  | PUSH r => do_push s (rg s r)
  | POP r => setr (do_drop s) r (hd 0 (stk s))
  | SETC_CL => setr s RCX (rg s RCX - rg s RCX mod 256 + cf s)
  | BT0 r => flags s (rg s r mod 2) (ovf s)
  | SUBSP n => flags (Nat.iter n (fun t => do_push t (hd 0 (low t))) s) 0 0
  | ADDSP n => flags (Nat.iter n do_drop s) 0 0
  end.

Fixpoint run (l : list instr) (s : st) : st :=
  match l with [] => s | i :: r => run r (step i s) end.

(** Macro operands: [base+d0], [rsp+d0] and [rip+table+d0], to which a macro adds a displacement. *)
Definition mB (b : reg) (d0 d : Z) : opnd := Mm b (d0 + d).
Definition mS (d0 d : Z) : opnd := Sp (d0 + d).
Definition mT (t : list Z) (d0 d : Z) : opnd := Cn (nth (Z.to_nat ((d0 + d) / 8)) t 0).
