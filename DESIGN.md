# Formal model of SECUER-pok in Rocq (Coq 8.16.1)

Source under study: `/repo` (read only, never built or run).
`S/` below abbreviates `/repo/c-impl/PQCrypto-SIDH/src/`.
The model is in `rocq/theories/`; `properties.jsonl` states the properties, `MANIFEST.json` says which
theorems claim them, `seeded/LOG.jsonl` lists the wrong programs the theorems were tried against.

## 1. How the model is built

* **One Gallina function per C function**, in the order of the C file, with a comment naming file and lines.
  A C variable that is overwritten keeps its name in the chain of `let`s.
* **Machine integers are `Z` with every wrap-around written out.**  Digits are `Z` in `[0, 2^w)`, `w` = 64 or 32.
* **Outcomes** (`Out.v`): `Ok v`, `Abort` (the C code calls `abort`/`exit` or returns an error that ends the run), `NoTape`
  (more random bytes are needed than the given tape holds), `NoFuel` (a loop bound of the model is reached), `UB` (the C
  code has undefined behaviour: index outside an array, shift by the word size, `isxdigit` of a negative value, ...).
  No theorem identifies two of these.
* **Randomness is an explicit list of bytes**, one for the main thread and one per repetition.  Rejection loops recurse on
  the list, so no bound on the number of rejections is assumed; theorems about runs that end quantify over all lists.
* **Uninitialised memory is a parameter** (`junk`, `olds`): theorems quantify over it.
* **Threads** are an interleaving semantics of atomic steps; streams are finite byte lists with an oracle that makes
  writes fail; the random device is an oracle for the results of `open` and `read`.

### Layers

1. *Digits* (`Digits.v`, `Fp.v`, `FpMisc.v`): macros of `S/config.h`, `S/P434/generic/fp_generic.c` (identical up to names for
   503, 610, 751), `S/fpx.c`, the helpers of `S/poik.c:68-240`.  Parameter tables in `Params.v`.  Proofs: `DigitsP`, `CombaP`,
   `FpP`, `FpRep`, `FpMiscP`, `FpInst`; primality of the four moduli: `Fermat`, `Primality`, `PrimeInst`.
2. *Operation record* (`Ops.v`): code above the field is transcribed once over a record of operations on GF(p^2), and the
   record has five instances (`X64.v` and `X503.v` under 10): `WordOps.v` (digit arrays: **this is the C code**), `FieldOps.v` (the field GF(p^2), or any
   field), `ZOps.v` (pairs of integers, only used to evaluate examples).  `Sim`, `ModelsSim`, `ProtoSim`, `WordSim` prove that a
   run on digit arrays and the run over the field give the same result, following the range (multiples of p) of every lazily
   reduced value.  Theorems called `..._word` or stated on `word_ops` speak about the digit arrays.
3. *Curves* (`Ec.v` = `S/ec_isogeny.c`, `Models.v` = `S/poik.c:100-840`): x-only arithmetic, ladder, square roots, models,
   isogenies with their strategies, the curve check.  Specifications: `CurveSpec` (chord and tangent law, points with both
   coordinates), `IsogSpec` (isogenies as maps on points), `ModelSpec` (isomorphisms, j-invariant), `XSpec` (x-line, naive step
   by step chains), `OrderSpec` (orders, independence, number of points, Hasse interval).  Proofs: `FldCurve`, `GroupP` (the law is an
   abelian group, associativity included), `MultP`, `FldIsog`, `LadderP`, `IsoP`, `FldModels`, `SqrtP`, `OrderP`, `CountP`, `CheckP`, `XLine`,
   `XIso`, `Strategy`, `XChain`, `XIsog` over an abstract field; `WordCurve`, `WordModels`, `WordCheck`, `WordIsog` on digit arrays.
4. *Hash* (`Keccak.v` = `S/sha3/fips202.c`, `Hashing.v`): against `KeccakSpec.v`, written from FIPS 202 at bit level.
5. *Protocol* (`Proto.v` = `S/poik.c:842-1500`, `Codec.v` = `S/poik.c:1502-1673`, `Threads.v`, `Cli.v` = `prove.c`, `verify.c`, `Env.v`).
   Specifications: `HashSpec`, `CodecSpec`, `ProtoSpec`, `WalkSpec` (walks without backtracking, what a response must satisfy),
   `HonestSpec`.  Proofs: `CodecP` ... `CodecMore`, `ThreadsP`, `EnvP`, `VerifyP`, `CliP`, `WalkP`, `ChainP`, `OpenP`, `WordWalk` (verifier);
   `IsoStepP`, `IsoChainP`, `OddP`, `RawP`, `HonestChainP`, `TapeP`, `PackP`, `HonestP`, `WordHonest` (prover).
6. *SIDH/SIKE* (`Sidh.v` = `S/sidh.c`, `Sike.v` = `S/sike.c`): `SquareP`, `KumP` (isogenies preserve sums and differences on the
   x-line), `GridP`, `Lad3P`, `BasisP`, `SidhP`, `SidhSim`, `WordSidh`; generator tables `Gens`, `GensP`, `GensInst`.
7. *Sage* (`Sage.v` = hashing and response handling of `sage-impl/verify.sage`).
8. *Number of points* (no code): `Poly`, `RatFun`, `PolyEv` (polynomials and rational functions), `Manin`, `XSeq`, `Hasse` (Hasse's bound over a
   field with p^2 elements by Manin's method: degrees of the multiples of the Frobenius point on the twist over the function field), `TorsP` (at most n^2 points
   are killed by n), `SupSpec`, `ClassP` (curves with (p+1)^2 points are closed under isomorphisms and isogenies of degree 2, 3, 4), `WordMax`,
   `WordVerify` (the same for the field of the code; what the curve check and Verify decide).

9. *No undefined behaviour, start curve* (no further code): `SafeSpec`, `SafeP`, `WordSafe`, `SafeProveP`, `WordSafeProve`; `InitP`, `WordInit`.
10. *Assembly* (`Asm.v`: a machine for the x86-64 instructions used; `AsmP434.v` = `S/P434/AMD64/fp_x64_asm.S`, all functions the default build
   calls).  Proofs: `AsmP` (rows of carry chains with two carry flags), `AsmRedP` (Montgomery rounds for any operand length), `AsmMul434`, `AsmAdd434`,
   `AsmFp434`, `AsmSqr434`, `AsmDblP`, `AsmDbl434`; `AsmRun434` (runs on numbers).  `X64.v` is a fourth instance of the operation record, in which every field operation
   is a run of this code; `X64P` proves that it simulates the field (the same relation as `WordSim`), `X64Q` carries this to the programs (C65).
   The same for p503: `AsmP503.v`, `AsmRed2`, `AsmMul503`, `AsmAdd503`, `AsmFp503`, `AsmSqr503`, `AsmDblP2`, `AsmDbl503`, `AsmRun503`; `X503.v`, `X503P`, `X503Q` (C66-C70).
   For p610 additions, subtractions and the multiplication in GF(p) only: `AsmP610.v`, `AsmM610.v`; `AsmAdd610` (C71), `AsmRed3`, `AsmMul610`, `AsmMulQ610`, `AsmMulR610`, `AsmFp610` (C72).

`Prop*.v` contain only the property theorems (each closed by one lemma), `Print Assumptions`, and examples.
`Toy*.v`, `ToyRun`, `ToyHonest`, `ToyMax`: a small prime 2^17 3^4 - 1 with 16-bit digits that satisfies every condition on parameters, and
complete runs with it; only used in examples and for witnesses of refutations.

## 2. Trusted base

* Coq 8.16.1's kernel including `vm_compute`, and `coqc`.  No kernel check is switched off, no axiom is declared.
* `Print Assumptions` of every property theorem is "Closed under the global context", except these 27, which depend on the
  primitive 63-bit integers of the standard library and their specification axioms (`PrimInt63.*`, `Uint63.*_spec` and the like), through
  the evaluation of the primality certificates and of the generator checks with Bignums:
  `C09_room`, `C09_witness_refuted`, `C19_configurations`, `C19_primes`, `C23_rand_ok`, `C32_configurations`, `C34_fprand_range_64`,
  `C34_fprand_range_32`, `C34_fprand_surjective_refuted`, `C36_configurations`, `C40_honest_refuted`, `C45_pack`, `C49_tables`, `C49_sidh`,
  `C49_sike`, and all six of C65 and of C70.  (Bignums is only used for its definitions and proved lemmas.)
* The transcription: the reading of the C code in `Digits`, `Fp`, `FpMisc`, `Params`, `Ec`, `Models`, `Proto`, `Codec`, `Hashing`, `Keccak`, `Threads`, `Env`, `Cli`,
  `Sidh`, `Sike`, `Sage`, `Asm`, `AsmP434`, `AsmP503`, for a little-endian LP64 machine with two's complement conversions.
* The specifications (`*Spec.v`, and the vocabulary comments at the head of the `Prop*.v` files).

### Modelled

`S/config.h` (macros), `S/P*/P*.c` and `P*_internal.h` (tables, macros), `S/P434/generic/fp_generic.c`, `S/fpx.c`, `S/ec_isogeny.c` (what poik.c and
sidh.c use), `S/poik.c` (all of it except the terminal output of the progress indicator, whose arithmetic is modelled), `S/poik.h`,
`S/P434/AMD64/fp_x64_asm.S` and `S/P503/AMD64/fp_x64_asm.S` (the functions called with `_MULX_` and `_ADX_`), `S/sidh.c`, `S/sike.c`, `S/sha3/fips202.c` (SHAKE256 and what it needs), `S/random/random.c` (Linux branch), `prove.c`, `verify.c`,
`sage-impl/verify.sage` (hashing, challenge, response handling).

### Not modelled

* Assembly of p751 and ARM64, and the GF(p^2) functions of the AMD64 assembly of p610 (its additions, subtractions and multiplication in GF(p) are modelled, C71-C72); the AMD64 assembly of p434 and p503 is (C61-C70, simplifications of the machine at the head of `Asm.v` and of
  the calls at the head of `X64.v`).  The calling convention, the code the compiler makes of the C files and the branches of `fpx.c` without `_MULX_` and `_ADX_` are not.
* Compressed SIDH/SIKE, SHA-3 hash functions other than SHAKE256, Windows branches, tests, benchmarks, KAT files, `scripts/`,
  `bindgen-wrapper.h`, the interactive prover `zk-proof-of-isogeny-knowledge.sage`.
* Sage's own library: the curve computations of `verify.sage` are parameters of the theorems.
* Timing and other side channels; memory allocation failure; stdio buffering (a write succeeds or fails at the call);
  a read error is treated as end of file; the weak memory model (C11 atomics are interleaved).
* Secrecy and zero knowledge; hardness assumptions.  Nothing is assumed about SHAKE256 apart from what FIPS 202 defines.

## 3. Premises that occur in theorems

| premise | meaning | where discharged |
|---|---|---|
| `good P` | tables consistent (`Wf`), p prime | all eight configurations: `C19_configurations` |
| `rand_ok P` | `fprand` returns values below 2p | 64-bit digits, p434/p503 with 32 bit: `C23_rand_ok`; false for p610/p751 with 32 bit (`C34_..._32_refuted`) |
| `strat_good P` | the strategy tables are strategies of the right size | `C28_configurations` |
| `exps32 P` | exponents below 2^32 | `C36_configurations` |
| `full4 A` | curve nonsingular with rational x-coordinates of points of order 4 | needed by `canonical_model`; holds on curves with (p+1)^2 points: `C56_class` |
| `elem_ok`, `wf_proof`, `wf_response` | byte strings of the sizes of the C structs | by construction of the C types; produced by `Parse` (`C02`) |
| `agreement`, lengths | for C48 the key exchange is a parameter | agreement: C49 |

**The curve check and supersingularity.**  `Check_Curve` produces points that generate a subgroup of order N, N | (p+1)^2, N > 4(p+1)
(`C33_accept`).  By Hasse's bound (`C56_hasse`, proved from scratch) the curve then has (p+1)^2 points, and a curve with (p+1)^2 points is
killed by p+1 (`C56_exponent`), so the answer of `Check_Curve`, when it gives one, is exactly whether the curve is nonsingular with (p+1)^2 points
(`C33_exact`).  These curves (`maximalP`, they are the supersingular curves with Frobenius -p, a fact that no theorem needs) have their points of order 4 over
GF(p^2) and are closed under isomorphisms and isogenies of degree 2, 3, 4 (`C56_class`).  The theorems on Verify, Prove and walks (C36, C37, C40, C41, C54,
C55, C57, C58, C59) are stated for them; the start curve y^2 = x^3 + x of `prove --initial` is one of them (C60).  No statement of the theory of elliptic curves is a premise anywhere.

## 4. What was found

False as stated, or surprising; each line names the theorem.

* **Honest proofs can be refused** (C40): when a curve strictly inside a left or right chain has j-invariant 0 or 1728 the isomorphism to
  the canonical model is not unique, prover and verifier choose different ones, and Verify reports backtracking.  Witness run in
  `ToyHonest.v`.  Away from these curves every honest proof is accepted (proved).
* **Proofs are malleable** (C09): coordinates are accepted unreduced (v and v + p), and `verify` prints the bytes it read, so the printed line
  differs between encodings of the same curve (C43, C44).
* **Tags are truncated to signed char** (C39): 255, 256, 257 act as -1, 0, 1.
* `Dump` ignores a failed write of a tag line (C06); `verify` may have printed the first curve when it exits with 3 (C43).
* `Parse` calls `isxdigit` on negative values and lets `%d` overflow (C51); trailing text and upper case hex are accepted (C05).
* Apart from that neither program has undefined behaviour on any input (C58, C59): the results of `Isogeny_A/B` that `Instance`
  ignores and the packing of curves and points never fail.
* `solve_quadratic` returns a huge `size_t` when the discriminant vanishes, and `all_models` writes behind its array (C31, coefficients 2 and -2);
  the curve check excludes these coefficients before the call in Verify (C33).
* `fpneg(0)` = 2p, outside the documented range (C18); `mp_shiftleft` by a multiple of the digit size is undefined (C50).
* The assembly `fp2mul434_c0_asm` (and `fp2mul503_c0_asm`) is wrong when the imaginary part of its second operand exceeds 8p (C64, C69), while the portable function allows 10p.
  `get_3_isog` makes that operand as a sum of five values, each documented as below 2p; it stays below 8p only because fresh
  Montgomery products are below (1 + 2^-6)p (p503: 1.1 p).  The proofs of C65 and C70 show that no call in Generate, Prove, Verify or SIDH exceeds the limit.
* Without `_MULX_` and `_ADX_` (`USE_MULX=FALSE` in the Makefile) `fp2sqr_mont` (fpx.c:265-287) calls `mp_sub434_p4`, whose body in
  `S/P434/AMD64/fp_x64.c:44-58` is empty except on Windows, and multiplies by an uninitialised variable.  Found by reading, outside the model.
* `fprand` (C34): not every element can occur; with 32-bit digits the result can exceed 2p for p610 and p751.
* `Ladder` returns (0:0) for the point (0,0) (C26).
* `randombytes` reports success without filling the buffer from 2^31 bytes on; it does not return at end of file (C46).
* Sage verifier: reads 32 hash bytes for all parameter sets, so it disagrees with the C code for p610 and p751 (C45); no length checks, which
  lets a forger shift bytes between commitments (C52); no check of the curves.
* Read in the code, not part of a property: `Pack_Chain_A` ignores a failure of `random_mod_order_A`;
  `publickey_validation` compares only part of an element with `memcmp`; the AMD64
  variant of `mp_sub434_p4` and its siblings has an empty body on Linux.

## 5. Properties: how each one is proved

| id | method |
|----|------|
| C01-C06, C51 | `Dump`/`Parse` over byte lists with a model of scanf and getc; accepted language characterised in both directions |
| C07, C08, C09 | Montgomery conversion and byte (de)serialisation; congruence of Verify in the decoded values |
| C10, C11 | unrolled round pairs equal to the bit-level specification on symbolic states; sponge by induction over blocks |
| C12-C14, C38 | induction over hash blocks against a streaming specification; injectivity of fixed-length encodings |
| C15-C18, C50 | digit proofs for every word count; invariants of the comba loops |
| C19 | evaluation of the tables; primality from an element of order p+1 in GF(q)[i] |
| C20-C22, C24 | exponent bookkeeping, Fermat, refinement with ranges |
| C23 | simulation between the digit instance and the field instance of the operation record |
| C25-C27, C53 | field algebra; associativity by the three-points-on-a-line argument |
| C28, C42 | generic theorem on strategies, finite check of the tables, exact order test |
| C29-C31 | j-invariant and the six models |
| C32, C33 | integer inequalities; loop invariant of the check over the random bytes; Lagrange by counting |
| C34, C46, C47 | ranges, read loop over an oracle |
| C35 | invariant of the interleaving semantics, termination measure |
| C36, C37, C41 | decoders succeed exactly on walks without backtracking; Verify as a declarative predicate |
| C39, C43, C44 | command line tools over the codec |
| C40, C54, C55 | honest prover: invariance of isogeny steps under isomorphism, commuting squares, tapes and layout |
| C45, C52 | byte-level comparison with the Sage verifier |
| C48, C49 | SIKE over an abstract key exchange; SIDH agreement from commuting squares and the Kummer relation |
| C56 | Hasse's bound by Manin's elementary method (polynomials and rational functions over a finite field); division polynomials in x only; counting of torsion |
| C57 | exactness of every check in Verify; what the accepted chains are does not depend on the random choices |
| C58, C59 | every call whose failure is ignored or fatal succeeds, over the field; carried to digit arrays by the simulation of C23 |
| C60 | the map 1 + Frobenius on y^2 = x^3 + x has a kernel of p+1 points and its image lies in the p+1 rational points; Hasse's bound leaves (p+1)^2 |
| C65, C70 | the bounds of `Sim.v` keep the second factor of every product at most 8p (`s_mul`, `s_mul3`); inversion, square root, comparison and conversions agree with the portable ones because their three primitives do |
| C61-C64, C66-C69, C71-C72 | symbolic execution of short phases, induction over the rows and rounds of the multiplication with both carry chains; uniqueness of Montgomery reduction |
