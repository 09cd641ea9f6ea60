{
 "claims": [
  {
   "property": "C01",
   "status": "proved",
   "theorems": [
    "C01_roundtrip"
   ],
   "note": "Any suffix, any previous content of the destination."
  },
  {
   "property": "C02",
   "status": "proved",
   "theorems": [
    "C02_wellformed"
   ],
   "note": ""
  },
  {
   "property": "C03",
   "status": "proved",
   "theorems": [
    "C03_truncated"
   ],
   "note": "Every cut that removes more than the final newline."
  },
  {
   "property": "C04",
   "status": "proved",
   "theorems": [
    "C04_fp2_roundtrip"
   ],
   "note": ""
  },
  {
   "property": "C05",
   "status": "proved",
   "theorems": [
    "C05_sound",
    "C05_complete",
    "C05_tokens_of_dump"
   ],
   "note": "The accepted language is characterised in both directions."
  },
  {
   "property": "C06",
   "status": "partial",
   "theorems": [
    "C06_dump_fp2",
    "C06_dump_partial",
    "C06_dump_refuted"
   ],
   "note": "False as stated: the result of writing a tag line is ignored, so Dump returns true with the line missing (refuted for every proof). All other writes are checked. Flushing at exit is outside the model."
  },
  {
   "property": "C07",
   "status": "proved",
   "theorems": [
    "C07_decode_encode",
    "C07_decode",
    "C07_encode",
    "C07_canonical_roundtrip"
   ],
   "note": "All byte strings of the right length, all configurations, any previous content of the destination."
  },
  {
   "property": "C08",
   "status": "proved",
   "theorems": [
    "C08_representative",
    "C08_read_back"
   ],
   "note": "Premise rand_ok (fprand below 2p) holds for 64-bit digits and for p434/p503 with 32-bit digits."
  },
  {
   "property": "C09",
   "status": "partial",
   "theorems": [
    "C09_malleable_refuted",
    "C09_room",
    "C09_witness_refuted"
   ],
   "note": "False: every accepted proof has a different accepted encoding (adding p to a coordinate), and verify prints a different line. Witness with a small prime; the general theorem covers the four parameter sets."
  },
  {
   "property": "C10",
   "status": "proved",
   "theorems": [
    "C10_keccak_f",
    "C10_bits_of_words_meaning"
   ],
   "note": "Against the bit-level specification KeccakSpec.v written from FIPS 202, all states."
  },
  {
   "property": "C11",
   "status": "proved",
   "theorems": [
    "C11_shake256",
    "C11_bytes_determined",
    "C11_prefix",
    "C11_blockwise",
    "C11_incremental"
   ],
   "note": "All messages and output lengths (as lists; the C length arguments are machine integers)."
  },
  {
   "property": "C12",
   "status": "proved",
   "theorems": [
    "C12_challenge",
    "C12_challenge_total",
    "C12_no_block_influence"
   ],
   "note": "Fuel counts hash blocks; running out of fuel is the only other outcome."
  },
  {
   "property": "C13",
   "status": "proved",
   "theorems": [
    "C13_sample_ternary",
    "C13_bijection",
    "C13_accept"
   ],
   "note": ""
  },
  {
   "property": "C14",
   "status": "proved",
   "theorems": [
    "C14_domain_separation",
    "C14_commit_input_injective",
    "C14_challenge_input_injective",
    "C14_collision"
   ],
   "note": ""
  },
  {
   "property": "C15",
   "status": "proved",
   "theorems": [
    "C15_mp_add",
    "C15_mp_sub",
    "C15_ADDC",
    "C15_SUBC",
    "C15_toB_meaning"
   ],
   "note": "Every word count, every radix of at least two bits."
  },
  {
   "property": "C16",
   "status": "proved",
   "theorems": [
    "C16_digit_x_digit",
    "C16_mp_mul"
   ],
   "note": "Every even radix, every word count below 2^radix."
  },
  {
   "property": "C17",
   "status": "proved",
   "theorems": [
    "C17_rdc_mont",
    "C17_configurations"
   ],
   "note": "All eight configurations (four primes, 32- and 64-bit digits)."
  },
  {
   "property": "C18",
   "status": "partial",
   "theorems": [
    "C18_fpadd",
    "C18_fpsub",
    "C18_fpneg",
    "C18_fpdiv2",
    "C18_fpcorrection",
    "C18_fpmul",
    "C18_fpneg_documented_range_refuted"
   ],
   "note": "Everything holds except the documented output range of fpneg: fpneg(0) = 2p, shown by the refutation; C18_fpneg states the exact range."
  },
  {
   "property": "C19",
   "status": "proved",
   "theorems": [
    "C19_configurations",
    "C19_constants",
    "C19_primes"
   ],
   "note": "Primality by a Pocklington-style criterion in GF(q)[i], evaluated with BigZ."
  },
  {
   "property": "C20",
   "status": "proved",
   "theorems": [
    "C20_toF_meaning",
    "C20_fpinv",
    "C20_chain",
    "C20_fp2inv"
   ],
   "note": "All inputs up to 2p."
  },
  {
   "property": "C21",
   "status": "proved",
   "theorems": [
    "C21_fp2mul",
    "C21_fp2sqr"
   ],
   "note": "Inputs up to j*p and k*p with 2jk<256 (products), 4p (squares)."
  },
  {
   "property": "C22",
   "status": "proved",
   "theorems": [
    "C22_fp_equal",
    "C22_fp_equal_2p",
    "C22_fp2_equal",
    "C22_fp_lt",
    "C22_from_mont",
    "C22_ct_compare",
    "C22_ct_cmov",
    "C22_swap_digits"
   ],
   "note": "Equality for inputs below 2p (sharp: C22_fp_equal_2p)."
  },
  {
   "property": "C23",
   "status": "proved",
   "theorems": [
    "C23_xDBL",
    "C23_xTPL",
    "C23_xDBLADD",
    "C23_isog2",
    "C23_isog3",
    "C23_isog4",
    "C23_j_inv",
    "C23_inv_3_way",
    "C23_get_A",
    "C23_all_models",
    "C23_canonical_model",
    "C23_eval_iso",
    "C23_Ladder",
    "C23_formulas",
    "C23_Verify",
    "C23_Generate",
    "C23_Prove",
    "C23_rand_ok"
   ],
   "note": "All parameter sets with [good P] (the eight configurations are instances, C19_configurations). The models of the functions are written once over a record of field operations; the digit-array instance equals the GF(p^2) instance."
  },
  {
   "property": "C24",
   "status": "proved",
   "theorems": [
    "C24_fp2sqrt",
    "C24_fp2sqrt_known"
   ],
   "note": "Inputs below 2p."
  },
  {
   "property": "C25",
   "status": "proved",
   "theorems": [
    "C25_xDBL",
    "C25_xTPL",
    "C25_xDBLADD",
    "C25_xDBL_field",
    "C25_xTPL_field",
    "C25_xADD_field"
   ],
   "note": "Over any field of characteristic not 2 and on digit arrays. Differential addition needs P - Q to be neither infinity nor (0,0), the known exception."
  },
  {
   "property": "C26",
   "status": "partial",
   "theorems": [
    "C26_Ladder_partial",
    "C26_Ladder_at_zero_refuted"
   ],
   "note": "True for every scalar and bit count and every point other than infinity and (0,0); false at (0,0), where the ladder returns (0:0)."
  },
  {
   "property": "C27",
   "status": "proved",
   "theorems": [
    "C27_isogeny2",
    "C27_isogeny3",
    "C27_isogeny4",
    "C27_code2",
    "C27_code3",
    "C27_code4"
   ],
   "note": "Any field of characteristic not 2; the 2- and 4-isogenies for kernels not above (0,0) as the formulas require. Commutation with doubling and tripling is up to sign (x-coordinates)."
  },
  {
   "property": "C28",
   "status": "proved",
   "theorems": [
    "C28_configurations",
    "C28_safe_A",
    "C28_safe_B",
    "C28_A",
    "C28_B",
    "C28_dual",
    "C28_points"
   ],
   "note": "Index safety holds for any field operations. The chain theorems are on digit arrays for every curve (for Isogeny_A: with rational points of order 4, which change_model needs) and every kernel point of the right order."
  },
  {
   "property": "C29",
   "status": "proved",
   "theorems": [
    "C29_j_inv",
    "C29_enc_j",
    "C29_isomorphic",
    "C29_isomorphic_conv"
   ],
   "note": ""
  },
  {
   "property": "C30",
   "status": "proved",
   "theorems": [
    "C30_canonical_model",
    "C30_pack",
    "C30_pack_invariant",
    "C30_pack_idempotent",
    "C30_eval_iso",
    "C30_iso_homomorphism"
   ],
   "note": "[full4 A]: the square roots needed for the six models exist in GF(p^2), i.e. rational 4-torsion."
  },
  {
   "property": "C31",
   "status": "partial",
   "theorems": [
    "C31_all_models_partial",
    "C31_six_or_overrun",
    "C31_singular_refuted"
   ],
   "note": "False for the singular coefficients 2 and -2 (write behind the array, refuted). True on curves with rational 4-torsion; for other coefficients the result is six entries or the overrun, not characterised further."
  },
  {
   "property": "C32",
   "status": "proved",
   "theorems": [
    "C32_sound",
    "C32_no_wrap",
    "C32_hasse",
    "C32_full",
    "C32_configurations"
   ],
   "note": "Every pair of exponents; wrap-around in unsigned long is modelled and harmless (soundness) and absent below 2^32."
  },
  {
   "property": "C33",
   "status": "proved",
   "theorems": [
    "C33_accept",
    "C33_count",
    "C33_exact",
    "C33_never_rejects",
    "C33_uninitialised"
   ],
   "note": "Every tape of random bytes. Every answer is exact: accepted means nonsingular with (p+1)^2 points."
  },
  {
   "property": "C34",
   "status": "partial",
   "theorems": [
    "C34_fprand_range_64",
    "C34_fprand_range_32",
    "C34_fprand_range_32_refuted",
    "C34_fprand_surjective_refuted"
   ],
   "note": "The range claim holds on 64-bit digits and for p434/p503 on 32-bit digits; it is refuted for p610 and p751 with 32-bit digits; the claim that every element can occur is refuted."
  },
  {
   "property": "C35",
   "status": "proved",
   "theorems": [
    "C35_distinct",
    "C35_slots",
    "C35_result",
    "C35_all_indices",
    "C35_sequential",
    "C35_terminates",
    "C35_counter_bounded"
   ],
   "note": "Any number of workers >= 1, any schedule of atomic steps, any results of the work."
  },
  {
   "property": "C36",
   "status": "proved",
   "theorems": [
    "C36_Verify",
    "C36_response",
    "C36_configurations"
   ],
   "note": "Every run that ends (Ok b); tags are compared after conversion to signed char."
  },
  {
   "property": "C37",
   "status": "proved",
   "theorems": [
    "C37_three_answers"
   ],
   "note": "On the responses as decoded by Unpack_Response."
  },
  {
   "property": "C38",
   "status": "proved",
   "theorems": [
    "C38_counts"
   ],
   "note": ""
  },
  {
   "property": "C39",
   "status": "partial",
   "theorems": [
    "C39_tags_partial",
    "C39_tags_refuted"
   ],
   "note": "False as stated: tags are truncated to signed char, so 255, 256, 257 act as -1, 0, 1. True after the truncation."
  },
  {
   "property": "C40",
   "status": "partial",
   "theorems": [
    "C40_honest_partial",
    "C40_honest_refuted",
    "C40_pipeline_partial"
   ],
   "note": "Proved, also for the command line tools, when no curve strictly inside a chain of 3-isogenies has j-invariant 0 or 1728. False in general: C40_honest_refuted is a run (over a small prime) where the left chain passes through j = 1728, the isomorphism to the canonical model is not unique, and Verify refuses the honest proof as backtracking. The statement is about runs of Verify that end."
  },
  {
   "property": "C41",
   "status": "proved",
   "theorems": [
    "C41_canonical",
    "C41_moved",
    "C41_A",
    "C41_B",
    "C41_cyclic_A",
    "C41_cyclic_B"
   ],
   "note": "The decoders succeed exactly on the walks without backtracking."
  },
  {
   "property": "C42",
   "status": "proved",
   "theorems": [
    "C42_A",
    "C42_B",
    "C42_all_pairs",
    "C42_zero",
    "C42_order"
   ],
   "note": "For Isogeny_A the curve must have rational points of order 4 (all supersingular curves of the protocol do); with back != NULL Isogeny_B may run out of random bytes instead."
  },
  {
   "property": "C43",
   "status": "partial",
   "theorems": [
    "C43_verify_partial",
    "C43_verify_success",
    "C43_prove_partial",
    "C43_one_line_refuted"
   ],
   "note": "Exit codes characterised completely. False in one detail: verify may have printed the first curve when it exits 3; prove may exit 0 with a tag line missing (C06)."
  },
  {
   "property": "C44",
   "status": "partial",
   "theorems": [
    "C44_chain_partial",
    "C44_honest_partial",
    "C44_chain_refuted"
   ],
   "note": "True when the end curve is in packed form, which holds for contributions made by Prove. False for accepted proofs with another encoding."
  },
  {
   "property": "C45",
   "status": "partial",
   "theorems": [
    "C45_pack",
    "C45_challenge",
    "C45_commit_434_503",
    "C45_commit_610_751_refuted"
   ],
   "note": "Packing and challenge agree for all four sets, commitment hashes for p434 and p503. False for p610 and p751: Sage always reads 32 bytes (refuted for every input)."
  },
  {
   "property": "C46",
   "status": "partial",
   "theorems": [
    "C46_randombytes",
    "C46_large_refuted",
    "C46_eof_never_returns"
   ],
   "note": "True below 2^31 bytes. False from 2^31 bytes on because the count is converted to int (refuted for every such request below 2^32)."
  },
  {
   "property": "C47",
   "status": "proved",
   "theorems": [
    "C47_progress"
   ],
   "note": ""
  },
  {
   "property": "C48",
   "status": "proved",
   "theorems": [
    "C48_decapsulates",
    "C48_rejects",
    "C48_every_ciphertext"
   ],
   "note": "The four key exchange functions are parameters of the theorems; agreement and their output lengths are premises, as the property states. A ciphertext whose public key the owner rejects is covered by C48_every_ciphertext."
  },
  {
   "property": "C49",
   "status": "proved",
   "theorems": [
    "C49_tables",
    "C49_sidh",
    "C49_sidh_any_tables",
    "C49_sike"
   ],
   "note": "All four parameter sets, both digit sizes, every pair of private keys of the right length; the generator tables are checked to be bases of the torsion. EphemeralSecretAgreement_B with sike=1 may reject a key (publickey_validation), this is the premise not_rejected of C49_sike."
  },
  {
   "property": "C50",
   "status": "partial",
   "theorems": [
    "C50_mp_shiftr1",
    "C50_mp_shiftl1",
    "C50_mp_shiftleft",
    "C50_mp_shiftleft_refuted"
   ],
   "note": "mp_shiftleft is right exactly when the count is 0 or not a multiple of the digit size; the remaining counts are undefined behaviour (refuted)."
  },
  {
   "property": "C51",
   "status": "partial",
   "theorems": [
    "C51_parse_defined",
    "C51_parse_defined_refuted"
   ],
   "note": "False as stated: isxdigit gets negative values for bytes 128..254, and %d overflows. C51_parse_defined shows these are the only causes."
  },
  {
   "property": "C52",
   "status": "partial",
   "theorems": [
    "C52_sage_lengths_refuted"
   ],
   "note": "False: read_bytes accepts any length, and a forger without any isogeny between the curves completes a transcript whenever the challenge starts with 1 and ends with -1. The curve computations are parameters of the theorem."
  },
  {
   "property": "C53",
   "status": "proved",
   "theorems": [
    "C53_group",
    "C53_multiples"
   ],
   "note": ""
  },
  {
   "property": "C54",
   "status": "proved",
   "theorems": [
    "C54_shape",
    "C54_end"
   ],
   "note": "Runs that end."
  },
  {
   "property": "C55",
   "status": "proved",
   "theorems": [
    "C55_square"
   ],
   "note": "Runs of Instance that end."
  },
  {
   "property": "C56",
   "status": "proved",
   "theorems": [
    "C56_hasse_any",
    "C56_hasse",
    "C56_points",
    "C56_class",
    "C56_exponent",
    "C56_certificate",
    "C56_packed"
   ],
   "note": "No premise from the theory of elliptic curves."
  },
  {
   "property": "C57",
   "status": "proved",
   "theorems": [
    "C57_verdict"
   ],
   "note": "Runs that end, over digit arrays."
  },
  {
   "property": "C58",
   "status": "proved",
   "theorems": [
    "C58_Verify",
    "C58_program"
   ],
   "note": "Over digit arrays. Reading an unreadable text is undefined (C51, C58_program states exactly when). The model bounds the blocks squeezed for the challenge; the C loop does not."
  },
  {
   "property": "C59",
   "status": "proved",
   "theorems": [
    "C59_Generate",
    "C59_Prove",
    "C59_program"
   ],
   "note": "Over digit arrays; width and height positive. Reading an unreadable start curve is undefined, as in C58. The model bounds the blocks squeezed for the challenge; the C loop does not."
  },
  {
   "property": "C60",
   "status": "proved",
   "theorems": [
    "C60_count_any",
    "C60_initial",
    "C60_six",
    "C60_generate",
    "C60_program"
   ],
   "note": "Over digit arrays. Also for the start curve of SIDH (C60_six)."
  },
  {
   "property": "C61",
   "status": "proved",
   "theorems": [
    "C61_fpadd",
    "C61_fpsub",
    "C61_mp_sub_p2",
    "C61_mp_add"
   ],
   "note": "Machine model of Asm.v: whole-word accesses, buffers apart from the stack frame."
  },
  {
   "property": "C62",
   "status": "proved",
   "theorems": [
    "C62_fpmul",
    "C62_portable"
   ],
   "note": "Machine model of Asm.v."
  },
  {
   "property": "C63",
   "status": "proved",
   "theorems": [
    "C63_c0",
    "C63_c1"
   ],
   "note": "Machine model of Asm.v."
  },
  {
   "property": "C64",
   "status": "proved",
   "theorems": [
    "C64_c1",
    "C64_c0",
    "C64_limit"
   ],
   "note": "Machine model of Asm.v. C64_limit shows that the limit 8p in C64_c0 is needed."
  },
  {
   "property": "C65",
   "status": "proved",
   "theorems": [
    "C65_Verify",
    "C65_Generate",
    "C65_Prove",
    "C65_keygen",
    "C65_agree_A",
    "C65_agree_B"
   ],
   "note": "Machine model of Asm.v; calls from a fixed layout of the operands (head of X64.v)."
  },
  {
   "property": "C66",
   "status": "proved",
   "theorems": [
    "C66_fpadd",
    "C66_fpsub",
    "C66_mp_sub_p2",
    "C66_mp_add"
   ],
   "note": "Machine model of Asm.v: whole-word accesses, buffers apart from the stack frame."
  },
  {
   "property": "C67",
   "status": "proved",
   "theorems": [
    "C67_fpmul",
    "C67_portable"
   ],
   "note": "Machine model of Asm.v."
  },
  {
   "property": "C68",
   "status": "proved",
   "theorems": [
    "C68_c0",
    "C68_c1"
   ],
   "note": "Machine model of Asm.v."
  },
  {
   "property": "C69",
   "status": "proved",
   "theorems": [
    "C69_c1",
    "C69_c0",
    "C69_limit"
   ],
   "note": "Machine model of Asm.v. C69_limit shows that the limit 8p in C69_c0 is needed."
  },
  {
   "property": "C70",
   "status": "proved",
   "theorems": [
    "C70_Verify",
    "C70_Generate",
    "C70_Prove",
    "C70_keygen",
    "C70_agree_A",
    "C70_agree_B"
   ],
   "note": "Machine model of Asm.v; calls from a fixed layout of the operands (head of X64.v)."
  },
  {
   "property": "C71",
   "status": "proved",
   "theorems": [
    "C71_fpadd",
    "C71_fpsub",
    "C71_mp_sub_p2",
    "C71_mp_add"
   ],
   "note": "Machine model of Asm.v: whole-word accesses, buffers apart from the stack frame."
  },
  {
   "property": "C72",
   "status": "proved",
   "theorems": [
    "C72_fpmul",
    "C72_portable"
   ],
   "note": "Machine model of Asm.v: whole-word accesses, buffers apart from the stack frame."
  }
 ]
}