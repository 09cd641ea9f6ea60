(** Property theorems C60: the start curve of "prove --initial". *)
From Coq Require Import Znumtheory.
From Verif Require Import Base BaseP Digits Out Params Fp Wf Poik Hashing Codec CodecSpec Fld FpRep FpMisc FpMiscP FpInst Ops Ec Models Proto Sim ModelsSim ProtoSim WordOps FieldOps WordSim CurveSpec IsogSpec ModelSpec OrderSpec ProtoSpec WalkSpec
  WordCurve WordModels WordCheck XIsog WordIsog ChainP WordWalk PolyEv Hasse SupSpec WordMax WordVerify VerifyP InitP CliP Cli WordInit Toy ZOps ToyRun ToyMax ToyHonest.

(** * C60: the initial curve *)
(** y^2 = x^3 + x has (p+1)^2 points over any field with p^2 elements, p = 3 mod 4, p >= 7. *)
Theorem C60_count_any : forall (F : fld), (kadd k1 k1 : F) <> k0 -> forall elems : list F, NoDup elems -> (forall x, In x elems) ->
  forall p m, prime (Z.of_nat p) -> (kn p : F) = k0 -> length elems = (p * p)%nat -> (p * p = 2 * m + 1)%nat ->
  forall j, (p - 1 = 4 * j + 2)%nat -> forall i : F, kmul i i = kopp k1 ->
  forall l, all_points (k0 : F) k1 l -> (7 <= p)%nat -> length l = ((p + 1) * (p + 1))%nat.
Proof. exact zero_count. Qed.
Print Assumptions C60_count_any.
(** So it is one of the curves of C56, for the field of the code; and so is the start curve y^2 = x^3 + 6 x^2 + x of SIDH, which is 2-isogenous to it. *)
Theorem C60_initial : forall P (HG : good P), maximalP P HG k0.
Proof. exact max_zero. Qed.
Print Assumptions C60_initial.
Theorem C60_six : forall P (HG : good P), maximalP P HG (3 * 2)%F.
Proof. exact max_six. Qed.
Print Assumptions C60_six.
(** Generate does not refuse the bytes that --initial stands for. *)
Theorem C60_generate : forall K (HG : good (fpar K)), rand_ok (fpar K) -> exps32 (fpar K) ->
  forall junk tp r t, Generate K (word_ops (fpar K)) junk (repeat 0 (sidh_bytes K)) tp = Ok (r, t) -> r <> None.
Proof. exact initial_generate. Qed.
Print Assumptions C60_generate.
(** The program: when it ends, it ends with exit code 0 and a first line of zeros, or with 2 when memory ran out. *)
Theorem C60_program : forall K (HG : good (fpar K)), rand_ok (fpar K) -> exps32 (fpar K) ->
  forall junk more stdin malloc_ok fuel tp olds tps tps2 c text,
  main_prove K (word_ops (fpar K)) junk (initial_arg :: more) stdin malloc_ok (fun _ => None) fuel tp olds tps tps2 = Ok (c, text) ->
  if malloc_ok then c = 0 /\ exists rest, text = fp2_text K (repeat 0 (sidh_bytes K)) ++ rest else c = 2 /\ text = [].
Proof. exact initial_program. Qed.
Print Assumptions C60_program.
(** A run of Generate from the initial curve; initial_arg is "--initial". *)
Local Notation OF2 := (field_ops Ptoy2 (HW Ptoy2 good_toy2) (Hp Ptoy2 good_toy2)).
Example C60_example : initial_arg = [45; 45; 105; 110; 105; 116; 105; 97; 108] /\ forall junk, Generate K_two (word_ops Ptoy2) junk (repeat 0 6) gen_tape_two =
  Ok (Some (mkSecret [[0; 0; 0; 0; 0; 0]; [103; 221; 1; 72; 10; 81]] [[122; 215; 76; 124; 127; 83]]), skipn 48 gen_tape_two).
Proof.
  split; [reflexivity|]. intros junk. rewrite (Generate_word K_two good_toy2 rand_toy2 junk (@mkPt OF2 (o_zero OF2) (o_zero OF2)) _ _ (zero_elem K_two)).
  transitivity (Generate K_two OZ junkz (repeat 0 6) gen_tape_two).
  - symmetry. refine (Generate_sim K_two _ _ (z_sim Ptoy2 (HW Ptoy2 good_toy2) (Hp Ptoy2 good_toy2)) (z_rand Ptoy2 _ _) _ _ (repeat 0 6) gen_tape_two _). exact I.
  - vm_cast_no_check (eq_refl (Ok (Some (mkSecret [[0; 0; 0; 0; 0; 0]; [103; 221; 1; 72; 10; 81]] [[122; 215; 76; 124; 127; 83]]), skipn 48 gen_tape_two))).
Qed.
