# What Print Assumptions lists

Generated by tools/assumptions.py.  Every theorem of MANIFEST.json uses one of these sets.

**S1** (179 theorems): closed under the global context (no axioms)

**S2** (1 theorems): `ClassicalDedekindReals.sig_forall_dec`

**S3** (1 theorems): `PrimFloat.float`

**S4** (8 theorems): `ClassicalDedekindReals.sig_forall_dec`, `FunctionalExtensionality.functional_extensionality_dep`

**S5** (254 theorems): `ClassicalDedekindReals.sig_forall_dec`, `ClassicalDedekindReals.sig_not_dec`, `FunctionalExtensionality.functional_extensionality_dep`

**S6** (258 theorems): `ClassicalDedekindReals.sig_forall_dec`, `ClassicalDedekindReals.sig_not_dec`, `Classical_Prop.classic`, `FunctionalExtensionality.functional_extensionality_dep`

**S7** (1 theorems): `ClassicalDedekindReals.sig_forall_dec`, `ClassicalEpsilon.constructive_indefinite_description`, `Classical_Prop.classic`, `FunctionalExtensionality.functional_extensionality_dep`

**S8** (46 theorems): `ClassicalDedekindReals.sig_forall_dec`, `ClassicalDedekindReals.sig_not_dec`, `ClassicalEpsilon.constructive_indefinite_description`, `Classical_Prop.classic`, `FunctionalExtensionality.functional_extensionality_dep`

**S9** (1 theorems): `ClassicalDedekindReals.sig_forall_dec`, `FunctionalExtensionality.functional_extensionality_dep`, `PrimFloat.abs`, `PrimFloat.div`, `PrimFloat.eqb`, `PrimFloat.float`, `PrimFloat.frshiftexp`, `PrimFloat.ltb`, `PrimFloat.normfr_mantissa`, `PrimInt63.eqb`, `PrimInt63.int`, `PrimInt63.land`, `PrimInt63.lsr`

**S10** (48 theorems): `PrimFloat.abs`, `PrimFloat.add`, `PrimFloat.div`, `PrimFloat.eqb`, `PrimFloat.float`, `PrimFloat.leb`, `PrimFloat.ltb`, `PrimFloat.mul`, `PrimFloat.of_uint63`, `PrimFloat.opp`, `PrimFloat.sqrt`, `PrimFloat.sub`, `PrimInt63.int`, `PrimInt63.lor`, `PrimInt63.lsl`, `PrimInt63.sub`

**S11** (1 theorems): `FloatAxioms.eqb_spec`, `PrimFloat.abs`, `PrimFloat.add`, `PrimFloat.div`, `PrimFloat.eqb`, `PrimFloat.float`, `PrimFloat.frshiftexp`, `PrimFloat.leb`, `PrimFloat.ltb`, `PrimFloat.mul`, `PrimFloat.normfr_mantissa`, `PrimFloat.of_uint63`, `PrimFloat.opp`, `PrimFloat.sqrt`, `PrimFloat.sub`, `PrimInt63.eqb`, `PrimInt63.int`, `PrimInt63.land`, `PrimInt63.lor`, `PrimInt63.lsl`, `PrimInt63.lsr`, `PrimInt63.sub`

**S12** (4 theorems): `ClassicalDedekindReals.sig_forall_dec`, `FunctionalExtensionality.functional_extensionality_dep`, `PrimFloat.abs`, `PrimFloat.add`, `PrimFloat.div`, `PrimFloat.eqb`, `PrimFloat.float`, `PrimFloat.frshiftexp`, `PrimFloat.leb`, `PrimFloat.ltb`, `PrimFloat.mul`, `PrimFloat.normfr_mantissa`, `PrimFloat.of_uint63`, `PrimFloat.opp`, `PrimFloat.sqrt`, `PrimFloat.sub`, `PrimInt63.eqb`, `PrimInt63.int`, `PrimInt63.land`, `PrimInt63.lor`, `PrimInt63.lsl`, `PrimInt63.lsr`, `PrimInt63.sub`

**S13** (1 theorems): `FloatAxioms.div_spec`, `FloatAxioms.eqb_spec`, `PrimFloat.abs`, `PrimFloat.add`, `PrimFloat.div`, `PrimFloat.eqb`, `PrimFloat.float`, `PrimFloat.frshiftexp`, `PrimFloat.leb`, `PrimFloat.ltb`, `PrimFloat.mul`, `PrimFloat.normfr_mantissa`, `PrimFloat.of_uint63`, `PrimFloat.opp`, `PrimFloat.sqrt`, `PrimFloat.sub`, `PrimInt63.eqb`, `PrimInt63.int`, `PrimInt63.land`, `PrimInt63.lor`, `PrimInt63.lsl`, `PrimInt63.lsr`, `PrimInt63.sub`

**S14** (1 theorems): `FloatAxioms.eqb_spec`, `FloatAxioms.ltb_spec`, `PrimFloat.abs`, `PrimFloat.add`, `PrimFloat.div`, `PrimFloat.eqb`, `PrimFloat.float`, `PrimFloat.frshiftexp`, `PrimFloat.leb`, `PrimFloat.ltb`, `PrimFloat.mul`, `PrimFloat.normfr_mantissa`, `PrimFloat.of_uint63`, `PrimFloat.opp`, `PrimFloat.sqrt`, `PrimFloat.sub`, `PrimInt63.eqb`, `PrimInt63.int`, `PrimInt63.land`, `PrimInt63.lor`, `PrimInt63.lsl`, `PrimInt63.lsr`, `PrimInt63.sub`

**S15** (2 theorems): `FloatAxioms.SF2Prim_Prim2SF`, `FloatAxioms.mul_spec`, `PrimFloat.abs`, `PrimFloat.add`, `PrimFloat.div`, `PrimFloat.eqb`, `PrimFloat.float`, `PrimFloat.frshiftexp`, `PrimFloat.ldshiftexp`, `PrimFloat.leb`, `PrimFloat.ltb`, `PrimFloat.mul`, `PrimFloat.normfr_mantissa`, `PrimFloat.of_uint63`, `PrimFloat.opp`, `PrimFloat.sqrt`, `PrimFloat.sub`, `PrimInt63.eqb`, `PrimInt63.int`, `PrimInt63.land`, `PrimInt63.lor`, `PrimInt63.lsl`, `PrimInt63.lsr`, `PrimInt63.sub`

**S16** (1 theorems): `FloatAxioms.add_spec`, `FloatAxioms.div_spec`, `FloatAxioms.eqb_spec`, `PrimFloat.abs`, `PrimFloat.add`, `PrimFloat.div`, `PrimFloat.eqb`, `PrimFloat.float`, `PrimFloat.frshiftexp`, `PrimFloat.leb`, `PrimFloat.ltb`, `PrimFloat.mul`, `PrimFloat.normfr_mantissa`, `PrimFloat.of_uint63`, `PrimFloat.opp`, `PrimFloat.sqrt`, `PrimFloat.sub`, `PrimInt63.eqb`, `PrimInt63.int`, `PrimInt63.land`, `PrimInt63.lor`, `PrimInt63.lsl`, `PrimInt63.lsr`, `PrimInt63.sub`

**S17** (2 theorems): `FloatAxioms.add_spec`, `FloatAxioms.eqb_spec`, `FloatAxioms.mul_spec`, `PrimFloat.abs`, `PrimFloat.add`, `PrimFloat.div`, `PrimFloat.eqb`, `PrimFloat.float`, `PrimFloat.frshiftexp`, `PrimFloat.leb`, `PrimFloat.ltb`, `PrimFloat.mul`, `PrimFloat.normfr_mantissa`, `PrimFloat.of_uint63`, `PrimFloat.opp`, `PrimFloat.sqrt`, `PrimFloat.sub`, `PrimInt63.eqb`, `PrimInt63.int`, `PrimInt63.land`, `PrimInt63.lor`, `PrimInt63.lsl`, `PrimInt63.lsr`, `PrimInt63.sub`

**S18** (3 theorems): `FloatAxioms.div_spec`, `FloatAxioms.eqb_spec`, `FloatAxioms.mul_spec`, `PrimFloat.abs`, `PrimFloat.add`, `PrimFloat.div`, `PrimFloat.eqb`, `PrimFloat.float`, `PrimFloat.frshiftexp`, `PrimFloat.leb`, `PrimFloat.ltb`, `PrimFloat.mul`, `PrimFloat.normfr_mantissa`, `PrimFloat.of_uint63`, `PrimFloat.opp`, `PrimFloat.sqrt`, `PrimFloat.sub`, `PrimInt63.eqb`, `PrimInt63.int`, `PrimInt63.land`, `PrimInt63.lor`, `PrimInt63.lsl`, `PrimInt63.lsr`, `PrimInt63.sub`

**S19** (2 theorems): `FloatAxioms.eqb_spec`, `FloatAxioms.leb_spec`, `FloatAxioms.ltb_spec`, `PrimFloat.abs`, `PrimFloat.add`, `PrimFloat.div`, `PrimFloat.eqb`, `PrimFloat.float`, `PrimFloat.frshiftexp`, `PrimFloat.leb`, `PrimFloat.ltb`, `PrimFloat.mul`, `PrimFloat.normfr_mantissa`, `PrimFloat.of_uint63`, `PrimFloat.opp`, `PrimFloat.sqrt`, `PrimFloat.sub`, `PrimInt63.eqb`, `PrimInt63.int`, `PrimInt63.land`, `PrimInt63.lor`, `PrimInt63.lsl`, `PrimInt63.lsr`, `PrimInt63.sub`

**S20** (1 theorems): `FloatAxioms.eqb_spec`, `FloatAxioms.mul_spec`, `FloatAxioms.sub_spec`, `PrimFloat.abs`, `PrimFloat.add`, `PrimFloat.div`, `PrimFloat.eqb`, `PrimFloat.float`, `PrimFloat.frshiftexp`, `PrimFloat.leb`, `PrimFloat.ltb`, `PrimFloat.mul`, `PrimFloat.normfr_mantissa`, `PrimFloat.of_uint63`, `PrimFloat.opp`, `PrimFloat.sqrt`, `PrimFloat.sub`, `PrimInt63.eqb`, `PrimInt63.int`, `PrimInt63.land`, `PrimInt63.lor`, `PrimInt63.lsl`, `PrimInt63.lsr`, `PrimInt63.sub`

**S21** (1 theorems): `FloatAxioms.ltb_spec`, `FloatAxioms.opp_spec`, `FloatAxioms.sub_spec`, `PrimFloat.abs`, `PrimFloat.add`, `PrimFloat.div`, `PrimFloat.eqb`, `PrimFloat.float`, `PrimFloat.frshiftexp`, `PrimFloat.leb`, `PrimFloat.ltb`, `PrimFloat.mul`, `PrimFloat.normfr_mantissa`, `PrimFloat.of_uint63`, `PrimFloat.opp`, `PrimFloat.sqrt`, `PrimFloat.sub`, `PrimInt63.eqb`, `PrimInt63.int`, `PrimInt63.land`, `PrimInt63.lor`, `PrimInt63.lsl`, `PrimInt63.lsr`, `PrimInt63.sub`

**S22** (2 theorems): `FloatAxioms.add_spec`, `FloatAxioms.div_spec`, `FloatAxioms.eqb_spec`, `FloatAxioms.mul_spec`, `PrimFloat.abs`, `PrimFloat.add`, `PrimFloat.div`, `PrimFloat.eqb`, `PrimFloat.float`, `PrimFloat.frshiftexp`, `PrimFloat.leb`, `PrimFloat.ltb`, `PrimFloat.mul`, `PrimFloat.normfr_mantissa`, `PrimFloat.of_uint63`, `PrimFloat.opp`, `PrimFloat.sqrt`, `PrimFloat.sub`, `PrimInt63.eqb`, `PrimInt63.int`, `PrimInt63.land`, `PrimInt63.lor`, `PrimInt63.lsl`, `PrimInt63.lsr`, `PrimInt63.sub`

**S23** (1 theorems): `FloatAxioms.add_spec`, `FloatAxioms.eqb_spec`, `FloatAxioms.mul_spec`, `FloatAxioms.sub_spec`, `PrimFloat.abs`, `PrimFloat.add`, `PrimFloat.div`, `PrimFloat.eqb`, `PrimFloat.float`, `PrimFloat.frshiftexp`, `PrimFloat.leb`, `PrimFloat.ltb`, `PrimFloat.mul`, `PrimFloat.normfr_mantissa`, `PrimFloat.of_uint63`, `PrimFloat.opp`, `PrimFloat.sqrt`, `PrimFloat.sub`, `PrimInt63.eqb`, `PrimInt63.int`, `PrimInt63.land`, `PrimInt63.lor`, `PrimInt63.lsl`, `PrimInt63.lsr`, `PrimInt63.sub`

**S24** (2 theorems): `FloatAxioms.div_spec`, `FloatAxioms.eqb_spec`, `FloatAxioms.mul_spec`, `FloatAxioms.opp_spec`, `PrimFloat.abs`, `PrimFloat.add`, `PrimFloat.div`, `PrimFloat.eqb`, `PrimFloat.float`, `PrimFloat.frshiftexp`, `PrimFloat.leb`, `PrimFloat.ltb`, `PrimFloat.mul`, `PrimFloat.normfr_mantissa`, `PrimFloat.of_uint63`, `PrimFloat.opp`, `PrimFloat.sqrt`, `PrimFloat.sub`, `PrimInt63.eqb`, `PrimInt63.int`, `PrimInt63.land`, `PrimInt63.lor`, `PrimInt63.lsl`, `PrimInt63.lsr`, `PrimInt63.sub`

**S25** (1 theorems): `FloatAxioms.div_spec`, `FloatAxioms.eqb_spec`, `FloatAxioms.mul_spec`, `FloatAxioms.sqrt_spec`, `PrimFloat.abs`, `PrimFloat.add`, `PrimFloat.div`, `PrimFloat.eqb`, `PrimFloat.float`, `PrimFloat.frshiftexp`, `PrimFloat.leb`, `PrimFloat.ltb`, `PrimFloat.mul`, `PrimFloat.normfr_mantissa`, `PrimFloat.of_uint63`, `PrimFloat.opp`, `PrimFloat.sqrt`, `PrimFloat.sub`, `PrimInt63.eqb`, `PrimInt63.int`, `PrimInt63.land`, `PrimInt63.lor`, `PrimInt63.lsl`, `PrimInt63.lsr`, `PrimInt63.sub`

**S26** (1 theorems): `FloatAxioms.div_spec`, `FloatAxioms.eqb_spec`, `FloatAxioms.mul_spec`, `FloatAxioms.sub_spec`, `PrimFloat.abs`, `PrimFloat.add`, `PrimFloat.div`, `PrimFloat.eqb`, `PrimFloat.float`, `PrimFloat.frshiftexp`, `PrimFloat.leb`, `PrimFloat.ltb`, `PrimFloat.mul`, `PrimFloat.normfr_mantissa`, `PrimFloat.of_uint63`, `PrimFloat.opp`, `PrimFloat.sqrt`, `PrimFloat.sub`, `PrimInt63.eqb`, `PrimInt63.int`, `PrimInt63.land`, `PrimInt63.lor`, `PrimInt63.lsl`, `PrimInt63.lsr`, `PrimInt63.sub`

**S27** (1 theorems): `FloatAxioms.SF2Prim_Prim2SF`, `FloatAxioms.abs_spec`, `FloatAxioms.mul_spec`, `FloatAxioms.sub_spec`, `PrimFloat.abs`, `PrimFloat.add`, `PrimFloat.div`, `PrimFloat.eqb`, `PrimFloat.float`, `PrimFloat.frshiftexp`, `PrimFloat.ldshiftexp`, `PrimFloat.leb`, `PrimFloat.ltb`, `PrimFloat.mul`, `PrimFloat.normfr_mantissa`, `PrimFloat.of_uint63`, `PrimFloat.opp`, `PrimFloat.sqrt`, `PrimFloat.sub`, `PrimInt63.eqb`, `PrimInt63.int`, `PrimInt63.land`, `PrimInt63.lor`, `PrimInt63.lsl`, `PrimInt63.lsr`, `PrimInt63.sub`

**S28** (1 theorems): `FloatAxioms.add_spec`, `FloatAxioms.div_spec`, `FloatAxioms.eqb_spec`, `FloatAxioms.mul_spec`, `FloatAxioms.opp_spec`, `PrimFloat.abs`, `PrimFloat.add`, `PrimFloat.div`, `PrimFloat.eqb`, `PrimFloat.float`, `PrimFloat.frshiftexp`, `PrimFloat.leb`, `PrimFloat.ltb`, `PrimFloat.mul`, `PrimFloat.normfr_mantissa`, `PrimFloat.of_uint63`, `PrimFloat.opp`, `PrimFloat.sqrt`, `PrimFloat.sub`, `PrimInt63.eqb`, `PrimInt63.int`, `PrimInt63.land`, `PrimInt63.lor`, `PrimInt63.lsl`, `PrimInt63.lsr`, `PrimInt63.sub`

**S29** (1 theorems): `FloatAxioms.add_spec`, `FloatAxioms.div_spec`, `FloatAxioms.eqb_spec`, `FloatAxioms.mul_spec`, `FloatAxioms.sqrt_spec`, `PrimFloat.abs`, `PrimFloat.add`, `PrimFloat.div`, `PrimFloat.eqb`, `PrimFloat.float`, `PrimFloat.frshiftexp`, `PrimFloat.leb`, `PrimFloat.ltb`, `PrimFloat.mul`, `PrimFloat.normfr_mantissa`, `PrimFloat.of_uint63`, `PrimFloat.opp`, `PrimFloat.sqrt`, `PrimFloat.sub`, `PrimInt63.eqb`, `PrimInt63.int`, `PrimInt63.land`, `PrimInt63.lor`, `PrimInt63.lsl`, `PrimInt63.lsr`, `PrimInt63.sub`

**S30** (5 theorems): `FloatAxioms.add_spec`, `FloatAxioms.div_spec`, `FloatAxioms.eqb_spec`, `FloatAxioms.mul_spec`, `FloatAxioms.sub_spec`, `PrimFloat.abs`, `PrimFloat.add`, `PrimFloat.div`, `PrimFloat.eqb`, `PrimFloat.float`, `PrimFloat.frshiftexp`, `PrimFloat.leb`, `PrimFloat.ltb`, `PrimFloat.mul`, `PrimFloat.normfr_mantissa`, `PrimFloat.of_uint63`, `PrimFloat.opp`, `PrimFloat.sqrt`, `PrimFloat.sub`, `PrimInt63.eqb`, `PrimInt63.int`, `PrimInt63.land`, `PrimInt63.lor`, `PrimInt63.lsl`, `PrimInt63.lsr`, `PrimInt63.sub`

**S31** (2 theorems): `ClassicalDedekindReals.sig_forall_dec`, `ClassicalDedekindReals.sig_not_dec`, `Classical_Prop.classic`, `FloatAxioms.Prim2SF_SF2Prim`, `FloatAxioms.Prim2SF_valid`, `FloatAxioms.SF2Prim_Prim2SF`, `FloatAxioms.abs_spec`, `FloatAxioms.eqb_spec`, `FloatAxioms.ltb_spec`, `FunctionalExtensionality.functional_extensionality_dep`, `PrimFloat.abs`, `PrimFloat.div`, `PrimFloat.eqb`, `PrimFloat.float`, `PrimFloat.frshiftexp`, `PrimFloat.ldshiftexp`, `PrimFloat.ltb`, `PrimFloat.normfr_mantissa`, `PrimFloat.of_uint63`, `PrimFloat.opp`, `PrimInt63.eqb`, `PrimInt63.int`, `PrimInt63.land`, `PrimInt63.lor`, `PrimInt63.lsl`, `PrimInt63.lsr`, `PrimInt63.sub`

**S32** (3 theorems): `FloatAxioms.abs_spec`, `FloatAxioms.add_spec`, `FloatAxioms.eqb_spec`, `FloatAxioms.ltb_spec`, `FloatAxioms.mul_spec`, `FloatAxioms.sqrt_spec`, `PrimFloat.abs`, `PrimFloat.add`, `PrimFloat.div`, `PrimFloat.eqb`, `PrimFloat.float`, `PrimFloat.frshiftexp`, `PrimFloat.leb`, `PrimFloat.ltb`, `PrimFloat.mul`, `PrimFloat.normfr_mantissa`, `PrimFloat.of_uint63`, `PrimFloat.opp`, `PrimFloat.sqrt`, `PrimFloat.sub`, `PrimInt63.eqb`, `PrimInt63.int`, `PrimInt63.land`, `PrimInt63.lor`, `PrimInt63.lsl`, `PrimInt63.lsr`, `PrimInt63.sub`

**S33** (1 theorems): `FloatAxioms.add_spec`, `FloatAxioms.div_spec`, `FloatAxioms.eqb_spec`, `FloatAxioms.mul_spec`, `FloatAxioms.opp_spec`, `FloatAxioms.sub_spec`, `PrimFloat.abs`, `PrimFloat.add`, `PrimFloat.div`, `PrimFloat.eqb`, `PrimFloat.float`, `PrimFloat.frshiftexp`, `PrimFloat.leb`, `PrimFloat.ltb`, `PrimFloat.mul`, `PrimFloat.normfr_mantissa`, `PrimFloat.of_uint63`, `PrimFloat.opp`, `PrimFloat.sqrt`, `PrimFloat.sub`, `PrimInt63.eqb`, `PrimInt63.int`, `PrimInt63.land`, `PrimInt63.lor`, `PrimInt63.lsl`, `PrimInt63.lsr`, `PrimInt63.sub`

**S34** (6 theorems): `FloatAxioms.add_spec`, `FloatAxioms.div_spec`, `FloatAxioms.eqb_spec`, `FloatAxioms.mul_spec`, `FloatAxioms.sqrt_spec`, `FloatAxioms.sub_spec`, `PrimFloat.abs`, `PrimFloat.add`, `PrimFloat.div`, `PrimFloat.eqb`, `PrimFloat.float`, `PrimFloat.frshiftexp`, `PrimFloat.leb`, `PrimFloat.ltb`, `PrimFloat.mul`, `PrimFloat.normfr_mantissa`, `PrimFloat.of_uint63`, `PrimFloat.opp`, `PrimFloat.sqrt`, `PrimFloat.sub`, `PrimInt63.eqb`, `PrimInt63.int`, `PrimInt63.land`, `PrimInt63.lor`, `PrimInt63.lsl`, `PrimInt63.lsr`, `PrimInt63.sub`

**S35** (3 theorems): `FloatAxioms.abs_spec`, `FloatAxioms.add_spec`, `FloatAxioms.div_spec`, `FloatAxioms.eqb_spec`, `FloatAxioms.ltb_spec`, `FloatAxioms.mul_spec`, `FloatAxioms.sqrt_spec`, `PrimFloat.abs`, `PrimFloat.add`, `PrimFloat.div`, `PrimFloat.eqb`, `PrimFloat.float`, `PrimFloat.frshiftexp`, `PrimFloat.leb`, `PrimFloat.ltb`, `PrimFloat.mul`, `PrimFloat.normfr_mantissa`, `PrimFloat.of_uint63`, `PrimFloat.opp`, `PrimFloat.sqrt`, `PrimFloat.sub`, `PrimInt63.eqb`, `PrimInt63.int`, `PrimInt63.land`, `PrimInt63.lor`, `PrimInt63.lsl`, `PrimInt63.lsr`, `PrimInt63.sub`

**S36** (1 theorems): `FloatAxioms.abs_spec`, `FloatAxioms.add_spec`, `FloatAxioms.div_spec`, `FloatAxioms.eqb_spec`, `FloatAxioms.mul_spec`, `FloatAxioms.opp_spec`, `FloatAxioms.sqrt_spec`, `PrimFloat.abs`, `PrimFloat.add`, `PrimFloat.div`, `PrimFloat.eqb`, `PrimFloat.float`, `PrimFloat.frshiftexp`, `PrimFloat.leb`, `PrimFloat.ltb`, `PrimFloat.mul`, `PrimFloat.normfr_mantissa`, `PrimFloat.of_uint63`, `PrimFloat.opp`, `PrimFloat.sqrt`, `PrimFloat.sub`, `PrimInt63.eqb`, `PrimInt63.int`, `PrimInt63.land`, `PrimInt63.lor`, `PrimInt63.lsl`, `PrimInt63.lsr`, `PrimInt63.sub`

**S37** (1 theorems): `FloatAxioms.abs_spec`, `FloatAxioms.add_spec`, `FloatAxioms.div_spec`, `FloatAxioms.eqb_spec`, `FloatAxioms.mul_spec`, `FloatAxioms.sqrt_spec`, `FloatAxioms.sub_spec`, `PrimFloat.abs`, `PrimFloat.add`, `PrimFloat.div`, `PrimFloat.eqb`, `PrimFloat.float`, `PrimFloat.frshiftexp`, `PrimFloat.leb`, `PrimFloat.ltb`, `PrimFloat.mul`, `PrimFloat.normfr_mantissa`, `PrimFloat.of_uint63`, `PrimFloat.opp`, `PrimFloat.sqrt`, `PrimFloat.sub`, `PrimInt63.eqb`, `PrimInt63.int`, `PrimInt63.land`, `PrimInt63.lor`, `PrimInt63.lsl`, `PrimInt63.lsr`, `PrimInt63.sub`

**S38** (1 theorems): `FloatAxioms.add_spec`, `FloatAxioms.div_spec`, `FloatAxioms.eqb_spec`, `FloatAxioms.mul_spec`, `FloatAxioms.opp_spec`, `FloatAxioms.sqrt_spec`, `FloatAxioms.sub_spec`, `PrimFloat.abs`, `PrimFloat.add`, `PrimFloat.div`, `PrimFloat.eqb`, `PrimFloat.float`, `PrimFloat.frshiftexp`, `PrimFloat.leb`, `PrimFloat.ltb`, `PrimFloat.mul`, `PrimFloat.normfr_mantissa`, `PrimFloat.of_uint63`, `PrimFloat.opp`, `PrimFloat.sqrt`, `PrimFloat.sub`, `PrimInt63.eqb`, `PrimInt63.int`, `PrimInt63.land`, `PrimInt63.lor`, `PrimInt63.lsl`, `PrimInt63.lsr`, `PrimInt63.sub`

**S39** (2 theorems): `FloatAxioms.abs_spec`, `FloatAxioms.add_spec`, `FloatAxioms.div_spec`, `FloatAxioms.eqb_spec`, `FloatAxioms.ltb_spec`, `FloatAxioms.mul_spec`, `FloatAxioms.sqrt_spec`, `FloatAxioms.sub_spec`, `PrimFloat.abs`, `PrimFloat.add`, `PrimFloat.div`, `PrimFloat.eqb`, `PrimFloat.float`, `PrimFloat.frshiftexp`, `PrimFloat.leb`, `PrimFloat.ltb`, `PrimFloat.mul`, `PrimFloat.normfr_mantissa`, `PrimFloat.of_uint63`, `PrimFloat.opp`, `PrimFloat.sqrt`, `PrimFloat.sub`, `PrimInt63.eqb`, `PrimInt63.int`, `PrimInt63.land`, `PrimInt63.lor`, `PrimInt63.lsl`, `PrimInt63.lsr`, `PrimInt63.sub`

**S40** (1 theorems): `ClassicalDedekindReals.sig_forall_dec`, `ClassicalDedekindReals.sig_not_dec`, `Classical_Prop.classic`, `FloatAxioms.Prim2SF_SF2Prim`, `FloatAxioms.Prim2SF_valid`, `FloatAxioms.SF2Prim_Prim2SF`, `FloatAxioms.abs_spec`, `FloatAxioms.div_spec`, `FloatAxioms.ltb_spec`, `FunctionalExtensionality.functional_extensionality_dep`, `PrimFloat.abs`, `PrimFloat.add`, `PrimFloat.div`, `PrimFloat.eqb`, `PrimFloat.float`, `PrimFloat.frshiftexp`, `PrimFloat.ldshiftexp`, `PrimFloat.leb`, `PrimFloat.ltb`, `PrimFloat.mul`, `PrimFloat.normfr_mantissa`, `PrimFloat.of_uint63`, `PrimFloat.opp`, `PrimFloat.sqrt`, `PrimFloat.sub`, `PrimInt63.eqb`, `PrimInt63.int`, `PrimInt63.land`, `PrimInt63.lor`, `PrimInt63.lsl`, `PrimInt63.lsr`, `PrimInt63.sub`

**S41** (5 theorems): `ClassicalDedekindReals.sig_forall_dec`, `ClassicalDedekindReals.sig_not_dec`, `Classical_Prop.classic`, `FloatAxioms.Prim2SF_SF2Prim`, `FloatAxioms.Prim2SF_valid`, `FloatAxioms.SF2Prim_Prim2SF`, `FloatAxioms.abs_spec`, `FloatAxioms.eqb_spec`, `FloatAxioms.ltb_spec`, `FunctionalExtensionality.functional_extensionality_dep`, `PrimFloat.abs`, `PrimFloat.add`, `PrimFloat.div`, `PrimFloat.eqb`, `PrimFloat.float`, `PrimFloat.frshiftexp`, `PrimFloat.ldshiftexp`, `PrimFloat.leb`, `PrimFloat.ltb`, `PrimFloat.mul`, `PrimFloat.normfr_mantissa`, `PrimFloat.of_uint63`, `PrimFloat.opp`, `PrimFloat.sqrt`, `PrimFloat.sub`, `PrimInt63.eqb`, `PrimInt63.int`, `PrimInt63.land`, `PrimInt63.lor`, `PrimInt63.lsl`, `PrimInt63.lsr`, `PrimInt63.sub`

**S42** (1 theorems): `ClassicalDedekindReals.sig_forall_dec`, `ClassicalDedekindReals.sig_not_dec`, `Classical_Prop.classic`, `FloatAxioms.Prim2SF_SF2Prim`, `FloatAxioms.Prim2SF_valid`, `FloatAxioms.SF2Prim_Prim2SF`, `FloatAxioms.abs_spec`, `FloatAxioms.eqb_spec`, `FloatAxioms.mul_spec`, `FunctionalExtensionality.functional_extensionality_dep`, `PrimFloat.abs`, `PrimFloat.add`, `PrimFloat.div`, `PrimFloat.eqb`, `PrimFloat.float`, `PrimFloat.frshiftexp`, `PrimFloat.ldshiftexp`, `PrimFloat.leb`, `PrimFloat.ltb`, `PrimFloat.mul`, `PrimFloat.normfr_mantissa`, `PrimFloat.of_uint63`, `PrimFloat.opp`, `PrimFloat.sqrt`, `PrimFloat.sub`, `PrimInt63.eqb`, `PrimInt63.int`, `PrimInt63.land`, `PrimInt63.lor`, `PrimInt63.lsl`, `PrimInt63.lsr`, `PrimInt63.sub`

**S43** (1 theorems): `ClassicalDedekindReals.sig_forall_dec`, `FloatAxioms.Prim2SF_SF2Prim`, `FloatAxioms.Prim2SF_valid`, `FloatAxioms.SF2Prim_Prim2SF`, `FloatAxioms.abs_spec`, `FloatAxioms.eqb_spec`, `FloatAxioms.leb_spec`, `FloatAxioms.ltb_spec`, `FloatAxioms.mul_spec`, `FunctionalExtensionality.functional_extensionality_dep`, `PrimFloat.abs`, `PrimFloat.add`, `PrimFloat.div`, `PrimFloat.eqb`, `PrimFloat.float`, `PrimFloat.frshiftexp`, `PrimFloat.ldshiftexp`, `PrimFloat.leb`, `PrimFloat.ltb`, `PrimFloat.mul`, `PrimFloat.normfr_mantissa`, `PrimFloat.of_uint63`, `PrimFloat.opp`, `PrimFloat.sqrt`, `PrimFloat.sub`, `PrimInt63.eqb`, `PrimInt63.int`, `PrimInt63.land`, `PrimInt63.lor`, `PrimInt63.lsl`, `PrimInt63.lsr`, `PrimInt63.sub`

**S44** (3 theorems): `ClassicalDedekindReals.sig_forall_dec`, `ClassicalDedekindReals.sig_not_dec`, `Classical_Prop.classic`, `FloatAxioms.Prim2SF_SF2Prim`, `FloatAxioms.Prim2SF_valid`, `FloatAxioms.SF2Prim_Prim2SF`, `FloatAxioms.abs_spec`, `FloatAxioms.add_spec`, `FloatAxioms.eqb_spec`, `FloatAxioms.mul_spec`, `FunctionalExtensionality.functional_extensionality_dep`, `PrimFloat.abs`, `PrimFloat.add`, `PrimFloat.div`, `PrimFloat.eqb`, `PrimFloat.float`, `PrimFloat.frshiftexp`, `PrimFloat.ldshiftexp`, `PrimFloat.leb`, `PrimFloat.ltb`, `PrimFloat.mul`, `PrimFloat.normfr_mantissa`, `PrimFloat.of_uint63`, `PrimFloat.opp`, `PrimFloat.sqrt`, `PrimFloat.sub`, `PrimInt63.eqb`, `PrimInt63.int`, `PrimInt63.land`, `PrimInt63.lor`, `PrimInt63.lsl`, `PrimInt63.lsr`, `PrimInt63.sub`

**S45** (2 theorems): `ClassicalDedekindReals.sig_forall_dec`, `ClassicalDedekindReals.sig_not_dec`, `Classical_Prop.classic`, `FloatAxioms.Prim2SF_SF2Prim`, `FloatAxioms.Prim2SF_valid`, `FloatAxioms.SF2Prim_Prim2SF`, `FloatAxioms.abs_spec`, `FloatAxioms.add_spec`, `FloatAxioms.eqb_spec`, `FloatAxioms.sub_spec`, `FunctionalExtensionality.functional_extensionality_dep`, `PrimFloat.abs`, `PrimFloat.add`, `PrimFloat.div`, `PrimFloat.eqb`, `PrimFloat.float`, `PrimFloat.frshiftexp`, `PrimFloat.ldshiftexp`, `PrimFloat.leb`, `PrimFloat.ltb`, `PrimFloat.mul`, `PrimFloat.normfr_mantissa`, `PrimFloat.of_uint63`, `PrimFloat.opp`, `PrimFloat.sqrt`, `PrimFloat.sub`, `PrimInt63.eqb`, `PrimInt63.int`, `PrimInt63.land`, `PrimInt63.lor`, `PrimInt63.lsl`, `PrimInt63.lsr`, `PrimInt63.sub`

**S46** (1 theorems): `ClassicalDedekindReals.sig_forall_dec`, `ClassicalDedekindReals.sig_not_dec`, `Classical_Prop.classic`, `FloatAxioms.Prim2SF_SF2Prim`, `FloatAxioms.Prim2SF_valid`, `FloatAxioms.SF2Prim_Prim2SF`, `FloatAxioms.abs_spec`, `FloatAxioms.div_spec`, `FloatAxioms.eqb_spec`, `FloatAxioms.mul_spec`, `FunctionalExtensionality.functional_extensionality_dep`, `PrimFloat.abs`, `PrimFloat.add`, `PrimFloat.div`, `PrimFloat.eqb`, `PrimFloat.float`, `PrimFloat.frshiftexp`, `PrimFloat.ldshiftexp`, `PrimFloat.leb`, `PrimFloat.ltb`, `PrimFloat.mul`, `PrimFloat.normfr_mantissa`, `PrimFloat.of_uint63`, `PrimFloat.opp`, `PrimFloat.sqrt`, `PrimFloat.sub`, `PrimInt63.eqb`, `PrimInt63.int`, `PrimInt63.land`, `PrimInt63.lor`, `PrimInt63.lsl`, `PrimInt63.lsr`, `PrimInt63.sub`

**S47** (4 theorems): `ClassicalDedekindReals.sig_forall_dec`, `ClassicalDedekindReals.sig_not_dec`, `Classical_Prop.classic`, `FloatAxioms.Prim2SF_SF2Prim`, `FloatAxioms.Prim2SF_valid`, `FloatAxioms.SF2Prim_Prim2SF`, `FloatAxioms.abs_spec`, `FloatAxioms.eqb_spec`, `FloatAxioms.leb_spec`, `FloatAxioms.ltb_spec`, `FunctionalExtensionality.functional_extensionality_dep`, `PrimFloat.abs`, `PrimFloat.add`, `PrimFloat.div`, `PrimFloat.eqb`, `PrimFloat.float`, `PrimFloat.frshiftexp`, `PrimFloat.ldshiftexp`, `PrimFloat.leb`, `PrimFloat.ltb`, `PrimFloat.mul`, `PrimFloat.normfr_mantissa`, `PrimFloat.of_uint63`, `PrimFloat.opp`, `PrimFloat.sqrt`, `PrimFloat.sub`, `PrimInt63.eqb`, `PrimInt63.int`, `PrimInt63.land`, `PrimInt63.lor`, `PrimInt63.lsl`, `PrimInt63.lsr`, `PrimInt63.sub`

**S48** (1 theorems): `ClassicalDedekindReals.sig_forall_dec`, `ClassicalDedekindReals.sig_not_dec`, `Classical_Prop.classic`, `FloatAxioms.Prim2SF_SF2Prim`, `FloatAxioms.Prim2SF_valid`, `FloatAxioms.SF2Prim_Prim2SF`, `FloatAxioms.abs_spec`, `FloatAxioms.eqb_spec`, `FloatAxioms.leb_spec`, `FloatAxioms.opp_spec`, `FunctionalExtensionality.functional_extensionality_dep`, `PrimFloat.abs`, `PrimFloat.add`, `PrimFloat.div`, `PrimFloat.eqb`, `PrimFloat.float`, `PrimFloat.frshiftexp`, `PrimFloat.ldshiftexp`, `PrimFloat.leb`, `PrimFloat.ltb`, `PrimFloat.mul`, `PrimFloat.normfr_mantissa`, `PrimFloat.of_uint63`, `PrimFloat.opp`, `PrimFloat.sqrt`, `PrimFloat.sub`, `PrimInt63.eqb`, `PrimInt63.int`, `PrimInt63.land`, `PrimInt63.lor`, `PrimInt63.lsl`, `PrimInt63.lsr`, `PrimInt63.sub`

**S49** (1 theorems): `ClassicalDedekindReals.sig_forall_dec`, `FloatAxioms.Prim2SF_SF2Prim`, `FloatAxioms.Prim2SF_valid`, `FloatAxioms.SF2Prim_Prim2SF`, `FloatAxioms.abs_spec`, `FloatAxioms.add_spec`, `FloatAxioms.eqb_spec`, `FloatAxioms.leb_spec`, `FloatAxioms.ltb_spec`, `FloatAxioms.mul_spec`, `FunctionalExtensionality.functional_extensionality_dep`, `PrimFloat.abs`, `PrimFloat.add`, `PrimFloat.div`, `PrimFloat.eqb`, `PrimFloat.float`, `PrimFloat.frshiftexp`, `PrimFloat.ldshiftexp`, `PrimFloat.leb`, `PrimFloat.ltb`, `PrimFloat.mul`, `PrimFloat.normfr_mantissa`, `PrimFloat.of_uint63`, `PrimFloat.opp`, `PrimFloat.sqrt`, `PrimFloat.sub`, `PrimInt63.eqb`, `PrimInt63.int`, `PrimInt63.land`, `PrimInt63.lor`, `PrimInt63.lsl`, `PrimInt63.lsr`, `PrimInt63.sub`

**S50** (1 theorems): `ClassicalDedekindReals.sig_forall_dec`, `ClassicalDedekindReals.sig_not_dec`, `Classical_Prop.classic`, `FloatAxioms.Prim2SF_SF2Prim`, `FloatAxioms.Prim2SF_valid`, `FloatAxioms.SF2Prim_Prim2SF`, `FloatAxioms.abs_spec`, `FloatAxioms.add_spec`, `FloatAxioms.eqb_spec`, `FloatAxioms.mul_spec`, `FloatAxioms.sqrt_spec`, `FunctionalExtensionality.functional_extensionality_dep`, `PrimFloat.abs`, `PrimFloat.add`, `PrimFloat.div`, `PrimFloat.eqb`, `PrimFloat.float`, `PrimFloat.frshiftexp`, `PrimFloat.ldshiftexp`, `PrimFloat.leb`, `PrimFloat.ltb`, `PrimFloat.mul`, `PrimFloat.normfr_mantissa`, `PrimFloat.of_uint63`, `PrimFloat.opp`, `PrimFloat.sqrt`, `PrimFloat.sub`, `PrimInt63.eqb`, `PrimInt63.int`, `PrimInt63.land`, `PrimInt63.lor`, `PrimInt63.lsl`, `PrimInt63.lsr`, `PrimInt63.sub`

**S51** (2 theorems): `ClassicalDedekindReals.sig_forall_dec`, `ClassicalDedekindReals.sig_not_dec`, `Classical_Prop.classic`, `FloatAxioms.Prim2SF_SF2Prim`, `FloatAxioms.Prim2SF_valid`, `FloatAxioms.SF2Prim_Prim2SF`, `FloatAxioms.abs_spec`, `FloatAxioms.add_spec`, `FloatAxioms.eqb_spec`, `FloatAxioms.mul_spec`, `FloatAxioms.sub_spec`, `FunctionalExtensionality.functional_extensionality_dep`, `PrimFloat.abs`, `PrimFloat.add`, `PrimFloat.div`, `PrimFloat.eqb`, `PrimFloat.float`, `PrimFloat.frshiftexp`, `PrimFloat.ldshiftexp`, `PrimFloat.leb`, `PrimFloat.ltb`, `PrimFloat.mul`, `PrimFloat.normfr_mantissa`, `PrimFloat.of_uint63`, `PrimFloat.opp`, `PrimFloat.sqrt`, `PrimFloat.sub`, `PrimInt63.eqb`, `PrimInt63.int`, `PrimInt63.land`, `PrimInt63.lor`, `PrimInt63.lsl`, `PrimInt63.lsr`, `PrimInt63.sub`

**S52** (1 theorems): `ClassicalDedekindReals.sig_forall_dec`, `ClassicalDedekindReals.sig_not_dec`, `Classical_Prop.classic`, `FloatAxioms.Prim2SF_SF2Prim`, `FloatAxioms.Prim2SF_valid`, `FloatAxioms.SF2Prim_Prim2SF`, `FloatAxioms.abs_spec`, `FloatAxioms.add_spec`, `FloatAxioms.div_spec`, `FloatAxioms.eqb_spec`, `FloatAxioms.mul_spec`, `FloatAxioms.opp_spec`, `FunctionalExtensionality.functional_extensionality_dep`, `PrimFloat.abs`, `PrimFloat.add`, `PrimFloat.div`, `PrimFloat.eqb`, `PrimFloat.float`, `PrimFloat.frshiftexp`, `PrimFloat.ldshiftexp`, `PrimFloat.leb`, `PrimFloat.ltb`, `PrimFloat.mul`, `PrimFloat.normfr_mantissa`, `PrimFloat.of_uint63`, `PrimFloat.opp`, `PrimFloat.sqrt`, `PrimFloat.sub`, `PrimInt63.eqb`, `PrimInt63.int`, `PrimInt63.land`, `PrimInt63.lor`, `PrimInt63.lsl`, `PrimInt63.lsr`, `PrimInt63.sub`

**S53** (1 theorems): `ClassicalDedekindReals.sig_forall_dec`, `ClassicalDedekindReals.sig_not_dec`, `Classical_Prop.classic`, `FloatAxioms.Prim2SF_SF2Prim`, `FloatAxioms.Prim2SF_valid`, `FloatAxioms.SF2Prim_Prim2SF`, `FloatAxioms.abs_spec`, `FloatAxioms.add_spec`, `FloatAxioms.div_spec`, `FloatAxioms.eqb_spec`, `FloatAxioms.mul_spec`, `FloatAxioms.sqrt_spec`, `FunctionalExtensionality.functional_extensionality_dep`, `PrimFloat.abs`, `PrimFloat.add`, `PrimFloat.div`, `PrimFloat.eqb`, `PrimFloat.float`, `PrimFloat.frshiftexp`, `PrimFloat.ldshiftexp`, `PrimFloat.leb`, `PrimFloat.ltb`, `PrimFloat.mul`, `PrimFloat.normfr_mantissa`, `PrimFloat.of_uint63`, `PrimFloat.opp`, `PrimFloat.sqrt`, `PrimFloat.sub`, `PrimInt63.eqb`, `PrimInt63.int`, `PrimInt63.land`, `PrimInt63.lor`, `PrimInt63.lsl`, `PrimInt63.lsr`, `PrimInt63.sub`

**S54** (1 theorems): `ClassicalDedekindReals.sig_forall_dec`, `ClassicalDedekindReals.sig_not_dec`, `Classical_Prop.classic`, `FloatAxioms.Prim2SF_SF2Prim`, `FloatAxioms.Prim2SF_valid`, `FloatAxioms.SF2Prim_Prim2SF`, `FloatAxioms.abs_spec`, `FloatAxioms.add_spec`, `FloatAxioms.eqb_spec`, `FloatAxioms.leb_spec`, `FloatAxioms.ltb_spec`, `FloatAxioms.mul_spec`, `FunctionalExtensionality.functional_extensionality_dep`, `PrimFloat.abs`, `PrimFloat.add`, `PrimFloat.div`, `PrimFloat.eqb`, `PrimFloat.float`, `PrimFloat.frshiftexp`, `PrimFloat.ldshiftexp`, `PrimFloat.leb`, `PrimFloat.ltb`, `PrimFloat.mul`, `PrimFloat.normfr_mantissa`, `PrimFloat.of_uint63`, `PrimFloat.opp`, `PrimFloat.sqrt`, `PrimFloat.sub`, `PrimInt63.eqb`, `PrimInt63.int`, `PrimInt63.land`, `PrimInt63.lor`, `PrimInt63.lsl`, `PrimInt63.lsr`, `PrimInt63.sub`

**S55** (1 theorems): `ClassicalDedekindReals.sig_forall_dec`, `ClassicalDedekindReals.sig_not_dec`, `Classical_Prop.classic`, `FloatAxioms.Prim2SF_SF2Prim`, `FloatAxioms.Prim2SF_valid`, `FloatAxioms.SF2Prim_Prim2SF`, `FloatAxioms.abs_spec`, `FloatAxioms.add_spec`, `FloatAxioms.eqb_spec`, `FloatAxioms.ltb_spec`, `FloatAxioms.mul_spec`, `FloatAxioms.sub_spec`, `FunctionalExtensionality.functional_extensionality_dep`, `PrimFloat.abs`, `PrimFloat.add`, `PrimFloat.div`, `PrimFloat.eqb`, `PrimFloat.float`, `PrimFloat.frshiftexp`, `PrimFloat.ldshiftexp`, `PrimFloat.leb`, `PrimFloat.ltb`, `PrimFloat.mul`, `PrimFloat.normfr_mantissa`, `PrimFloat.of_uint63`, `PrimFloat.opp`, `PrimFloat.sqrt`, `PrimFloat.sub`, `PrimInt63.eqb`, `PrimInt63.int`, `PrimInt63.land`, `PrimInt63.lor`, `PrimInt63.lsl`, `PrimInt63.lsr`, `PrimInt63.sub`

**S56** (1 theorems): `ClassicalDedekindReals.sig_forall_dec`, `ClassicalDedekindReals.sig_not_dec`, `Classical_Prop.classic`, `FloatAxioms.Prim2SF_SF2Prim`, `FloatAxioms.Prim2SF_valid`, `FloatAxioms.SF2Prim_Prim2SF`, `FloatAxioms.abs_spec`, `FloatAxioms.add_spec`, `FloatAxioms.eqb_spec`, `FloatAxioms.mul_spec`, `FloatAxioms.sqrt_spec`, `FloatAxioms.sub_spec`, `FunctionalExtensionality.functional_extensionality_dep`, `PrimFloat.abs`, `PrimFloat.add`, `PrimFloat.div`, `PrimFloat.eqb`, `PrimFloat.float`, `PrimFloat.frshiftexp`, `PrimFloat.ldshiftexp`, `PrimFloat.leb`, `PrimFloat.ltb`, `PrimFloat.mul`, `PrimFloat.normfr_mantissa`, `PrimFloat.of_uint63`, `PrimFloat.opp`, `PrimFloat.sqrt`, `PrimFloat.sub`, `PrimInt63.eqb`, `PrimInt63.int`, `PrimInt63.land`, `PrimInt63.lor`, `PrimInt63.lsl`, `PrimInt63.lsr`, `PrimInt63.sub`

**S57** (4 theorems): `ClassicalDedekindReals.sig_forall_dec`, `ClassicalDedekindReals.sig_not_dec`, `Classical_Prop.classic`, `FloatAxioms.Prim2SF_SF2Prim`, `FloatAxioms.Prim2SF_valid`, `FloatAxioms.SF2Prim_Prim2SF`, `FloatAxioms.abs_spec`, `FloatAxioms.eqb_spec`, `FloatAxioms.leb_spec`, `FloatAxioms.ltb_spec`, `FloatAxioms.opp_spec`, `FloatAxioms.sub_spec`, `FunctionalExtensionality.functional_extensionality_dep`, `PrimFloat.abs`, `PrimFloat.add`, `PrimFloat.div`, `PrimFloat.eqb`, `PrimFloat.float`, `PrimFloat.frshiftexp`, `PrimFloat.ldshiftexp`, `PrimFloat.leb`, `PrimFloat.ltb`, `PrimFloat.mul`, `PrimFloat.normfr_mantissa`, `PrimFloat.of_uint63`, `PrimFloat.opp`, `PrimFloat.sqrt`, `PrimFloat.sub`, `PrimInt63.eqb`, `PrimInt63.int`, `PrimInt63.land`, `PrimInt63.lor`, `PrimInt63.lsl`, `PrimInt63.lsr`, `PrimInt63.sub`

**S58** (1 theorems): `ClassicalDedekindReals.sig_forall_dec`, `ClassicalDedekindReals.sig_not_dec`, `ClassicalEpsilon.constructive_indefinite_description`, `Classical_Prop.classic`, `FloatAxioms.Prim2SF_SF2Prim`, `FloatAxioms.Prim2SF_valid`, `FloatAxioms.SF2Prim_Prim2SF`, `FloatAxioms.abs_spec`, `FloatAxioms.add_spec`, `FloatAxioms.eqb_spec`, `FloatAxioms.mul_spec`, `FloatAxioms.opp_spec`, `FloatAxioms.sub_spec`, `FunctionalExtensionality.functional_extensionality_dep`, `PrimFloat.abs`, `PrimFloat.add`, `PrimFloat.div`, `PrimFloat.eqb`, `PrimFloat.float`, `PrimFloat.frshiftexp`, `PrimFloat.ldshiftexp`, `PrimFloat.leb`, `PrimFloat.ltb`, `PrimFloat.mul`, `PrimFloat.normfr_mantissa`, `PrimFloat.of_uint63`, `PrimFloat.opp`, `PrimFloat.sqrt`, `PrimFloat.sub`, `PrimInt63.eqb`, `PrimInt63.int`, `PrimInt63.land`, `PrimInt63.lor`, `PrimInt63.lsl`, `PrimInt63.lsr`, `PrimInt63.sub`

**S59** (8 theorems): `ClassicalDedekindReals.sig_forall_dec`, `ClassicalDedekindReals.sig_not_dec`, `Classical_Prop.classic`, `FloatAxioms.Prim2SF_SF2Prim`, `FloatAxioms.Prim2SF_valid`, `FloatAxioms.SF2Prim_Prim2SF`, `FloatAxioms.abs_spec`, `FloatAxioms.add_spec`, `FloatAxioms.div_spec`, `FloatAxioms.eqb_spec`, `FloatAxioms.ltb_spec`, `FloatAxioms.mul_spec`, `FloatAxioms.sqrt_spec`, `FunctionalExtensionality.functional_extensionality_dep`, `PrimFloat.abs`, `PrimFloat.add`, `PrimFloat.div`, `PrimFloat.eqb`, `PrimFloat.float`, `PrimFloat.frshiftexp`, `PrimFloat.ldshiftexp`, `PrimFloat.leb`, `PrimFloat.ltb`, `PrimFloat.mul`, `PrimFloat.normfr_mantissa`, `PrimFloat.of_uint63`, `PrimFloat.opp`, `PrimFloat.sqrt`, `PrimFloat.sub`, `PrimInt63.eqb`, `PrimInt63.int`, `PrimInt63.land`, `PrimInt63.lor`, `PrimInt63.lsl`, `PrimInt63.lsr`, `PrimInt63.sub`

**S60** (1 theorems): `ClassicalDedekindReals.sig_forall_dec`, `ClassicalDedekindReals.sig_not_dec`, `Classical_Prop.classic`, `FloatAxioms.Prim2SF_SF2Prim`, `FloatAxioms.Prim2SF_valid`, `FloatAxioms.SF2Prim_Prim2SF`, `FloatAxioms.abs_spec`, `FloatAxioms.add_spec`, `FloatAxioms.div_spec`, `FloatAxioms.eqb_spec`, `FloatAxioms.ltb_spec`, `FloatAxioms.mul_spec`, `FloatAxioms.sub_spec`, `FunctionalExtensionality.functional_extensionality_dep`, `PrimFloat.abs`, `PrimFloat.add`, `PrimFloat.div`, `PrimFloat.eqb`, `PrimFloat.float`, `PrimFloat.frshiftexp`, `PrimFloat.ldshiftexp`, `PrimFloat.leb`, `PrimFloat.ltb`, `PrimFloat.mul`, `PrimFloat.normfr_mantissa`, `PrimFloat.of_uint63`, `PrimFloat.opp`, `PrimFloat.sqrt`, `PrimFloat.sub`, `PrimInt63.eqb`, `PrimInt63.int`, `PrimInt63.land`, `PrimInt63.lor`, `PrimInt63.lsl`, `PrimInt63.lsr`, `PrimInt63.sub`

**S61** (1 theorems): `ClassicalDedekindReals.sig_forall_dec`, `ClassicalDedekindReals.sig_not_dec`, `Classical_Prop.classic`, `FloatAxioms.Prim2SF_SF2Prim`, `FloatAxioms.Prim2SF_valid`, `FloatAxioms.SF2Prim_Prim2SF`, `FloatAxioms.abs_spec`, `FloatAxioms.add_spec`, `FloatAxioms.div_spec`, `FloatAxioms.eqb_spec`, `FloatAxioms.mul_spec`, `FloatAxioms.opp_spec`, `FloatAxioms.sub_spec`, `FunctionalExtensionality.functional_extensionality_dep`, `PrimFloat.abs`, `PrimFloat.add`, `PrimFloat.div`, `PrimFloat.eqb`, `PrimFloat.float`, `PrimFloat.frshiftexp`, `PrimFloat.ldshiftexp`, `PrimFloat.leb`, `PrimFloat.ltb`, `PrimFloat.mul`, `PrimFloat.normfr_mantissa`, `PrimFloat.of_uint63`, `PrimFloat.opp`, `PrimFloat.sqrt`, `PrimFloat.sub`, `PrimInt63.eqb`, `PrimInt63.int`, `PrimInt63.land`, `PrimInt63.lor`, `PrimInt63.lsl`, `PrimInt63.lsr`, `PrimInt63.sub`

**S62** (1 theorems): `ClassicalDedekindReals.sig_forall_dec`, `ClassicalDedekindReals.sig_not_dec`, `Classical_Prop.classic`, `FloatAxioms.Prim2SF_SF2Prim`, `FloatAxioms.Prim2SF_valid`, `FloatAxioms.SF2Prim_Prim2SF`, `FloatAxioms.abs_spec`, `FloatAxioms.add_spec`, `FloatAxioms.div_spec`, `FloatAxioms.eqb_spec`, `FloatAxioms.mul_spec`, `FloatAxioms.sqrt_spec`, `FloatAxioms.sub_spec`, `FunctionalExtensionality.functional_extensionality_dep`, `PrimFloat.abs`, `PrimFloat.add`, `PrimFloat.div`, `PrimFloat.eqb`, `PrimFloat.float`, `PrimFloat.frshiftexp`, `PrimFloat.ldshiftexp`, `PrimFloat.leb`, `PrimFloat.ltb`, `PrimFloat.mul`, `PrimFloat.normfr_mantissa`, `PrimFloat.of_uint63`, `PrimFloat.opp`, `PrimFloat.sqrt`, `PrimFloat.sub`, `PrimInt63.eqb`, `PrimInt63.int`, `PrimInt63.land`, `PrimInt63.lor`, `PrimInt63.lsl`, `PrimInt63.lsr`, `PrimInt63.sub`

**S63** (2 theorems): `ClassicalDedekindReals.sig_forall_dec`, `ClassicalDedekindReals.sig_not_dec`, `Classical_Prop.classic`, `FloatAxioms.Prim2SF_SF2Prim`, `FloatAxioms.Prim2SF_valid`, `FloatAxioms.SF2Prim_Prim2SF`, `FloatAxioms.abs_spec`, `FloatAxioms.add_spec`, `FloatAxioms.div_spec`, `FloatAxioms.eqb_spec`, `FloatAxioms.leb_spec`, `FloatAxioms.ltb_spec`, `FloatAxioms.mul_spec`, `FloatAxioms.sub_spec`, `FunctionalExtensionality.functional_extensionality_dep`, `PrimFloat.abs`, `PrimFloat.add`, `PrimFloat.div`, `PrimFloat.eqb`, `PrimFloat.float`, `PrimFloat.frshiftexp`, `PrimFloat.ldshiftexp`, `PrimFloat.leb`, `PrimFloat.ltb`, `PrimFloat.mul`, `PrimFloat.normfr_mantissa`, `PrimFloat.of_uint63`, `PrimFloat.opp`, `PrimFloat.sqrt`, `PrimFloat.sub`, `PrimInt63.eqb`, `PrimInt63.int`, `PrimInt63.land`, `PrimInt63.lor`, `PrimInt63.lsl`, `PrimInt63.lsr`, `PrimInt63.sub`

**S64** (1 theorems): `ClassicalDedekindReals.sig_forall_dec`, `ClassicalDedekindReals.sig_not_dec`, `Classical_Prop.classic`, `FloatAxioms.Prim2SF_SF2Prim`, `FloatAxioms.Prim2SF_valid`, `FloatAxioms.SF2Prim_Prim2SF`, `FloatAxioms.abs_spec`, `FloatAxioms.add_spec`, `FloatAxioms.div_spec`, `FloatAxioms.eqb_spec`, `FloatAxioms.ltb_spec`, `FloatAxioms.mul_spec`, `FloatAxioms.sqrt_spec`, `FloatAxioms.sub_spec`, `FunctionalExtensionality.functional_extensionality_dep`, `PrimFloat.abs`, `PrimFloat.add`, `PrimFloat.div`, `PrimFloat.eqb`, `PrimFloat.float`, `PrimFloat.frshiftexp`, `PrimFloat.ldshiftexp`, `PrimFloat.leb`, `PrimFloat.ltb`, `PrimFloat.mul`, `PrimFloat.normfr_mantissa`, `PrimFloat.of_uint63`, `PrimFloat.opp`, `PrimFloat.sqrt`, `PrimFloat.sub`, `PrimInt63.eqb`, `PrimInt63.int`, `PrimInt63.land`, `PrimInt63.lor`, `PrimInt63.lsl`, `PrimInt63.lsr`, `PrimInt63.sub`

**S65** (2 theorems): `ClassicalDedekindReals.sig_forall_dec`, `ClassicalDedekindReals.sig_not_dec`, `Classical_Prop.classic`, `FloatAxioms.Prim2SF_SF2Prim`, `FloatAxioms.Prim2SF_valid`, `FloatAxioms.SF2Prim_Prim2SF`, `FloatAxioms.abs_spec`, `FloatAxioms.add_spec`, `FloatAxioms.div_spec`, `FloatAxioms.eqb_spec`, `FloatAxioms.ltb_spec`, `FloatAxioms.mul_spec`, `FloatAxioms.opp_spec`, `FloatAxioms.sqrt_spec`, `FloatAxioms.sub_spec`, `FunctionalExtensionality.functional_extensionality_dep`, `PrimFloat.abs`, `PrimFloat.add`, `PrimFloat.div`, `PrimFloat.eqb`, `PrimFloat.float`, `PrimFloat.frshiftexp`, `PrimFloat.ldshiftexp`, `PrimFloat.leb`, `PrimFloat.ltb`, `PrimFloat.mul`, `PrimFloat.normfr_mantissa`, `PrimFloat.of_uint63`, `PrimFloat.opp`, `PrimFloat.sqrt`, `PrimFloat.sub`, `PrimInt63.eqb`, `PrimInt63.int`, `PrimInt63.land`, `PrimInt63.lor`, `PrimInt63.lsl`, `PrimInt63.lsr`, `PrimInt63.sub`

**S66** (1 theorems): `ClassicalDedekindReals.sig_forall_dec`, `ClassicalDedekindReals.sig_not_dec`, `Classical_Prop.classic`, `FloatAxioms.Prim2SF_SF2Prim`, `FloatAxioms.Prim2SF_valid`, `FloatAxioms.SF2Prim_Prim2SF`, `FloatAxioms.abs_spec`, `FloatAxioms.add_spec`, `FloatAxioms.div_spec`, `FloatAxioms.eqb_spec`, `FloatAxioms.of_uint63_spec`, `FunctionalExtensionality.functional_extensionality_dep`, `PrimFloat.abs`, `PrimFloat.add`, `PrimFloat.div`, `PrimFloat.eqb`, `PrimFloat.float`, `PrimFloat.frshiftexp`, `PrimFloat.ldshiftexp`, `PrimFloat.leb`, `PrimFloat.ltb`, `PrimFloat.mul`, `PrimFloat.normfr_mantissa`, `PrimFloat.of_uint63`, `PrimFloat.opp`, `PrimFloat.sqrt`, `PrimFloat.sub`, `PrimInt63.add`, `PrimInt63.eqb`, `PrimInt63.int`, `PrimInt63.land`, `PrimInt63.leb`, `PrimInt63.lor`, `PrimInt63.lsl`, `PrimInt63.lsr`, `PrimInt63.ltb`, `PrimInt63.sub`, `Uint63.add_spec`, `Uint63.eqb_correct`, `Uint63.eqb_refl`, `Uint63.leb_spec`, `Uint63.lor_spec`, `Uint63.lsl_spec`, `Uint63.lsr_spec`, `Uint63.ltb_spec`, `Uint63.of_to_Z`, `Uint63.sub_spec`

**S67** (1 theorems): `ClassicalDedekindReals.sig_forall_dec`, `ClassicalDedekindReals.sig_not_dec`, `Classical_Prop.classic`, `FloatAxioms.Prim2SF_SF2Prim`, `FloatAxioms.Prim2SF_valid`, `FloatAxioms.SF2Prim_Prim2SF`, `FloatAxioms.abs_spec`, `FloatAxioms.div_spec`, `FloatAxioms.eqb_spec`, `FloatAxioms.ltb_spec`, `FloatAxioms.of_uint63_spec`, `FunctionalExtensionality.functional_extensionality_dep`, `PrimFloat.abs`, `PrimFloat.add`, `PrimFloat.div`, `PrimFloat.eqb`, `PrimFloat.float`, `PrimFloat.frshiftexp`, `PrimFloat.ldshiftexp`, `PrimFloat.leb`, `PrimFloat.ltb`, `PrimFloat.mul`, `PrimFloat.normfr_mantissa`, `PrimFloat.of_uint63`, `PrimFloat.opp`, `PrimFloat.sqrt`, `PrimFloat.sub`, `PrimInt63.add`, `PrimInt63.eqb`, `PrimInt63.int`, `PrimInt63.land`, `PrimInt63.leb`, `PrimInt63.lor`, `PrimInt63.lsl`, `PrimInt63.lsr`, `PrimInt63.ltb`, `PrimInt63.sub`, `Uint63.add_spec`, `Uint63.eqb_correct`, `Uint63.eqb_refl`, `Uint63.leb_spec`, `Uint63.lor_spec`, `Uint63.lsl_spec`, `Uint63.lsr_spec`, `Uint63.ltb_spec`, `Uint63.of_to_Z`, `Uint63.sub_spec`

**S68** (1 theorems): `ClassicalDedekindReals.sig_forall_dec`, `ClassicalDedekindReals.sig_not_dec`, `Classical_Prop.classic`, `FloatAxioms.Prim2SF_SF2Prim`, `FloatAxioms.Prim2SF_valid`, `FloatAxioms.SF2Prim_Prim2SF`, `FloatAxioms.abs_spec`, `FloatAxioms.div_spec`, `FloatAxioms.eqb_spec`, `FloatAxioms.mul_spec`, `FloatAxioms.of_uint63_spec`, `FunctionalExtensionality.functional_extensionality_dep`, `PrimFloat.abs`, `PrimFloat.add`, `PrimFloat.div`, `PrimFloat.eqb`, `PrimFloat.float`, `PrimFloat.frshiftexp`, `PrimFloat.ldshiftexp`, `PrimFloat.leb`, `PrimFloat.ltb`, `PrimFloat.mul`, `PrimFloat.normfr_mantissa`, `PrimFloat.of_uint63`, `PrimFloat.opp`, `PrimFloat.sqrt`, `PrimFloat.sub`, `PrimInt63.add`, `PrimInt63.eqb`, `PrimInt63.int`, `PrimInt63.land`, `PrimInt63.leb`, `PrimInt63.lor`, `PrimInt63.lsl`, `PrimInt63.lsr`, `PrimInt63.ltb`, `PrimInt63.sub`, `Uint63.add_spec`, `Uint63.eqb_correct`, `Uint63.eqb_refl`, `Uint63.leb_spec`, `Uint63.lor_spec`, `Uint63.lsl_spec`, `Uint63.lsr_spec`, `Uint63.ltb_spec`, `Uint63.of_to_Z`, `Uint63.sub_spec`

**S69** (2 theorems): `ClassicalDedekindReals.sig_forall_dec`, `ClassicalDedekindReals.sig_not_dec`, `Classical_Prop.classic`, `FloatAxioms.Prim2SF_SF2Prim`, `FloatAxioms.Prim2SF_valid`, `FloatAxioms.SF2Prim_Prim2SF`, `FloatAxioms.abs_spec`, `FloatAxioms.add_spec`, `FloatAxioms.eqb_spec`, `FloatAxioms.mul_spec`, `FloatAxioms.of_uint63_spec`, `FloatAxioms.sub_spec`, `FunctionalExtensionality.functional_extensionality_dep`, `PrimFloat.abs`, `PrimFloat.add`, `PrimFloat.div`, `PrimFloat.eqb`, `PrimFloat.float`, `PrimFloat.frshiftexp`, `PrimFloat.ldshiftexp`, `PrimFloat.leb`, `PrimFloat.ltb`, `PrimFloat.mul`, `PrimFloat.normfr_mantissa`, `PrimFloat.of_uint63`, `PrimFloat.opp`, `PrimFloat.sqrt`, `PrimFloat.sub`, `PrimInt63.add`, `PrimInt63.eqb`, `PrimInt63.int`, `PrimInt63.land`, `PrimInt63.leb`, `PrimInt63.lor`, `PrimInt63.lsl`, `PrimInt63.lsr`, `PrimInt63.ltb`, `PrimInt63.sub`, `Uint63.add_spec`, `Uint63.eqb_correct`, `Uint63.eqb_refl`, `Uint63.leb_spec`, `Uint63.lor_spec`, `Uint63.lsl_spec`, `Uint63.lsr_spec`, `Uint63.ltb_spec`, `Uint63.of_to_Z`, `Uint63.sub_spec`

**S70** (1 theorems): `ClassicalDedekindReals.sig_forall_dec`, `ClassicalDedekindReals.sig_not_dec`, `Classical_Prop.classic`, `FloatAxioms.Prim2SF_SF2Prim`, `FloatAxioms.Prim2SF_valid`, `FloatAxioms.SF2Prim_Prim2SF`, `FloatAxioms.abs_spec`, `FloatAxioms.add_spec`, `FloatAxioms.div_spec`, `FloatAxioms.eqb_spec`, `FloatAxioms.mul_spec`, `FloatAxioms.of_uint63_spec`, `FloatAxioms.opp_spec`, `FunctionalExtensionality.functional_extensionality_dep`, `PrimFloat.abs`, `PrimFloat.add`, `PrimFloat.div`, `PrimFloat.eqb`, `PrimFloat.float`, `PrimFloat.frshiftexp`, `PrimFloat.ldshiftexp`, `PrimFloat.leb`, `PrimFloat.ltb`, `PrimFloat.mul`, `PrimFloat.normfr_mantissa`, `PrimFloat.of_uint63`, `PrimFloat.opp`, `PrimFloat.sqrt`, `PrimFloat.sub`, `PrimInt63.add`, `PrimInt63.eqb`, `PrimInt63.int`, `PrimInt63.land`, `PrimInt63.leb`, `PrimInt63.lor`, `PrimInt63.lsl`, `PrimInt63.lsr`, `PrimInt63.ltb`, `PrimInt63.sub`, `Uint63.add_spec`, `Uint63.eqb_correct`, `Uint63.eqb_refl`, `Uint63.leb_spec`, `Uint63.lor_spec`, `Uint63.lsl_spec`, `Uint63.lsr_spec`, `Uint63.ltb_spec`, `Uint63.of_to_Z`, `Uint63.sub_spec`

**S71** (1 theorems): `ClassicalDedekindReals.sig_forall_dec`, `ClassicalDedekindReals.sig_not_dec`, `Classical_Prop.classic`, `FloatAxioms.Prim2SF_SF2Prim`, `FloatAxioms.Prim2SF_valid`, `FloatAxioms.SF2Prim_Prim2SF`, `FloatAxioms.abs_spec`, `FloatAxioms.div_spec`, `FloatAxioms.eqb_spec`, `FloatAxioms.leb_spec`, `FloatAxioms.ltb_spec`, `FloatAxioms.mul_spec`, `FloatAxioms.of_uint63_spec`, `FunctionalExtensionality.functional_extensionality_dep`, `PrimFloat.abs`, `PrimFloat.add`, `PrimFloat.div`, `PrimFloat.eqb`, `PrimFloat.float`, `PrimFloat.frshiftexp`, `PrimFloat.ldshiftexp`, `PrimFloat.leb`, `PrimFloat.ltb`, `PrimFloat.mul`, `PrimFloat.normfr_mantissa`, `PrimFloat.of_uint63`, `PrimFloat.opp`, `PrimFloat.sqrt`, `PrimFloat.sub`, `PrimInt63.add`, `PrimInt63.eqb`, `PrimInt63.int`, `PrimInt63.land`, `PrimInt63.leb`, `PrimInt63.lor`, `PrimInt63.lsl`, `PrimInt63.lsr`, `PrimInt63.ltb`, `PrimInt63.sub`, `Uint63.add_spec`, `Uint63.eqb_correct`, `Uint63.eqb_refl`, `Uint63.leb_spec`, `Uint63.lor_spec`, `Uint63.lsl_spec`, `Uint63.lsr_spec`, `Uint63.ltb_spec`, `Uint63.of_to_Z`, `Uint63.sub_spec`

**S72** (2 theorems): `ClassicalDedekindReals.sig_forall_dec`, `ClassicalDedekindReals.sig_not_dec`, `Classical_Prop.classic`, `FloatAxioms.Prim2SF_SF2Prim`, `FloatAxioms.Prim2SF_valid`, `FloatAxioms.SF2Prim_Prim2SF`, `FloatAxioms.abs_spec`, `FloatAxioms.add_spec`, `FloatAxioms.div_spec`, `FloatAxioms.eqb_spec`, `FloatAxioms.mul_spec`, `FloatAxioms.of_uint63_spec`, `FloatAxioms.opp_spec`, `FloatAxioms.sqrt_spec`, `FunctionalExtensionality.functional_extensionality_dep`, `PrimFloat.abs`, `PrimFloat.add`, `PrimFloat.div`, `PrimFloat.eqb`, `PrimFloat.float`, `PrimFloat.frshiftexp`, `PrimFloat.ldshiftexp`, `PrimFloat.leb`, `PrimFloat.ltb`, `PrimFloat.mul`, `PrimFloat.normfr_mantissa`, `PrimFloat.of_uint63`, `PrimFloat.opp`, `PrimFloat.sqrt`, `PrimFloat.sub`, `PrimInt63.add`, `PrimInt63.eqb`, `PrimInt63.int`, `PrimInt63.land`, `PrimInt63.leb`, `PrimInt63.lor`, `PrimInt63.lsl`, `PrimInt63.lsr`, `PrimInt63.ltb`, `PrimInt63.sub`, `Uint63.add_spec`, `Uint63.eqb_correct`, `Uint63.eqb_refl`, `Uint63.leb_spec`, `Uint63.lor_spec`, `Uint63.lsl_spec`, `Uint63.lsr_spec`, `Uint63.ltb_spec`, `Uint63.of_to_Z`, `Uint63.sub_spec`

**S73** (2 theorems): `ClassicalDedekindReals.sig_forall_dec`, `ClassicalDedekindReals.sig_not_dec`, `Classical_Prop.classic`, `FloatAxioms.Prim2SF_SF2Prim`, `FloatAxioms.Prim2SF_valid`, `FloatAxioms.SF2Prim_Prim2SF`, `FloatAxioms.abs_spec`, `FloatAxioms.div_spec`, `FloatAxioms.eqb_spec`, `FloatAxioms.leb_spec`, `FloatAxioms.ltb_spec`, `FloatAxioms.of_uint63_spec`, `FloatAxioms.opp_spec`, `FloatAxioms.sub_spec`, `FunctionalExtensionality.functional_extensionality_dep`, `PrimFloat.abs`, `PrimFloat.add`, `PrimFloat.div`, `PrimFloat.eqb`, `PrimFloat.float`, `PrimFloat.frshiftexp`, `PrimFloat.ldshiftexp`, `PrimFloat.leb`, `PrimFloat.ltb`, `PrimFloat.mul`, `PrimFloat.normfr_mantissa`, `PrimFloat.of_uint63`, `PrimFloat.opp`, `PrimFloat.sqrt`, `PrimFloat.sub`, `PrimInt63.add`, `PrimInt63.eqb`, `PrimInt63.int`, `PrimInt63.land`, `PrimInt63.leb`, `PrimInt63.lor`, `PrimInt63.lsl`, `PrimInt63.lsr`, `PrimInt63.ltb`, `PrimInt63.sub`, `Uint63.add_spec`, `Uint63.eqb_correct`, `Uint63.eqb_refl`, `Uint63.leb_spec`, `Uint63.lor_spec`, `Uint63.lsl_spec`, `Uint63.lsr_spec`, `Uint63.ltb_spec`, `Uint63.of_to_Z`, `Uint63.sub_spec`

**S74** (4 theorems): `ClassicalDedekindReals.sig_forall_dec`, `ClassicalDedekindReals.sig_not_dec`, `Classical_Prop.classic`, `FloatAxioms.Prim2SF_SF2Prim`, `FloatAxioms.Prim2SF_valid`, `FloatAxioms.SF2Prim_Prim2SF`, `FloatAxioms.abs_spec`, `FloatAxioms.add_spec`, `FloatAxioms.div_spec`, `FloatAxioms.eqb_spec`, `FloatAxioms.leb_spec`, `FloatAxioms.ltb_spec`, `FloatAxioms.mul_spec`, `FloatAxioms.of_uint63_spec`, `FloatAxioms.sqrt_spec`, `FunctionalExtensionality.functional_extensionality_dep`, `PrimFloat.abs`, `PrimFloat.add`, `PrimFloat.div`, `PrimFloat.eqb`, `PrimFloat.float`, `PrimFloat.frshiftexp`, `PrimFloat.ldshiftexp`, `PrimFloat.leb`, `PrimFloat.ltb`, `PrimFloat.mul`, `PrimFloat.normfr_mantissa`, `PrimFloat.of_uint63`, `PrimFloat.opp`, `PrimFloat.sqrt`, `PrimFloat.sub`, `PrimInt63.add`, `PrimInt63.eqb`, `PrimInt63.int`, `PrimInt63.land`, `PrimInt63.leb`, `PrimInt63.lor`, `PrimInt63.lsl`, `PrimInt63.lsr`, `PrimInt63.ltb`, `PrimInt63.sub`, `Uint63.add_spec`, `Uint63.eqb_correct`, `Uint63.eqb_refl`, `Uint63.leb_spec`, `Uint63.lor_spec`, `Uint63.lsl_spec`, `Uint63.lsr_spec`, `Uint63.ltb_spec`, `Uint63.of_to_Z`, `Uint63.sub_spec`

**S75** (9 theorems): `ClassicalDedekindReals.sig_forall_dec`, `ClassicalDedekindReals.sig_not_dec`, `Classical_Prop.classic`, `FloatAxioms.Prim2SF_SF2Prim`, `FloatAxioms.Prim2SF_valid`, `FloatAxioms.SF2Prim_Prim2SF`, `FloatAxioms.abs_spec`, `FloatAxioms.add_spec`, `FloatAxioms.div_spec`, `FloatAxioms.eqb_spec`, `FloatAxioms.ltb_spec`, `FloatAxioms.mul_spec`, `FloatAxioms.of_uint63_spec`, `FloatAxioms.sqrt_spec`, `FloatAxioms.sub_spec`, `FunctionalExtensionality.functional_extensionality_dep`, `PrimFloat.abs`, `PrimFloat.add`, `PrimFloat.div`, `PrimFloat.eqb`, `PrimFloat.float`, `PrimFloat.frshiftexp`, `PrimFloat.ldshiftexp`, `PrimFloat.leb`, `PrimFloat.ltb`, `PrimFloat.mul`, `PrimFloat.normfr_mantissa`, `PrimFloat.of_uint63`, `PrimFloat.opp`, `PrimFloat.sqrt`, `PrimFloat.sub`, `PrimInt63.add`, `PrimInt63.eqb`, `PrimInt63.int`, `PrimInt63.land`, `PrimInt63.leb`, `PrimInt63.lor`, `PrimInt63.lsl`, `PrimInt63.lsr`, `PrimInt63.ltb`, `PrimInt63.sub`, `Uint63.add_spec`, `Uint63.eqb_correct`, `Uint63.eqb_refl`, `Uint63.leb_spec`, `Uint63.lor_spec`, `Uint63.lsl_spec`, `Uint63.lsr_spec`, `Uint63.ltb_spec`, `Uint63.of_to_Z`, `Uint63.sub_spec`

**S76** (1 theorems): `ClassicalDedekindReals.sig_forall_dec`, `ClassicalDedekindReals.sig_not_dec`, `Classical_Prop.classic`, `FloatAxioms.Prim2SF_SF2Prim`, `FloatAxioms.Prim2SF_valid`, `FloatAxioms.SF2Prim_Prim2SF`, `FloatAxioms.abs_spec`, `FloatAxioms.add_spec`, `FloatAxioms.div_spec`, `FloatAxioms.eqb_spec`, `FloatAxioms.leb_spec`, `FloatAxioms.ltb_spec`, `FloatAxioms.mul_spec`, `FloatAxioms.of_uint63_spec`, `FloatAxioms.opp_spec`, `FloatAxioms.sqrt_spec`, `FunctionalExtensionality.functional_extensionality_dep`, `PrimFloat.abs`, `PrimFloat.add`, `PrimFloat.div`, `PrimFloat.eqb`, `PrimFloat.float`, `PrimFloat.frshiftexp`, `PrimFloat.ldshiftexp`, `PrimFloat.leb`, `PrimFloat.ltb`, `PrimFloat.mul`, `PrimFloat.normfr_mantissa`, `PrimFloat.of_uint63`, `PrimFloat.opp`, `PrimFloat.sqrt`, `PrimFloat.sub`, `PrimInt63.add`, `PrimInt63.eqb`, `PrimInt63.int`, `PrimInt63.land`, `PrimInt63.leb`, `PrimInt63.lor`, `PrimInt63.lsl`, `PrimInt63.lsr`, `PrimInt63.ltb`, `PrimInt63.sub`, `Uint63.add_spec`, `Uint63.eqb_correct`, `Uint63.eqb_refl`, `Uint63.leb_spec`, `Uint63.lor_spec`, `Uint63.lsl_spec`, `Uint63.lsr_spec`, `Uint63.ltb_spec`, `Uint63.of_to_Z`, `Uint63.sub_spec`

**S77** (2 theorems): `ClassicalDedekindReals.sig_forall_dec`, `ClassicalDedekindReals.sig_not_dec`, `Classical_Prop.classic`, `FloatAxioms.Prim2SF_SF2Prim`, `FloatAxioms.Prim2SF_valid`, `FloatAxioms.SF2Prim_Prim2SF`, `FloatAxioms.abs_spec`, `FloatAxioms.add_spec`, `FloatAxioms.div_spec`, `FloatAxioms.eqb_spec`, `FloatAxioms.leb_spec`, `FloatAxioms.ltb_spec`, `FloatAxioms.mul_spec`, `FloatAxioms.of_uint63_spec`, `FloatAxioms.opp_spec`, `FloatAxioms.sub_spec`, `FunctionalExtensionality.functional_extensionality_dep`, `PrimFloat.abs`, `PrimFloat.add`, `PrimFloat.div`, `PrimFloat.eqb`, `PrimFloat.float`, `PrimFloat.frshiftexp`, `PrimFloat.ldshiftexp`, `PrimFloat.leb`, `PrimFloat.ltb`, `PrimFloat.mul`, `PrimFloat.normfr_mantissa`, `PrimFloat.of_uint63`, `PrimFloat.opp`, `PrimFloat.sqrt`, `PrimFloat.sub`, `PrimInt63.add`, `PrimInt63.eqb`, `PrimInt63.int`, `PrimInt63.land`, `PrimInt63.leb`, `PrimInt63.lor`, `PrimInt63.lsl`, `PrimInt63.lsr`, `PrimInt63.ltb`, `PrimInt63.sub`, `Uint63.add_spec`, `Uint63.eqb_correct`, `Uint63.eqb_refl`, `Uint63.leb_spec`, `Uint63.lor_spec`, `Uint63.lsl_spec`, `Uint63.lsr_spec`, `Uint63.ltb_spec`, `Uint63.of_to_Z`, `Uint63.sub_spec`

| theorem | file | set |
|---|---|---|
| C01_get_subset | PropVec.v | S1 |
| C01_get_subset_rejects | PropVec.v | S1 |
| C01_wrapping_length_refuted | PropVec.v | S1 |
| C02_add | PropVec.v | S1 |
| C02_sub | PropVec.v | S1 |
| C02_add_sub_reject | PropVec.v | S1 |
| C02_neg | PropVec.v | S1 |
| C02_scalar_add | PropVec.v | S1 |
| C02_scalar_mult | PropVec.v | S1 |
| C02_scalar_div | PropVec.v | S1 |
| C02_scalar_div_zero | PropVec.v | S1 |
| C03_in_place | PropVec.v | S1 |
| C04_dot | PropVec.v | S5 |
| C04_dot_laws | PropVec.v | S4 |
| C04_dot_any_arithmetic | PropVec.v | S1 |
| C04_dot_rejects | PropVec.v | S1 |
| C05_norm | PropVec.v | S5 |
| C06_metric | PropVec.v | S5 |
| C06_value | PropVec.v | S5 |
| C06_rejects | PropVec.v | S1 |
| C07_to_unit | PropVec.v | S5 |
| C07_empty_refuted | PropVec.v | S10 |
| C08_cross | PropVec.v | S5 |
| C08_cross_any_arithmetic | PropVec.v | S1 |
| C08_cross_rejects | PropVec.v | S1 |
| C09_cross_in_place_refuted | PropVec.v | S10 |
| C10_project | PropVec.v | S5 |
| C10_project_rejects | PropVec.v | S1 |
| C11_rev | PropVec.v | S1 |
| C11_rev_involutive | PropVec.v | S1 |
| C11_rev_empty_refuted | PropVec.v | S1 |
| C12_zte_partial | PropVec.v | S5 |
| C12_tiny_negative_refuted | PropVec.v | S10 |
| C13_is_equal | PropVec.v | S5 |
| C13_contains | PropVec.v | S5 |
| C13_is_nonneg | PropVec.v | S5 |
| C13_nan_refuted | PropVec.v | S10 |
| C14_sort | PropVec.v | S5 |
| C14_near_duplicates_refuted | PropVec.v | S10 |
| C15_sort_memory_safe_refuted | PropVec.v | S10 |
| C16_vec_sum_partial | PropVec.v | S5 |
| C16_vec_sum_accumulates | PropVec.v | S1 |
| C16_vec_sum_rejects | PropVec.v | S1 |
| C16_vec_mean_partial | PropVec.v | S5 |
| C16_vec_mean_accumulates | PropVec.v | S5 |
| C16_vec_sum_dirty_output_refuted | PropVec.v | S10 |
| C17_mtx_copy | PropMtx.v | S1 |
| C17_mtx_copy_mismatch | PropMtx.v | S1 |
| C17_mtx_from_arr | PropMtx.v | S1 |
| C17_vec_init | PropVec.v | S1 |
| C17_vec_from_arr | PropVec.v | S1 |
| C17_vec_copy | PropVec.v | S1 |
| C17_vec_copy_overflow | PropVec.v | S1 |
| C18_vec_safe | PropVec.v | S1 |
| C19_get | PropMtx.v | S1 |
| C19_set_get | PropMtx.v | S1 |
| C19_out_of_range | PropMtx.v | S1 |
| C20_get_row | PropMtx.v | S1 |
| C20_get_col | PropMtx.v | S1 |
| C20_set_row | PropMtx.v | S1 |
| C20_set_col | PropMtx.v | S1 |
| C20_out_of_range | PropMtx.v | S1 |
| C21_init_fn | PropMtx.v | S1 |
| C21_init_null_zero | PropMtx.v | S1 |
| C21_init_identity | PropMtx.v | S1 |
| C21_init_error | PropMtx.v | S1 |
| C22_add | PropMtx.v | S1 |
| C22_sub | PropMtx.v | S1 |
| C22_add_sub_in_place | PropMtx.v | S1 |
| C22_binary_op | PropMtx.v | S1 |
| C22_shape_mismatch | PropMtx.v | S1 |
| C22_add_sub_mismatch | PropMtx.v | S1 |
| C22_unary_op | PropMtx.v | S1 |
| C22_unary_ops_R | PropMtx.v | S6 |
| C22_unknown_op | PropMtx.v | S1 |
| C23_unsupported_op_clobbers | PropMtx.v | S6 |
| C23_unsupported_op_refuted | PropMtx.v | S6 |
| C24_mult | PropMtx.v | S1 |
| C24_mult_R | PropMtx.v | S5 |
| C24_mult_in_place | PropMtx.v | S1 |
| C24_mult_rejects | PropMtx.v | S1 |
| C24_mult_d_rejects | PropMtx.v | S1 |
| C24_mult_assoc | PropMtx.v | S5 |
| C24_mult_identity | PropMtx.v | S5 |
| C24_mult_transpose | PropMtx.v | S5 |
| C25_trans | PropMtx.v | S1 |
| C25_trans_twice | PropMtx.v | S1 |
| C25_trans_rejects | PropMtx.v | S1 |
| C26_trans_in_place_refuted | PropMtx.v | S1 |
| C27_sum_rows | PropMtx.v | S1 |
| C27_sum_rows_scaled_partial | PropMtx.v | S1 |
| C27_scalar_mult_row | PropMtx.v | S1 |
| C27_scalar_mult | PropMtx.v | S1 |
| C27_rejects | PropMtx.v | S1 |
| C27_scaled_row_guard_refuted | PropMtx.v | S10 |
| C28_reduce | PropMtx.v | S1 |
| C28_reduce_rejects | PropMtx.v | S1 |
| C28_reduce_non_square_refuted | PropMtx.v | S1 |
| C29_determinant | PropDet.v | S8 |
| C29_multiplicative | PropDet.v | S8 |
| C29_transpose | PropDet.v | S8 |
| C29_zero_iff_singular | PropDet.v | S8 |
| C30_deter_non_square_partial | PropDet.v | S5 |
| C30_deter_non_square_refuted | PropDet.v | S5 |
| C31_adjoint_3x3 | PropDet.v | S8 |
| C32_adjoint_transposed_partial | PropDet.v | S8 |
| C32_adjoint_refuted | PropDet.v | S8 |
| C33_inv_3x3 | PropDet.v | S8 |
| C33_inv_3x3_singular | PropDet.v | S8 |
| C34_inv | PropDet.v | S8 |
| C34_inv_singular | PropDet.v | S8 |
| C34_inv_rejects | PropDet.v | S5 |
| C35_inv_of_small_matrices | PropDet.v | S8 |
| C35_inv_refuted | PropDet.v | S8 |
| C36_gauss_elim_partial | PropDet.v | S8 |
| C36_gauss_elim_refuted | PropDet.v | S5 |
| C37_gram_schmidt | PropDecomp.v | S6 |
| C37_dependent_columns_refuted | PropDecomp.v | S10 |
| C38_cols_norm | PropDecomp.v | S5 |
| C39_cholesky | PropDecomp.v | S5 |
| C39_rejected | PropDecomp.v | S5 |
| C40_householder | PropDecomp.v | S5 |
| C40_hessenberg_1x1_refuted | PropDecomp.v | S1 |
| C41_qr | PropDecomp.v | S5 |
| C42_hessenberg | PropDecomp.v | S5 |
| C43_qr_iteration | PropDecomp.v | S8 |
| C44_balance_partial | PropDecomp.v | S8 |
| C44_balance_ends | PropDecomp.v | S8 |
| C44_balance_ends_nonnegative | PropDecomp.v | S8 |
| C44_garbage_unbalanced_refuted | PropDecomp.v | S10 |
| C44_already_balanced | PropDecomp.v | S5 |
| C44_uninitialised_refuted | PropDecomp.v | S5 |
| C44_garbage_refuted | PropDecomp.v | S5 |
| C45_eigenvalues_partial | PropDecomp.v | S8 |
| C45_triangular | PropDecomp.v | S8 |
| C45_eigenvalues_end | PropDecomp.v | S6 |
| C45_exchange_matrix_refuted | PropDecomp.v | S8 |
| C46_wide_matrix_refuted | PropDecomp.v | S1 |
| C46_pinv_singular_refuted | PropDecomp.v | S10 |
| C47_min | PropMtx.v | S4 |
| C47_max | PropMtx.v | S5 |
| C47_min_idx | PropMtx.v | S4 |
| C47_max_idx | PropMtx.v | S5 |
| C48_is_equal_partial | PropMtx.v | S1 |
| C48_is_equal_shape | PropMtx.v | S1 |
| C48_is_equal_refuted | PropMtx.v | S10 |
| C49_is_sym | PropMtx.v | S5 |
| C49_is_sym_total | PropMtx.v | S1 |
| C49_is_notneg | PropMtx.v | S1 |
| C49_is_sym_non_square_refuted | PropMtx.v | S10 |
| C50_wedge_orthogonal_partial | PropDet.v | S8 |
| C50_wedge_minors_partial | PropDet.v | S8 |
| C50_wedge_rejects | PropDet.v | S5 |
| C50_wedge_degenerate_refuted | PropDet.v | S8 |
| C51_mean | PropStat.v | S5 |
| C51_mean_empty | PropStat.v | S5 |
| C51_weighted_mean | PropStat.v | S5 |
| C51_equal_weights | PropStat.v | S5 |
| C51_weighted_mean_rejects | PropStat.v | S5 |
| C51_weighted_mean_sizes_refuted | PropStat.v | S5 |
| C51_trim_mean_partial | PropStat.v | S6 |
| C51_trim_mean_refuted | PropStat.v | S6 |
| C52_demean | PropStat.v | S5 |
| C52_demean_rejects | PropStat.v | S5 |
| C53_percentile | PropStat.v | S6 |
| C53_percentile_rejects | PropStat.v | S6 |
| C53_median | PropStat.v | S6 |
| C53_quartiles | PropStat.v | S6 |
| C53_data_range | PropStat.v | S5 |
| C53_close_values_refuted | PropStat.v | S6 |
| C54_percentile_ends_refuted | PropStat.v | S6 |
| C54_percentile_near_ends_partial | PropStat.v | S6 |
| C55_variance | PropStat.v | S5 |
| C55_covariance | PropStat.v | S5 |
| C55_covar_rejects | PropStat.v | S5 |
| C55_covar_mtx | PropStat.v | S5 |
| C55_covar_mtx_rejects | PropStat.v | S5 |
| C55_single_value | PropStat.v | S5 |
| C55_mean_abs_dev | PropStat.v | S5 |
| C56_linear_reg | PropStat.v | S5 |
| C56_linear_reg_rejects | PropStat.v | S5 |
| C56_equal_abscissae | PropStat.v | S5 |
| C57_pdf | PropProb.v | S5 |
| C57_cdf | PropProb.v | S5 |
| C57_mean_variance | PropProb.v | S6 |
| C57_rejects | PropProb.v | S5 |
| C58_factorial | PropProb.v | S1 |
| C58_binomial_coefficient | PropProb.v | S1 |
| C58_negative | PropProb.v | S1 |
| C59_factorial_overflow_refuted | PropProb.v | S1 |
| C59_no_overflow_partial | PropProb.v | S1 |
| C59_coefficient_overflow_refuted | PropProb.v | S1 |
| C60_pdf | PropProb.v | S6 |
| C60_pdf_outside_partial | PropProb.v | S6 |
| C60_pdf_outside_refuted | PropProb.v | S6 |
| C60_mean_variance | PropProb.v | S5 |
| C60_cdf | PropProb.v | S6 |
| C60_cdf_above_partial | PropProb.v | S6 |
| C60_cdf_above_refuted | PropProb.v | S6 |
| C60_rejects | PropProb.v | S6 |
| C61_bayes | PropProb.v | S5 |
| C61_rejects | PropProb.v | S5 |
| C62_entropy_partial | PropProb.v | S6 |
| C62_entropy_value | PropProb.v | S6 |
| C62_rejects | PropProb.v | S6 |
| C62_zero_probability_refuted | PropProb.v | S6 |
| C63_ascending | PropInterp.v | S5 |
| C63_descending | PropInterp.v | S5 |
| C63_outside | PropInterp.v | S5 |
| C63_short | PropInterp.v | S5 |
| C63_total | PropInterp.v | S5 |
| C64_two_points | PropInterp.v | S5 |
| C64_two_points_rejects | PropInterp.v | S5 |
| C64_table | PropInterp.v | S5 |
| C64_table_points | PropInterp.v | S5 |
| C64_table_rejects | PropInterp.v | S5 |
| C64_descending_refuted | PropInterp.v | S5 |
| C64_lerp | PropInterp.v | S5 |
| C64_inverse | PropInterp.v | S5 |
| C64_inverse_flat_refuted | PropInterp.v | S5 |
| C65_neighbour_partial | PropInterp.v | S5 |
| C65_nearest_refuted | PropInterp.v | S5 |
| C65_table_partial | PropInterp.v | S5 |
| C65_rejects | PropInterp.v | S5 |
| C66_spline | PropInterp.v | S6 |
| C66_knots | PropInterp.v | S6 |
| C66_rejects | PropInterp.v | S5 |
| C67_product | PropQuat.v | S5 |
| C67_associative | PropQuat.v | S5 |
| C67_identity | PropQuat.v | S5 |
| C67_empty | PropQuat.v | S5 |
| C67_magnitude | PropQuat.v | S5 |
| C67_commutative_refuted | PropQuat.v | S5 |
| C68_inverse | PropQuat.v | S5 |
| C68_inverse_small | PropQuat.v | S5 |
| C68_conjugate | PropQuat.v | S5 |
| C68_conjugate_involution | PropQuat.v | S5 |
| C68_conjugate_product | PropQuat.v | S5 |
| C68_difference | PropQuat.v | S5 |
| C69_to_unit | PropQuat.v | S5 |
| C69_to_unit_small | PropQuat.v | S5 |
| C69_magnitude | PropQuat.v | S5 |
| C69_is_unit | PropQuat.v | S5 |
| C69_is_unit_to_unit | PropQuat.v | S5 |
| C69_scale | PropQuat.v | S5 |
| C70_rotation | PropQuat.v | S5 |
| C70_not_pure | PropQuat.v | S5 |
| C70_composition | PropQuat.v | S5 |
| C70_tiny_refuted | PropQuat.v | S5 |
| C71_rotation_matrix | PropQuat.v | S5 |
| C71_wrong_shape | PropQuat.v | S5 |
| C72_rotation_matrix_partial | PropExact.v | S5 |
| C72_round_trip_partial | PropQuat.v | S5 |
| C72_round_trip_refuted | PropQuat.v | S5 |
| C72_wrong_shape | PropQuat.v | S5 |
| C73_from_euler | PropQuat.v | S6 |
| C74_from_axis_angle | PropQuat.v | S6 |
| C74_zero_axis | PropQuat.v | S6 |
| C74_round_trip_partial | PropQuat.v | S6 |
| C74_to_axis_angle_partial | PropQuat.v | S6 |
| C74_small_angle_refuted | PropQuat.v | S6 |
| C74_full_turn_refuted | PropQuat.v | S6 |
| C74_wrong_size | PropQuat.v | S6 |
| C75_lerp | PropQuat.v | S5 |
| C75_lerp_opposite_refuted | PropQuat.v | S5 |
| C75_slerp | PropQuat.v | S6 |
| C75_slerp_ends | PropQuat.v | S6 |
| C75_slerp_opposite | PropQuat.v | S6 |
| C75_slerp_unit | PropQuat.v | S6 |
| C75_rejects | PropQuat.v | S6 |
| C76_exp_log | PropQuat.v | S6 |
| C76_log_defined | PropQuat.v | S6 |
| C76_log_zero_refuted | PropQuat.v | S6 |
| C76_log | PropQuat.v | S6 |
| C76_power | PropQuat.v | S6 |
| C76_power_sum | PropQuat.v | S6 |
| C76_power_natural | PropQuat.v | S6 |
| C76_square_root | PropQuat.v | S6 |
| C77_attitude_round_trip_partial | PropAhrs.v | S5 |
| C77_attitude_round_trip_refuted | PropAhrs.v | S5 |
| C77_conversion | PropAhrs.v | S6 |
| C77_dms | PropAhrs.v | S5 |
| C77_dms_rejects | PropAhrs.v | S5 |
| C77_heading_partial | PropAhrs.v | S6 |
| C77_heading_axis | PropAhrs.v | S6 |
| C77_heading_negative | PropAhrs.v | S6 |
| C77_heading_refuted | PropAhrs.v | S6 |
| C77_declination | PropAhrs.v | S6 |
| C77_declination_range_refuted | PropAhrs.v | S6 |
| C77_tilt | PropAhrs.v | S6 |
| C77_zero_accel_refuted | PropAhrs.v | S6 |
| C77_accel_angle | PropAhrs.v | S6 |
| C77_accel_angle_zero_refuted | PropAhrs.v | S6 |
| C77_tilt_compensation | PropAhrs.v | S6 |
| C77_sizes | PropAhrs.v | S6 |
| C78_init | PropCal.v | S1 |
| C78_null_gyroscope_refuted | PropCal.v | S6 |
| C78_complementary_refuted | PropCal.v | S6 |
| C78_ill_sized_rejected | PropFusion.v | S6 |
| C78_bad_gain_rejected | PropFusion.v | S6 |
| C78_madgwick_feed | PropFusion.v | S6 |
| C78_madgwick_history | PropFusion.v | S6 |
| C78_madgwick_refuted | PropFusion.v | S6 |
| C78_mahony_feed | PropFusion.v | S6 |
| C78_mahony_history | PropFusion.v | S6 |
| C78_complementary_feed | PropFusion.v | S6 |
| C78_complementary_history | PropFusion.v | S6 |
| C78_kalman_feed_partial | PropFusion.v | S6 |
| C78_saam_feed_partial | PropFusion.v | S5 |
| C78_aqua_feed_partial | PropFusion.v | S6 |
| C78_saam_history | PropHist.v | S5 |
| C78_aqua_history_partial | PropHist.v | S6 |
| C78_kalman_history_partial | PropHist.v | S6 |
| C79_integral_clamped | PropFusion.v | S6 |
| C79_integral_step | PropFusion.v | S6 |
| C80_madg_always_zero | PropCal.v | S6 |
| C80_mahn_always_zero | PropCal.v | S6 |
| C80_rejects | PropCal.v | S6 |
| C80_optimal_refuted | PropCal.v | S6 |
| C81_corr_scalar | PropFusion2.v | S2 |
| C81_corr_vec | PropFusion2.v | S5 |
| C81_corr_vec_rejects | PropFusion2.v | S5 |
| C81_rot_mtx | PropFusion2.v | S5 |
| C81_rot_axis_angle | PropFusion2.v | S6 |
| C81_rot_rejects | PropFusion2.v | S6 |
| C82_xyY_XYZ_xyY | PropColor.v | S5 |
| C82_XYZ_xyY_XYZ | PropColor.v | S5 |
| C82_uv60_xy_uv60 | PropColor.v | S5 |
| C82_xy_uv60_xy | PropColor.v | S5 |
| C82_uv60_uv76 | PropColor.v | S5 |
| C82_uv76_uv60 | PropColor.v | S5 |
| C82_XYZ_uv60_XYZ | PropColor.v | S5 |
| C82_black_refuted | PropColor.v | S5 |
| C82_invalid_flags_refuted | PropColor.v | S5 |
| C83_rgbf | PropColor.v | S5 |
| C83_rgb8 | PropColor.v | S6 |
| C83_rejects | PropColor.v | S6 |
| C83_uncapped_refuted | PropColor.v | S5 |
| C83_white_refuted | PropColor.v | S5 |
| C84_none | PropColor2.v | S5 |
| C84_sum | PropColor2.v | S5 |
| C84_physical | PropColor2.v | S5 |
| C84_scale | PropColor2.v | S5 |
| C84_unknown_observer_refuted | PropColor2.v | S5 |
| C84_nearest_refuted | PropColor2.v | S5 |
| C84_zbar_dip_refuted | PropColor2.v | S4 |
| C85_lerp | PropColor2.v | S5 |
| C85_between | PropColor2.v | S5 |
| C85_scotopic_unit_refuted | PropColor2.v | S5 |
| C86_kinematics | PropPhys.v | S5 |
| C86_projectiles | PropPhys.v | S6 |
| C86_momentum | PropPhys.v | S5 |
| C86_energy | PropPhys.v | S5 |
| C86_work | PropPhys.v | S6 |
| C86_dynamics | PropPhys.v | S6 |
| C86_rotation | PropPhys.v | S5 |
| C86_gravitation | PropPhys.v | S5 |
| C86_fluids | PropPhys.v | S5 |
| C86_gases | PropPhys.v | S5 |
| C86_thermo | PropPhys.v | S5 |
| C86_sound | PropPhys.v | S6 |
| C86_optics | PropPhys.v | S6 |
| C86_photons | PropPhys.v | S5 |
| C86_electric | PropPhys.v | S6 |
| C86_electricity | PropPhys.v | S5 |
| C86_components | PropPhys.v | S6 |
| C86_magnetics | PropPhys.v | S6 |
| C86_atomic | PropPhys.v | S6 |
| C86_unguarded_refuted | PropPhys5.v | S6 |
| C86_refraction_refuted | PropPhys5.v | S5 |
| C86_refraction_domain | PropPhys5.v | S5 |
| C86_negative_refuted | PropPhys5.v | S5 |
| C87_inelastic | PropPhys2.v | S6 |
| C87_merge_all | PropPhys2.v | S6 |
| C87_elastic | PropPhys2.v | S6 |
| C87_elastic_energy_refuted | PropPhys2.v | S5 |
| C87_boyle | PropPhys2.v | S5 |
| C87_charles | PropPhys2.v | S5 |
| C87_flow | PropPhys2.v | S5 |
| C87_hydraulic | PropPhys2.v | S5 |
| C87_lever | PropPhys2.v | S6 |
| C87_carnot | PropPhys2.v | S5 |
| C87_bernoulli | PropPhys2.v | S5 |
| C87_transformer | PropPhys2.v | S6 |
| C88_position | PropPhys3.v | S5 |
| C88_position2 | PropPhys3.v | S5 |
| C88_velocity | PropPhys3.v | S5 |
| C88_speed | PropPhys3.v | S5 |
| C88_speed_sign_refuted | PropPhys3.v | S5 |
| C88_work_energy | PropPhys3.v | S5 |
| C88_rotation | PropPhys3.v | S5 |
| C88_photon | PropPhys3.v | S5 |
| C88_flight_time | PropPhys3.v | S6 |
| C88_flight_time_first | PropPhys3.v | S6 |
| C88_flight_time_nonneg | PropPhys3.v | S6 |
| C88_flight_time_negative_refuted | PropPhys3.v | S6 |
| C88_range | PropPhys3.v | S6 |
| C88_range_error_refuted | PropPhys3.v | S6 |
| C88_trajectory | PropPhys3.v | S6 |
| C88_components | PropPhys3.v | S6 |
| C88_angle_refuted | PropPhys3.v | S6 |
| C88_vertical | PropPhys3.v | S6 |
| C89_series | PropPhys4.v | S5 |
| C89_parallel | PropPhys4.v | S5 |
| C89_parallel_rejects | PropPhys4.v | S5 |
| C89_parallel_empty_refuted | PropPhys4.v | S5 |
| C89_order | PropPhys4.v | S5 |
| C89_one_more | PropPhys4.v | S5 |
| C89_center | PropPhys4.v | S5 |
| C89_center_shift | PropPhys4.v | S5 |
| C89_center_rejects | PropPhys4.v | S5 |
| C90_fahrenheit | PropPhys3.v | S5 |
| C90_celsius | PropPhys3.v | S5 |
| C90_kelvin | PropPhys3.v | S5 |
| C90_from_kelvin | PropPhys3.v | S5 |
| C90_increasing | PropPhys3.v | S5 |
| C91_found | PropColor.v | S1 |
| C91_rejects | PropColor.v | S1 |
| C91_white_points | PropColor.v | S5 |
| C92_mult_linear_reg | PropReg.v | S8 |
| C92_collinear_rejected | PropReg.v | S8 |
| C92_rejects | PropReg.v | S5 |
| C93_weighted_partial | PropReg.v | S8 |
| C93_example | PropReg.v | S7 |
| C93_weights_refuted | PropReg.v | S8 |
| C93_rejects | PropReg.v | S5 |
| C94_quad_fit | PropReg.v | S8 |
| C94_rejects | PropReg.v | S5 |
| C95_cdf | PropProb.v | S6 |
| C95_pdf | PropProb.v | S6 |
| C95_quantile | PropProb.v | S6 |
| C96_euler_round_trip_partial | PropQuat.v | S6 |
| C96_euler_total | PropQuat.v | S6 |
| C96_euler_recovered | PropQuat.v | S6 |
| C97_ang_vel | PropQuat.v | S5 |
| C97_ang_vel_rest | PropQuat.v | S5 |
| C97_ang_mom | PropQuat.v | S5 |
| C97_rejects | PropQuat.v | S5 |
| C98_gravity_guard | PropAhrs.v | S6 |
| C98_gravity_sea_level | PropAhrs.v | S6 |
| C98_gravity_altitude | PropAhrs.v | S6 |
| C98_gravity_symmetric | PropAhrs.v | S6 |
| C98_gravity_latitude | PropAhrs.v | S6 |
| C99_equilibrium | PropFusion2.v | S6 |
| C99_equilibrium_imu | PropFusion2.v | S6 |
| C99_no_inclination_refuted | PropFusion2.v | S6 |
| C100_gravity_jacobian | PropFusion2.v | S6 |
| C100_field_jacobian_partial | PropFusion2.v | S6 |
| C100_field_jacobian_refuted | PropFusion2.v | S6 |
| C100_level_reading_refuted | PropFusion2.v | S6 |
| C100_equilibrium_refuted | PropFusion2.v | S6 |
| C101_saam | PropFusion.v | S5 |
| C101_saam_level_refuted | PropFusion.v | S5 |
| C101_saam_rejects | PropFusion.v | S5 |
| C102_aqua | PropFusion.v | S6 |
| C102_aqua_defined | PropFusion.v | S6 |
| C102_aqua_upside_down_refuted | PropFusion.v | S6 |
| C102_alpha_init | PropFusion.v | S5 |
| C102_alpha_init_rejects | PropFusion.v | S1 |
| C102_first_feed_null_refuted | PropFusion.v | S6 |
| C103_initial_orientation | PropExact.v | S5 |
| C103_initial_rejects | PropExact.v | S1 |
| C103_first_prediction_refuted | PropExact.v | S5 |
| C103_parallel_start_refuted | PropExact.v | S6 |
| C103_history | PropHist.v | S8 |
| C103_update | PropKalman.v | S8 |
| C103_H_jacobian | PropKalman.v | S6 |
| C103_h_jacobian_refuted | PropKalman.v | S6 |
| C103_innovation_refuted | PropKalman.v | S4 |
| C103_F_refuted | PropKalman.v | S5 |
| C103_P_init | PropKalman.v | S5 |
| C103_P_init_rejects | PropKalman.v | S5 |
| C103_first_feed_null_refuted | PropKalman.v | S6 |
| C103_agree_refuted | PropKalman.v | S8 |
| C104_gyro_only | PropFusion2.v | S6 |
| C104_aqua_opposite | PropFusion2.v | S6 |
| C104_aqua_refuted | PropFusion2.v | S6 |
| C105_readings | PropFusion2.v | S6 |
| C105_gyroscope_refuted | PropFusion2.v | S6 |
| C106_injective | PropColor.v | S5 |
| C106_unknown_refuted | PropColor.v | S5 |
| C106_white | PropColor.v | S5 |
| C107_rejects | PropColor2.v | S5 |
| C107_scales | PropColor2.v | S5 |
| C107_idempotent | PropColor2.v | S5 |
| C108_ohno2014 | PropColor3.v | S6 |
| C108_far | PropColor3.v | S6 |
| C108_total | PropColor3.v | S6 |
| C108_attenuated | PropColor3.v | S4 |
| C108_accuracy_refuted | PropColor3.v | S6 |
| C108_range_flags_refuted | PropColor3.v | S6 |
| C108_rejects | PropColor3.v | S6 |
| C108_mccamy | PropColor3.v | S6 |
| C108_chain_refuted | PropColor3.v | S6 |
| C108_ohno2011 | PropOhno.v | S6 |
| C108_bearing | PropOhno.v | S6 |
| C108_ohno2011_level_refuted | PropOhno.v | S6 |
| C108_ohno2011_line_refuted | PropOhno.v | S6 |
| C109_offset | PropColor4.v | S6 |
| C109_guards_refuted | PropColor4.v | S6 |
| C110_black_body | PropColor2.v | S6 |
| C110_zero_refuted | PropColor2.v | S6 |
| C110_negative_refuted | PropColor2.v | S6 |
| C110_unknown_observer_refuted | PropColor2.v | S6 |
| C110_rgb8 | PropColor2.v | S6 |
| C110_uv | PropColor2.v | S6 |
| C110_hotter_bluer | PropColor4.v | S6 |
| C110_distinct | PropColor4.v | S6 |
| C111_charging | PropPhys5.v | S6 |
| C111_kirchhoff | PropPhys5.v | S6 |
| C111_charging_current | PropPhys5.v | S6 |
| C111_discharging | PropPhys5.v | S6 |
| C111_coil | PropPhys5.v | S6 |
| C111_decay | PropPhys5.v | S6 |
| C112_mode | PropStat2.v | S5 |
| C112_mode_rejects | PropStat2.v | S5 |
| C113_time_weighted_mean | PropStat2.v | S5 |
| C113_rejects | PropStat2.v | S5 |
| C113_single_refuted | PropStat2.v | S5 |
| C114_weighted_median_partial | PropStat2.v | S5 |
| C114_weighted_median_unsorted | PropStat2.v | S5 |
| C114_unsorted_refuted | PropStat2.v | S5 |
| C114_rejects | PropStat2.v | S5 |
| C115_median_abs_dev | PropStat2.v | S6 |
| C116_abs_err | PropStat2.v | S5 |
| C116_rel_err_partial | PropStat2.v | S5 |
| C116_rel_err_refuted | PropStat2.v | S5 |
| C117_dot_rounding | PropFlt.v | S44 |
| C117_growth | PropFlt.v | S4 |
| C118_mean_rounding | PropFlt.v | S66 |
| C118_mean_in_range_refuted | PropFlt.v | S41 |
| C119_norm_rounding | PropFlt.v | S50 |
| C119_distance_rounding | PropFlt.v | S56 |
| C119_to_unit_rounding | PropFlt.v | S53 |
| C119_norm_overflow_refuted | PropFlt.v | S12 |
| C119_tiny_direction_refuted | PropFlt.v | S12 |
| C120_product_rounding | PropFlt.v | S44 |
| C121_dot_symmetric | PropFlt.v | S15 |
| C121_distance_symmetric | PropFlt.v | S27 |
| C121_product_transpose | PropFlt.v | S15 |
| C122_lerp_endpoints | PropFlt.v | S44 |
| C122_lerp_rounding | PropFlt.v | S55 |
| C123_variance_rounding | PropFlt.v | S70 |
| C123_std_dev_rounding | PropFlt.v | S72 |
| C124_fast_fit | PropMagn.v | S8 |
| C124_fast_magnitude_refuted | PropMagn.v | S8 |
| C124_fast_symmetric_refuted | PropMagn.v | S8 |
| C124_fast_outside_refuted | PropMagn.v | S8 |
| C124_fast_rejects | PropMagn.v | S5 |
| C125_magn_sphere | PropMagn.v | S5 |
| C125_corrected | PropMagn.v | S5 |
| C125_magn_symmetric | PropMagn.v | S1 |
| C125_magn_rejects | PropMagn.v | S5 |
| C125_one_reading_refuted | PropMagn.v | S5 |
| C126_exact_inv | PropExact.v | S5 |
| C126_exact_gauss_reduc | PropExact.v | S5 |
| C126_copy | PropSafe.v | S1 |
| C126_mult | PropSafe.v | S1 |
| C126_trans | PropSafe.v | S1 |
| C126_deter | PropSafe.v | S1 |
| C126_adjoint | PropSafe.v | S1 |
| C126_gauss_elim | PropSafe.v | S1 |
| C126_norm_elem | PropSafe.v | S1 |
| C126_gauss_reduc | PropSafe.v | S1 |
| C126_inv | PropSafe.v | S1 |
| C126_vec_wedge | PropSafe.v | S1 |
| C126_gram_schmidt | PropSafe.v | S1 |
| C126_cols_norm | PropSafe.v | S1 |
| C126_cholesky | PropSafe.v | S1 |
| C126_householder | PropSafe.v | S1 |
| C126_qrd | PropSafe.v | S1 |
| C126_qrd_iter | PropSafe.v | S1 |
| C126_balance | PropSafe.v | S1 |
| C126_eigenvalues | PropSafe.v | S1 |
| C126_doubles_inv | PropSafe.v | S10 |
| C126_doubles_qrd | PropSafe.v | S10 |
| C126_eigenvectors_refuted | PropSafe.v | S10 |
| C127_exact_madgwick | PropExact.v | S6 |
| C127_exact_mahony | PropExact.v | S6 |
| C127_exact_complementary | PropExact.v | S6 |
| C127_exact_kalman | PropExact.v | S6 |
| C127_exact_kalman_from_start | PropExact.v | S6 |
| C127_doubles_madgwick | PropSafeFus.v | S10 |
| C127_doubles_mahony | PropSafeFus.v | S10 |
| C127_doubles_complementary | PropSafeFus.v | S67 |
| C127_doubles_saam | PropSafeFus.v | S10 |
| C127_doubles_aqua | PropSafeFus.v | S64 |
| C127_doubles_kalman | PropSafeFus.v | S40 |
| C127_doubles_cal_madgwick | PropSafeFus.v | S10 |
| C127_doubles_cal_mahony | PropSafeFus.v | S10 |
| C127_madgwick | PropSafeFus.v | S6 |
| C127_mahony | PropSafeFus.v | S6 |
| C127_complementary | PropSafeFus.v | S6 |
| C127_saam | PropSafeFus.v | S5 |
| C127_aqua | PropSafeFus.v | S6 |
| C127_kalman | PropSafeFus.v | S6 |
| C127_cal_madgwick | PropSafeFus.v | S6 |
| C127_cal_mahony | PropSafeFus.v | S6 |
| C127_kalman_second_instance_refuted | PropSafeFus.v | S10 |
| C128_svd_partial | PropSvd.v | S8 |
| C128_pinv_partial | PropSvd.v | S8 |
| C128_diagonal | PropSvd.v | S8 |
| C128_pinv_repeated_refuted | PropSvd.v | S10 |
| C128_u_orthogonal_refuted | PropSvd.v | S10 |
| C129_reduction_partial | PropSvd.v | S5 |
| C129_values_reported | PropSvd.v | S6 |
| C129_symmetric_values | PropSvd.v | S5 |
| C129_eigenvectors_partial | PropSvd.v | S8 |
| C129_order | PropSvd.v | S8 |
| C129_order_repeated_refuted | PropSvd.v | S10 |
| C130_elapsed_partial | PropMisc.v | S1 |
| C130_wrap_refuted | PropMisc.v | S1 |
| C131_members | PropMisc.v | S1 |
| C131_words | PropMisc.v | S1 |
| C132_vector | PropMisc.v | S1 |
| C132_matrix | PropMisc.v | S1 |
| C132_rotations | PropMisc.v | S1 |
| C132_text | PropMisc.v | S1 |
| C133_lat2g | PropMisc.v | S6 |
| C133_lat2g_total | PropMisc.v | S6 |
| C133_south_refuted | PropMisc.v | S6 |
| C133_below_sea_level_refuted | PropMisc.v | S6 |
| C133_ct2rgb_partial | PropMisc.v | S6 |
| C133_ct2rgb_rejects | PropMisc.v | S6 |
| C133_ct2rgb_hot_refuted | PropMisc.v | S6 |
| C133_ct2rgbf_partial | PropMisc.v | S6 |
| C134_in_range_partial | PropMisc.v | S5 |
| C134_random_refuted | PropMisc.v | S1 |
| C135_find | PropSafe2.v | S1 |
| C135_nearest | PropSafe2.v | S1 |
| C135_linear | PropSafe2.v | S1 |
| C135_pair | PropSafe2.v | S1 |
| C135_cubic_calc | PropSafe2.v | S1 |
| C135_cubic | PropSafe2.v | S1 |
| C135_mean | PropSafe2.v | S1 |
| C135_weighted_mean | PropSafe2.v | S1 |
| C135_demean | PropSafe2.v | S1 |
| C135_mode | PropSafe2.v | S1 |
| C135_spread | PropSafe2.v | S1 |
| C135_covar | PropSafe2.v | S1 |
| C135_covar_mtx | PropSafe2.v | S1 |
| C135_linear_reg | PropSafe2.v | S1 |
| C135_mult_reg | PropSafe2.v | S1 |
| C135_weighted_mult_reg | PropSafe2.v | S1 |
| C135_quad_fit | PropSafe2.v | S1 |
| C135_fast_calibration | PropSafe2.v | S1 |
| C135_iterative_calibration | PropSafe2.v | S1 |
| C135_doubles_linear | PropSafe2.v | S19 |
| C135_doubles_mode | PropSafe2.v | S21 |
| C135_doubles_quad_fit | PropSafe2.v | S10 |
| C135_doubles_fast_calibration | PropSafe2.v | S10 |
| C135_exact_fast_calibration | PropSafe2.v | S5 |
| C135_exact_iterative_calibration | PropSafe2.v | S5 |
| C135_fast_calibration_nan_refuted | PropSafe2.v | S17 |
| C135_sort_refuted | PropSafe2.v | S10 |
| C135_data_range_refuted | PropSafe2.v | S10 |
| C136_to_unit | PropFltQuat.v | S59 |
| C136_to_unit_regular | PropFltQuat.v | S59 |
| C136_overflow_refuted | PropFltQuat.v | S12 |
| C136_madgwick | PropFltQuat.v | S59 |
| C136_mahony | PropFltQuat.v | S59 |
| C136_complementary | PropFltQuat.v | S59 |
| C136_saam | PropFltQuat.v | S59 |
| C136_aqua | PropFltQuat.v | S59 |
| C136_kalman | PropFltQuat.v | S59 |
| C136_gyroscope_madgwick | PropFltQuat.v | S75 |
| C136_gyroscope_mahony | PropFltQuat.v | S75 |
| C136_gyroscope_complementary | PropFltQuat.v | S75 |
| C137_recovery_madgwick_refuted | PropFltQuat.v | S39 |
| C137_recovery_mahony_refuted | PropFltQuat.v | S35 |
| C137_recovery_complementary_refuted | PropFltQuat.v | S35 |
| C137_recovery_aqua_refuted | PropFltQuat.v | S39 |
| C137_recovery_kalman_refuted | PropFltQuat.v | S35 |
| C137_recovery_saam | PropFltQuat.v | S10 |
| C137_nan_gyroscope_madgwick_refuted | PropFltQuat.v | S75 |
| C137_nan_gyroscope_mahony_refuted | PropFltQuat.v | S75 |
| C137_nan_gyroscope_complementary_refuted | PropFltQuat.v | S75 |
| C137_nan_gyroscope_aqua_refuted | PropFltQuat.v | S75 |
| C137_nan_gyroscope_kalman_refuted | PropFltQuat.v | S75 |
| C137_nan_accelerometer_madgwick | PropFltQuat.v | S32 |
| C137_nan_accelerometer_mahony | PropFltQuat.v | S32 |
| C137_nan_accelerometer_complementary | PropFltQuat.v | S32 |
| C137_nan_magnetometer_refuted | PropFltQuat.v | S10 |
| C138_qr_iteration | PropEig.v | S8 |
| C138_eigenvalues | PropEig.v | S8 |
| C138_positive_semidefinite | PropEig.v | S8 |
| C138_singular_values | PropEig.v | S8 |
| C138_opposite_refuted | PropEig.v | S8 |
| C139_opposite_vertical_refuted | PropSettle.v | S6 |
| C139_first_feed_refuted | PropSettle.v | S6 |
| C139_full_feed_refuted | PropSettle.v | S6 |
| C140_complementary_settles | PropSettle2.v | S6 |
| C141_aqua_settles | PropSettle2.v | S6 |
| C141_aqua_vertical | PropSettle2.v | S6 |
| C141_stall_refuted | PropSettle2.v | S6 |
| C142_stuck_refuted | PropSettle3.v | S6 |
| C142_leaves_refuted | PropSettle3.v | S6 |
| C143_aqua | PropGyro.v | S6 |
| C143_mahony_madgwick_refuted | PropGyro.v | S6 |
| C144_rgb8_double | PropRgbFlt.v | S54 |
| C144_nan_refuted | PropRgbFlt.v | S43 |
| C144_black_refuted | PropRgbFlt.v | S49 |
| C145_product | PropFltRot.v | S51 |
| C145_cross | PropFltRot.v | S51 |
| C146_rotation | PropFltRot.v | S65 |
| C146_length | PropFltRot.v | S65 |
| C147_determinant | PropFltDet.v | S58 |
| C148_combine | PropSafeVec.v | S1 |
| C148_measure | PropSafeVec.v | S1 |
| C148_project | PropSafeVec.v | S1 |
| C148_cross | PropSafeVec.v | S1 |
| C148_in_place | PropSafeVec.v | S1 |
| C148_ask | PropSafeVec.v | S1 |
| C148_fill | PropSafeVec.v | S1 |
| C148_subset | PropSafeVec.v | S1 |
| C148_sum | PropSafeVec.v | S1 |
| C148_quaternions | PropSafeVec.v | S1 |
| C148_quaternion_functions | PropSafeVec.v | S1 |
| C148_quaternions_of_vectors | PropSafeVec.v | S1 |
| C148_axis_of_quaternion | PropSafeVec.v | S1 |
| C148_rotation_matrices | PropSafeVec.v | S1 |
| C148_attitudes | PropSafeVec.v | S1 |
| C148_compass | PropSafeVec.v | S1 |
| C148_probability | PropSafeVec.v | S1 |
| C148_circuits | PropSafeVec.v | S1 |
| C148_centre_of_mass | PropSafeVec.v | S1 |
| C148_doubles | PropSafeVec.v | S10 |
| C148_reals | PropSafeVec.v | S6 |
| C148_copy_refuted | PropSafeVec.v | S3 |
| C148_sum_refuted | PropSafeVec.v | S10 |
| C148_geo_north_nan_refuted | PropSafeVec.v | S10 |
| C149_sort | PropFltStat.v | S73 |
| C149_median | PropFltStat.v | S77 |
| C149_quartiles | PropFltStat.v | S77 |
| C149_data_range | PropFltStat.v | S73 |
| C149_nan_refuted | PropFltStat.v | S10 |
| C149_garbage_refuted | PropFltStat.v | S10 |
| C150_cholesky | PropFltChol.v | S62 |
| C150_indefinite_refuted | PropFltChol.v | S10 |
| C151_matrix | PropFltMat.v | S69 |
| C151_orthogonal | PropFltMat.v | S69 |
| C151_normalised | PropFltMat.v | S75 |
| C151_scale_refuted | PropFltMat.v | S10 |
| C152_min | PropFltCmp.v | S31 |
| C152_max | PropFltCmp.v | S41 |
| C152_min_idx | PropFltCmp.v | S31 |
| C152_max_idx | PropFltCmp.v | S41 |
| C152_first_nan_refuted | PropFltCmp.v | S14 |
| C152_search_exact | PropFltCmp.v | S47 |
| C152_ascending | PropFltCmp.v | S47 |
| C152_descending | PropFltCmp.v | S47 |
| C152_outside | PropFltCmp.v | S47 |
| C152_search_nan_refuted | PropFltCmp.v | S19 |
| C153_two_points | PropFltInterp.v | S60 |
| C153_table | PropFltInterp.v | S63 |
| C153_nodes | PropFltInterp.v | S63 |
| C153_last_refuted | PropFltInterp.v | S48 |
| C154_spectrum | PropSafeColor.v | S1 |
| C154_luminous_efficiency | PropSafeColor.v | S1 |
| C154_coordinates | PropSafeColor.v | S1 |
| C154_temperature | PropSafeColor.v | S1 |
| C154_correlated | PropSafeColor.v | S1 |
| C154_rgb | PropSafeColor.v | S1 |
| C154_ends_doubles | PropSafeColor.v | S10 |
| C154_ends_reals | PropSafeColor.v | S5 |
| C154_doubles | PropSafeColor.v | S10 |
| C154_unset_refuted | PropSafeColor.v | S1 |
| C155_equal | PropFltTol.v | S57 |
| C155_contains | PropFltTol.v | S57 |
| C155_nonneg | PropFltTol.v | S41 |
| C155_notneg | PropFltTol.v | S41 |
| C155_symmetric | PropFltTol.v | S57 |
| C155_nan_refuted | PropFltTol.v | S57 |
| C156_vec_add_sub | PropFltElem.v | S45 |
| C156_vec_scalar | PropFltElem.v | S52 |
| C156_mtx_add_sub | PropFltElem.v | S45 |
| C156_mtx_scalar_mult | PropFltElem.v | S42 |
| C156_mtx_binary_op | PropFltElem.v | S46 |
| C157_inverse | PropFltInv.v | S61 |
| C157_underflow_refuted | PropFltInv.v | S10 |
| C158_project_over_u | PropAlias.v | S5 |
| C158_project_over_v_refuted | PropAlias.v | S5 |
| C158_inverse_in_place_refuted | PropAlias.v | S5 |
| C158_inverse3_in_place_refuted | PropAlias.v | S5 |
| C158_adjoint2_in_place_refuted | PropAlias.v | S5 |
| C158_adjoint3_in_place_refuted | PropAlias.v | S5 |
| C158_shape_refused | PropAlias.v | S1 |
| C158_size_refused | PropAlias.v | S1 |
| C158_sort_in_place_refuted | PropAlias.v | S10 |
| C159_kinematics | PropFltPhys.v | S74 |
| C159_energy | PropFltPhys.v | S76 |
| C159_rotation | PropFltPhys.v | S74 |
| C159_gravitation | PropFltPhys.v | S72 |
| C159_fluids_and_gases | PropFltPhys.v | S74 |
| C159_waves_and_light | PropFltPhys.v | S74 |
| C159_electricity | PropFltPhys.v | S71 |
| C159_transformer | PropFltPhys.v | S68 |
| C159_relative | PropFltPhys.v | S9 |
| C159_range_refuted | PropFltPhys.v | S10 |
| C159_cancel_refuted | PropFltPhys.v | S12 |
| C160_kinematics | PropNanPhys.v | S34 |
| C160_projectiles | PropNanPhys.v | S34 |
| C160_momentum | PropNanPhys.v | S30 |
| C160_energy | PropNanPhys.v | S33 |
| C160_work | PropNanPhys.v | S20 |
| C160_dynamics | PropNanPhys.v | S34 |
| C160_rotation | PropNanPhys.v | S34 |
| C160_gravitation | PropNanPhys.v | S29 |
| C160_fluids | PropNanPhys.v | S30 |
| C160_gases | PropNanPhys.v | S25 |
| C160_thermo | PropNanPhys.v | S30 |
| C160_sound | PropNanPhys.v | S37 |
| C160_optics | PropNanPhys.v | S18 |
| C160_photons | PropNanPhys.v | S26 |
| C160_atomic | PropNanPhys.v | S24 |
| C160_electric | PropNanPhys.v | S18 |
| C160_electricity | PropNanPhys.v | S18 |
| C160_eleccomp | PropNanPhys.v | S38 |
| C160_magnetics | PropNanPhys.v | S24 |
| C160_composed | PropNanPhys.v | S34 |
| C160_circuits | PropNanPhys.v | S16 |
| C160_angle_refuted | PropNanPhys.v | S10 |
| C160_angle | PropNanPhys.v | S13 |
| C160_code_refuted | PropNanPhys.v | S10 |
| C160_mass_center | PropNanPhys.v | S22 |
| C161_vectors | PropNanStat.v | S34 |
| C161_summaries | PropNanStat.v | S36 |
| C161_covariance | PropNanStat.v | S28 |
| C161_weighted_mean | PropNanStat.v | S22 |
| C161_regression | PropNanStat.v | S30 |
| C161_range_refuted | PropNanStat.v | S10 |
| C161_median_refuted | PropNanStat.v | S10 |
| C162_product | PropNanMtx.v | S17 |
| C162_determinant | PropNanMtx.v | S23 |
| C162_inverse3 | PropNanMtx.v | S30 |
| C162_cholesky | PropNanMtx.v | S11 |
| C162_inverse_refuted | PropNanMtx.v | S10 |
| C163_units | PropUnits.v | S5 |
| C163_units_pairs | PropUnits.v | S5 |
| C163_units_median | PropUnits.v | S6 |
| C163_median_refuted | PropUnits.v | S6 |
| C163_order | PropUnits.v | S5 |
| C163_order_pairs | PropUnits.v | S5 |
| C164_unambiguous | PropCodes.v | S1 |
| C164_maps | PropCodes.v | S1 |
| C164_header | PropCodes.v | S1 |
| C164_told_apart | PropCodes.v | S1 |
| C165_numbers | PropCodes.v | S1 |
| C165_lookup | PropCodes.v | S1 |
| C165_order | PropCodes.v | S1 |
| C165_range | PropCodes.v | S1 |
| C166_dot | PropSgl.v | S6 |
| C166_growth | PropSgl.v | S4 |
| C166_mean | PropSgl.v | S6 |
| C166_norm | PropSgl.v | S6 |
| C166_distance | PropSgl.v | S6 |
| C166_product | PropSgl.v | S6 |
| C166_elementwise | PropSgl.v | S6 |
| C166_norm_range_refuted | PropSgl.v | S6 |
| C166_count_refuted | PropSgl.v | S6 |
| C167_to_unit | PropSglQuat.v | S6 |
| C167_to_unit_regular | PropSglQuat.v | S6 |
| C167_overflow_refuted | PropSglQuat.v | S6 |
| C167_madgwick | PropSglQuat.v | S6 |
| C167_mahony | PropSglQuat.v | S6 |
| C167_complementary | PropSglQuat.v | S6 |
| C167_saam | PropSglQuat.v | S6 |
| C167_aqua | PropSglQuat.v | S6 |
| C167_kalman | PropSglQuat.v | S6 |
| C168_sphere_row | PropMagnJac.v | S6 |
| C168_sphere_derivative | PropMagnJac.v | S6 |
| C168_sphere_origin_partial | PropMagnJac.v | S6 |
| C168_sphere_refuted | PropMagnJac.v | S6 |
| C168_ellipsoid_row | PropMagnJac.v | S6 |
| C168_ellipsoid_first_partial | PropMagnJac.v | S6 |
| C168_ellipsoid_refuted | PropMagnJac.v | S6 |
| C168_ellipsoid_offset_refuted | PropMagnJac.v | S6 |
| C168_radius_diverges | PropMagnJac.v | S5 |
| C168_two_readings_refuted | PropMagnJac.v | S5 |
| C169_unary_calls | PropCallback.v | S1 |
| C169_init_calls | PropCallback.v | S1 |
| C169_binary_calls | PropCallback.v | S1 |
| C169_binary_refused | PropCallback.v | S1 |
| C169_null | PropCallback.v | S1 |
| C169_each_once | PropCallback.v | S1 |
| C169_unary_map | PropCallback.v | S1 |
| C169_unary_stops | PropCallback.v | S1 |
| C169_binary_zip | PropCallback.v | S1 |
| C170_distribution | PropNormal.v | S6 |
| C170_tail | PropNormal.v | S6 |
| C170_interval | PropNormal.v | S6 |
| C171_increasing_partial | PropQuantile.v | S6 |
| C171_increasing_refuted | PropQuantile.v | S6 |
| C171_tail_refuted | PropQuantile.v | S6 |
| C171_near_partial | PropQuantile.v | S6 |
| C172_density | PropDensity.v | S6 |
| C172_density_near | PropDensity.v | S6 |
| C173_history | PropView.v | S1 |
| C173_view | PropView.v | S1 |
| C173_radians | PropView.v | S1 |
| C174_erf_inv | PropQuantSym.v | S6 |
| C174_symmetric | PropQuantSym.v | S6 |
| C174_units | PropQuantSym.v | S6 |
| C174_error | PropQuantSym.v | S6 |
| C175_chain | PropEntropy.v | S6 |
| C175_independent | PropEntropy.v | S6 |
| C175_order | PropEntropy.v | S6 |
| C175_maximum | PropEntropy.v | S6 |
| C176_pooled | PropPool.v | S5 |
| C176_sum | PropPool.v | S5 |
| C176_chebyshev | PropPool.v | S5 |
| C177_reproduces | PropSpline.v | S6 |
| C177_line | PropSpline.v | S6 |
| C178_least_bending | PropHolladay.v | S6 |
| C179_error | PropInterpErr.v | S6 |
| C179_convex | PropInterpErr.v | S6 |
| C180_speed | PropSlerp.v | S6 |
| C180_reverse | PropSlerp.v | S6 |
| C180_orientation_refuted | PropSlerp.v | S6 |
| C181_propagation | PropCovar.v | S5 |
| C181_semidefinite | PropCovar.v | S5 |
| C182_geometry | PropGeom.v | S5 |
| C182_inverse | PropGeom.v | S5 |
| C182_scale | PropGeom.v | S5 |
| C183_slopes | PropInterpMono.v | S5 |
| C183_monotone | PropInterpMono.v | S5 |
| C183_no_jumps | PropInterpMono.v | S5 |
