(** The enumerations of include/zsl/measurement, the periodic table of
    include/zsl/chemistry.h and the atomic weights of src/chemistry.c, as lists
    of names (without their common prefix) and values. *)
From Coq Require Import List ZArith String.
From Verif Require Import Base.
Import ListNotations.
Local Open Scope Z_scope.
Local Open Scope string_scope.

(** enum zsl_mes_type, include/zsl/measurement/base.h:52-102 *)
Definition mes_types : list (string * Z) :=
  [("UNDEFINED", 0); ("AREA", 16); ("ACCELERATION", 17); ("AMPLITUDE", 18); ("CAPACITANCE", 19);
   ("COLOR", 20); ("COORDINATES", 21); ("CURRENT", 22); ("DIMENSION", 23); ("FREQUENCY", 24);
   ("HUMIDITY", 25); ("INDUCTANCE", 26); ("LIGHT", 27); ("MAGNETIC_FIELD", 28); ("MASS", 29);
   ("MOMENTUM", 30); ("ORIENTATION", 31); ("PHASE", 32); ("PRESSURE", 33); ("RESISTANCE", 34);
   ("SOUND", 35); ("TEMPERATURE", 36); ("TIME", 37); ("VELOCITY", 38); ("VOLTAGE", 39);
   ("VOLUME", 40); ("ACIDITY", 41); ("CONDUCTIVITY", 42); ("FORCE", 43); ("ENERGY", 44);
   ("USER_1", 240); ("USER_2", 241); ("USER_3", 242); ("USER_4", 243); ("USER_5", 244);
   ("USER_6", 245); ("USER_7", 246); ("USER_8", 247); ("USER_9", 248); ("USER_10", 249);
   ("USER_11", 250); ("USER_12", 251); ("USER_13", 252); ("USER_14", 253); ("USER_15", 254);
   ("MAX", 255)].

(** enum zsl_mes_unit_ctype, include/zsl/measurement/unit.h:45-94 *)
Definition mes_ctypes : list (string * Z) :=
  [("UNDEFINED", 0); ("IEEE754_FLOAT32", 16); ("IEEE754_FLOAT64", 17); ("IEEE754_FLOAT128", 18);
   ("S8", 19); ("S16", 20); ("S32", 21); ("S64", 22); ("S128", 23); ("U8", 24); ("U16", 25);
   ("U32", 26); ("U64", 27); ("U128", 28); ("BOOL", 29); ("COMPLEX_32", 48); ("COMPLEX_64", 49);
   ("RANG_UNIT_INTERVAL_32", 128); ("RANG_UNIT_INTERVAL_64", 129); ("RANG_PERCENT_32", 130);
   ("RANG_PERCENT_64", 131); ("USER_1", 240); ("USER_2", 241); ("USER_3", 242); ("USER_4", 243);
   ("USER_5", 244); ("USER_6", 245); ("USER_7", 246); ("USER_8", 247); ("USER_9", 248);
   ("USER_10", 249); ("USER_11", 250); ("USER_12", 251); ("USER_13", 252); ("USER_14", 253);
   ("USER_15", 254); ("MAX", 255)].

(** enum zsl_mes_unit_si, include/zsl/measurement/unit.h:114-312 *)
Definition mes_units : list (string * Z) :=
  [("UNDEFINED", 0); ("AMPERE", 16); ("CANDELA", 17); ("KELVIN", 18); ("KILOGRAM", 19);
   ("METER", 20); ("MOLE", 21); ("SECOND", 22); ("BECQUEREL", 32); ("COULOMB", 33);
   ("DEGREE_CELSIUS", 34); ("FARAD", 35); ("GRAY", 36); ("HENRY", 37); ("HERTZ", 38); ("JOULE", 39);
   ("KATAL", 40); ("LUMEN", 41); ("LUX", 42); ("NEWTON", 43); ("OHM", 44); ("PASCAL", 45);
   ("RADIAN", 46); ("SIEMENS", 47); ("SIEVERT", 48); ("STERADIAN", 49); ("TESLA", 50); ("VOLT", 51);
   ("WATT", 52); ("WEBER", 53); ("PERCENT", 128); ("INTERVAL", 129); ("METERS_2", 4096);
   ("METER_PER_SECOND_2", 4352); ("RELATIVE_HUMIDITY", 6400); ("CANDELA_PER_METER_2", 6912);
   ("JOULE_PER_METER_2", 6913); ("JOULE_PER_METER_2_PER_HZ", 6914);
   ("JOULE_PER_METER_2_PER_NM", 6915); ("JOULE_PER_METER_3", 6916); ("LUMEN_PER_METER_2", 6917);
   ("LUMEN_PER_WATT", 6918); ("LUMEN_SECOND", 6919); ("LUMEN_SECOND_PER_METER_3", 6920);
   ("LUX_SECOND", 6921); ("WATTS_PER_HERTZ", 6922); ("WATTS_PER_METER_2", 6923);
   ("WATTS_PER_METER_2_PER_HZ", 6924); ("WATTS_PER_METER_2_PER_NM", 6925); ("WATTS_PER_NM", 6926);
   ("WATTS_PER_STERADIAN", 6927); ("WATTS_PER_STERADIAN_PER_HERTZ", 6928);
   ("WATTS_PER_STERADIAN_PER_METER_2", 6929); ("WATTS_PER_STERADIAN_PER_METER_2_PER_HZ", 6930);
   ("WATTS_PER_STERADIAN_PER_METER_2_PER_NM", 6931); ("WATTS_PER_STERADIAN_PER_NM", 6932);
   ("MICROTESLA", 7168); ("GRAMS", 7424); ("HECTOPASCAL", 8448); ("METERS_3_SECOND", 9729);
   ("MILLIVOLTS", 9984); ("METERS_3", 10240); ("PH", 10496); ("SIEMENS_PER_METER", 10752);
   ("USER_DEFINED_1", 65280); ("USER_DEFINED_255", 65534); ("MAX", 65535)].

(** enum zsl_mes_si_scale, include/zsl/measurement/unit.h:317-339 *)
Definition mes_scales : list (string * Z) :=
  [("YOTTA", 24); ("ZETTA", 21); ("EXA", 18); ("PETA", 15); ("TERA", 12); ("GIGA", 9); ("MEGA", 6);
   ("KILO", 3); ("HECTO", 2); ("DECA", 1); ("NONE", 0); ("DECI", (-1)); ("CENTI", (-2));
   ("MILLI", (-3)); ("MICRO", (-6)); ("NANO", (-9)); ("PICO", (-12)); ("FEMTO", (-15));
   ("ATTO", (-18)); ("ZEPTO", (-21)); ("YOCTO", (-24))].

(** enum zsl_mes_ext_color, include/zsl/measurement/ext_color.h:38-89 *)
Definition mes_colors : list (string * Z) :=
  [("UNDEFINED", 0); ("RGBA8", 16); ("RGBA16", 17); ("RGBAF", 18); ("CIE1931_XYZ", 48);
   ("CIE1931_XYY", 49); ("CIE1960_UCS", 50); ("CIE1976_UCS", 51); ("CIE1960_CCT", 52);
   ("CIE1960_CCT_DUV", 53)].

(** enum zsl_mes_ext_light, include/zsl/measurement/ext_light.h:63-264 *)
Definition mes_lights : list (string * Z) :=
  [("UNDEFINED", 0); ("RADIO_RADIANT_ENERGY", 16); ("RADIO_RADIANT_ENERGY_DENSITY", 17);
   ("RADIO_RADIANT_FLUX", 18); ("RADIO_SPECTRAL_FLUX_HZ", 19); ("RADIO_SPECTRAL_FLUX_NM", 20);
   ("RADIO_RADIANT_INTENSITY", 21); ("RADIO_SPECTRAL_INTENSITY_HZ", 22);
   ("RADIO_SPECTRAL_INTENSITY_NM", 23); ("RADIO_RADIANCE", 24); ("RADIO_SPECTRAL_RADIANCE_HZ", 25);
   ("RADIO_SPECTRAL_RADIANCE_NM", 26); ("RADIO_IRRADIANCE", 27);
   ("RADIO_SPECTRAL_IRRADIANCE_HZ", 28); ("RADIO_SPECTRAL_IRRADIANCE_NM", 29);
   ("RADIO_RADIOSITY", 30); ("RADIO_SPECTRAL_RADIOSITY_HZ", 31);
   ("RADIO_SPECTRAL_RADIOSITY_NM", 32); ("RADIO_RADIANT_EXITANCE", 33);
   ("RADIO_SPECTRAL_EXITANCE_HZ", 34); ("RADIO_SPECTRAL_EXITANCE_NM", 35);
   ("RADIO_RADIANT_EXPOSURE", 36); ("RADIO_SPECTRAL_EXPOSURE_HZ", 37);
   ("RADIO_SPECTRAL_EXPOSURE_NM", 38); ("PHOTO_LUM_ENERGY", 64); ("PHOTO_LUM_FLUX", 65);
   ("PHOTO_LUM_INTENSITY", 66); ("PHOTO_LUMINANCE", 67); ("PHOTO_ILLUMINANCE", 68);
   ("PHOTO_LUM_EXITANCE", 69); ("PHOTO_LUM_EXPOSURE", 70); ("PHOTO_LUM_ENERGY_DENSITY", 71);
   ("PHOTO_LUM_EFFICACY_RAD", 72); ("PHOTO_LUM_EFFICACY_SRC", 73)].

(** enum zsl_mes_ext_temperature, include/zsl/measurement/ext_temperature.h:30-50 *)
Definition mes_temps : list (string * Z) :=
  [("UNDEFINED", 0); ("AMBIENT", 1); ("DIE", 2); ("OBJECT", 3)].

(** enum zsl_mes_format, include/zsl/measurement/measurement.h:156-161 *)
Definition mes_formats : list (string * Z) :=
  [("NONE", 0); ("CBOR", 1)].

(** enum zsl_mes_encoding, include/zsl/measurement/measurement.h:164-171 *)
Definition mes_encodings : list (string * Z) :=
  [("NONE", 0); ("BASE64", 1); ("BASE45", 2)].

(** enum zsl_mes_compression, include/zsl/measurement/measurement.h:174-179 *)
Definition mes_compressions : list (string * Z) :=
  [("NONE", 0); ("LZ4", 1)].

(** enum zsl_mes_fragment, include/zsl/measurement/measurement.h:182-189 *)
Definition mes_fragments : list (string * Z) :=
  [("NONE", 0); ("PARTIAL", 1); ("FINAL", 2)].

(** enum zsl_mes_timestamp, include/zsl/measurement/measurement.h:192-205 *)
Definition mes_timestamps : list (string * Z) :=
  [("NONE", 0); ("EPOCH_32", 1); ("EPOCH_64", 2); ("UPTIME_MS_32", 3); ("UPTIME_MS_64", 4);
   ("UPTIME_US_64", 5)].

(** enum zsl_chem_elements, include/zsl/chemistry.h:42-161 *)
Definition elements : list (string * Z) :=
  [("HYDROGEN", 1); ("HELIUM", 2); ("LITHIUM", 3); ("BERYLLIUM", 4); ("BORON", 5); ("CARBON", 6);
   ("NITROGEN", 7); ("OXYGEN", 8); ("FLUORINE", 9); ("NEON", 10); ("SODIUM", 11); ("MAGNESIUM", 12);
   ("ALUMINIUM", 13); ("SILICON", 14); ("PHOSPHORUS", 15); ("SULFUR", 16); ("CHLORINE", 17);
   ("ARGON", 18); ("POTASSIUM", 19); ("CALCIUM", 20); ("SCANDIUM", 21); ("TITANIUM", 22);
   ("VANADIUM", 23); ("CHROMIUM", 24); ("MANGANESE", 25); ("IRON", 26); ("COBALT", 27);
   ("NICKEL", 28); ("COPPER", 29); ("ZINC", 30); ("GALLIUM", 31); ("GERMANIUM", 32);
   ("ARSENIC", 33); ("SELENIUM", 34); ("BROMINE", 35); ("KRYPTON", 36); ("RUBIDIUM", 37);
   ("STRONTIUM", 38); ("YTTRIUM", 39); ("ZIRCONIUM", 40); ("NIOBIUM", 41); ("MOLYBDENUM", 42);
   ("TECHNETIUM", 43); ("RUTHENIUM", 44); ("RHODIUM", 45); ("PALLADIUM", 46); ("SILVER", 47);
   ("CADMIUM", 48); ("INDIUM", 49); ("TIN", 50); ("ANTIMONY", 51); ("TELLURIUM", 52);
   ("IODINE", 53); ("XENON", 54); ("CAESIUM", 55); ("BARIUM", 56); ("LANTHANUM", 57);
   ("CERIUM", 58); ("PRASEODYMIUM", 59); ("NEODYMIUM", 60); ("PROMETHIUM", 61); ("SAMARIUM", 62);
   ("EUROPIUM", 63); ("GADOLINIUM", 64); ("TERBIUM", 65); ("DYSPROSIUM", 66); ("HOLMIUM", 67);
   ("ERBIUM", 68); ("THULIUM", 69); ("YTTERBIUM", 70); ("LUTETIUM", 71); ("HAFNIUM", 72);
   ("TANTALUM", 73); ("TUNGSTEN", 74); ("RHENIUM", 75); ("OSMIUM", 76); ("IRIDIUM", 77);
   ("PLATINUM", 78); ("GOLD", 79); ("MERCURY", 80); ("THALLIUM", 81); ("LEAD", 82); ("BISMUTH", 83);
   ("POLONIUM", 84); ("ASTATINE", 85); ("RADON", 86); ("FRANCIUM", 87); ("RADIUM", 88);
   ("ACTINIUM", 89); ("THORIUM", 90); ("PROTACTINIUM", 91); ("URANIUM", 92); ("NEPTUNIUM", 93);
   ("PLUTONIUM", 94); ("AMERICIUM", 95); ("CURIUM", 96); ("BERKELIUM", 97); ("CALIFORNIUM", 98);
   ("EINSTEINIUM", 99); ("FERMIUM", 100); ("MENDELEVIUM", 101); ("NOBELIUM", 102);
   ("LAWRENCIUM", 103); ("RUTHERFORDIUM", 104); ("DUBNIUM", 105); ("SEABORGIUM", 106);
   ("BOHRIUM", 107); ("HASSIUM", 108); ("MEITNERIUM", 109); ("DARMSTADTIUM", 110);
   ("ROENTGENIUM", 111); ("COPERNICIUM", 112); ("NIHONIUM", 113); ("FLEROVIUM", 114);
   ("MOSCOVIUM", 115); ("LIVERMORIUM", 116); ("TENNESSINE", 117); ("OGANESSON", 118)].

(** zsl_chem_atom_weight, src/chemistry.c:13-133, in units of 1e-4 *)
Definition atom_weights : list Z :=
  [0; 10079; 40026; 69410; 90122; 108110; 120107; 140067; 159994; 189984;
   201797; 229897; 243050; 269815; 280855; 309738; 320650; 354530; 399480; 390983;
   400780; 449559; 478670; 509415; 519961; 549380; 558450; 589332; 586934; 635460;
   653900; 697230; 726400; 749216; 789600; 799040; 838000; 854678; 876200; 889059;
   912240; 929064; 959400; 980000; 1010700; 1029055; 1064200; 1078682; 1124110; 1148180;
   1187100; 1217600; 1276000; 1269045; 1312930; 1329055; 1373270; 1389055; 1401160; 1409077;
   1442400; 1450000; 1503600; 1519640; 1572500; 1589253; 1625000; 1649303; 1672590; 1689342;
   1730400; 1749670; 1784900; 1809479; 1838400; 1862070; 1902300; 1922170; 1950780; 1969665;
   2005900; 2043833; 2072000; 2089804; 2090000; 2100000; 2220000; 2230000; 2260000; 2270000;
   2320381; 2310359; 2380289; 2370000; 2440000; 0; 0; 0; 0; 0;
   0; 0; 0; 0; 0; 0; 0; 0; 0; 0;
   0; 0; 0; 0; 0; 0; 0; 0; 0].

(** zsl_chem_atom_weight[i], src/chemistry.c:13-133: the array has 119 entries;
    reading elsewhere is undefined *)
Definition atom_weight (i : Z) : outcome Z :=
  if (i <? 0)%Z then UB OOBRead else
  match nth_error atom_weights (Z.to_nat i) with Some w => Ok w | None => UB OOBRead end.
