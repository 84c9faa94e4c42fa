{
 "claims": [
  {
   "property": "C01",
   "status": "proved",
   "theorems": [
    "C01_memcmp_lexicographic",
    "C01_memcmp_var_lexicographic",
    "C01_memequal_exact"
   ],
   "note": ""
  },
  {
   "property": "C02",
   "status": "proved",
   "theorems": [
    "C02_memxor_bytewise",
    "C02_memxor_length",
    "C02_memxor_involutive",
    "C02_memxor3_bytewise",
    "C02_memxor3_length"
   ],
   "note": ""
  },
  {
   "property": "C03",
   "status": "proved",
   "theorems": [
    "C03_murmur3_is_published_function",
    "C03_murmur3_tweak_seed"
   ],
   "note": "All inputs; the in-bounds part is implicit in the list model (every index read is below the length)."
  },
  {
   "property": "C04",
   "status": "proved",
   "theorems": [
    "C04_base16_encode_is_hex",
    "C04_base16_decode_exact",
    "C04_base16_roundtrip",
    "C04_base16_test_exact",
    "C04_base16le_decode_exact",
    "C04_base16le_roundtrip"
   ],
   "note": ""
  },
  {
   "property": "C05",
   "status": "proved",
   "theorems": [
    "C05_base32_encode_is_rfc4648",
    "C05_base32hex_encode_is_rfc4648",
    "C05_base32_decode_exact",
    "C05_base32hex_decode_exact",
    "C05_base32_test_exact"
   ],
   "note": "Decoding theorems are for the flag values 0 and 1 and strings shorter than 2^63."
  },
  {
   "property": "C06",
   "status": "proved",
   "theorems": [
    "C06_base58_encode_exact",
    "C06_base58_decode_exact",
    "C06_base58_bijective",
    "C06_base58_total",
    "C06_base58_never_aborts",
    "C06_base58_test_exact"
   ],
   "note": "Includes that the internal assertion cannot fail."
  },
  {
   "property": "C07",
   "status": "proved",
   "theorems": [
    "C07_base64_encode_is_rfc4648",
    "C07_base64url_encode_is_rfc4648",
    "C07_base64_decode_exact",
    "C07_base64url_decode_exact",
    "C07_base64_test_exact"
   ],
   "note": ""
  },
  {
   "property": "C08",
   "status": "proved",
   "theorems": [
    "C08_base16_sizes",
    "C08_base32_encode_size",
    "C08_base32_decode_size",
    "C08_base58_sizes",
    "C08_base64_encode_size",
    "C08_base64_decode_size"
   ],
   "note": ""
  },
  {
   "property": "C09",
   "status": "proved",
   "theorems": [
    "C09_bech32_serialize_exact",
    "C09_bech32_deserialize_exact",
    "C09_bech32_roundtrip",
    "C09_bech32_canonical",
    "C09_table_index_in_range"
   ],
   "note": "Exact characterisation of serializer and deserializer, round trip, canonical form, table index range. The checksum constant must be below 2^30."
  },
  {
   "property": "C10",
   "status": "proved",
   "theorems": [
    "C10_bech32_detects_four",
    "C10_bech32_separator_refuted"
   ],
   "note": "All patterns of up to four substitutions over the full length. Finding: if one substitute is '1' the separator moves and four substitutions can give another valid string."
  },
  {
   "property": "C11",
   "status": "proved",
   "theorems": [
    "C11_bech32_encode_exact",
    "C11_bech32_decode_exact",
    "C11_bech32_encode_total",
    "C11_bech32_address_roundtrip",
    "C11_bech32_address_canonical"
   ],
   "note": "Exact characterisation, totality up to 90 characters, round trip, canonical form. Finding: version 17..31 is accepted, as in the code."
  },
  {
   "property": "C12",
   "status": "proved",
   "theorems": [
    "C12_cash32_serialize_exact",
    "C12_cash32_deserialize_exact",
    "C12_cash32_encode_exact",
    "C12_cash32_decode_exact",
    "C12_cash32_address_roundtrip",
    "C12_cash32_address_canonical"
   ],
   "note": "Exact characterisation of all four functions, round trip, canonical form with or without the prefix."
  },
  {
   "property": "C13",
   "status": "proved",
   "theorems": [
    "C13_cash32_detects_four",
    "C13_cash32_colon_refuted"
   ],
   "note": "All patterns of up to four substitutions over the full length. Finding: if one substitute is ':' in an address without prefix, four substitutions can give another valid string."
  },
  {
   "property": "C14",
   "status": "proved",
   "theorems": [
    "C14_write_mpz_is_der",
    "C14_write_mpz_abort",
    "C14_mpz_roundtrip",
    "C14_int_roundtrip",
    "C14_seq_roundtrip",
    "C14_seq_wrong_size",
    "C14_version_roundtrip",
    "C14_dumb_roundtrip"
   ],
   "note": "Readers and writers exact; mpz is a mathematical integer."
  },
  {
   "property": "C15",
   "status": "proved",
   "theorems": [
    "C15_strict_mpz_canonical",
    "C15_strict_int_canonical",
    "C15_strict_seq_canonical",
    "C15_strict_size_canonical",
    "C15_pair_unique",
    "C15_lax_mpz_exact"
   ],
   "note": "Strict mode characterised exactly for sizes, integers and sequences. Finding: asn1_read_mpz passes strict=1 to asn1_read_size even in lax mode (C15_lax_mpz_exact)."
  },
  {
   "property": "C16",
   "status": "proved",
   "theorems": [
    "C16_readers_in_bounds"
   ],
   "note": "A read past the end is a distinct result (ROob) that is proved unreachable."
  },
  {
   "property": "C17",
   "status": "proved",
   "theorems": [
    "C17_arc4_chunks",
    "C17_arc4_inverse",
    "C17_chacha20_chunks",
    "C17_salsa20_chunks",
    "C17_chacha20_inverse",
    "C17_salsa20_inverse"
   ],
   "note": ""
  },
  {
   "property": "C18",
   "status": "proved",
   "theorems": [
    "C18_arc4_permutation",
    "C18_arc4_accepts"
   ],
   "note": ""
  },
  {
   "property": "C19",
   "status": "proved",
   "theorems": [
    "C19_chacha20_accepts",
    "C19_chacha20_nonce8",
    "C19_chacha20_nonce12",
    "C19_nonce12_overflow_refuted",
    "C19_chacha20_nonce16",
    "C19_xchacha20",
    "C19_rounds_injective"
   ],
   "note": "The 12-byte-nonce keystream is the RFC one until the 32-bit counter overflows; past that the counter carries into the nonce (C19_nonce12_overflow_refuted)."
  },
  {
   "property": "C20",
   "status": "partial",
   "theorems": [
    "C20_salsa20_nonce8",
    "C20_salsa20_distinct",
    "C20_salsa20_period",
    "C20_salsa20_nonce12_refuted",
    "C20_xsalsa20"
   ],
   "note": "Proved for 8-byte (and hence 24-byte) nonces. False for 12-byte nonces: the low counter word is the last nonce word (C20_salsa20_nonce12_refuted). 16-byte nonces embed the counter in the nonce by design."
  },
  {
   "property": "C21",
   "status": "proved",
   "theorems": [
    "C21_poly1305_64",
    "C21_poly1305_32"
   ],
   "note": "The 128-bit products are modelled as in the __int128 branch; the _umul128 branch is not modelled separately."
  },
  {
   "property": "C22",
   "status": "proved",
   "theorems": [
    "C22_poly1305_pad_64",
    "C22_poly1305_pad_32",
    "C22_coefficients_injective"
   ],
   "note": ""
  },
  {
   "property": "C23",
   "status": "proved",
   "theorems": [
    "C23_siphash_2_4",
    "C23_siphash_mod",
    "C23_siphash128",
    "C23_siphash256"
   ],
   "note": "siphash128_sum and siphash256_sum are the one-word variants the header documents, not SipHash-2-4 of a byte string."
  },
  {
   "property": "C24",
   "status": "proved",
   "theorems": [
    "C24_rfc8439_64",
    "C24_rfc8439_32",
    "C24_nonce8",
    "C24_extended_nonce",
    "C24_round_trip",
    "C24_aead_data_injective"
   ],
   "note": "12-byte nonces within the RFC limit of 2^38-64 bytes; 8-byte nonces up to 2^64 bytes; every accepted nonce length for the round trip."
  },
  {
   "property": "C25",
   "status": "proved",
   "theorems": [
    "C25_seal",
    "C25_open_exact",
    "C25_round_trip",
    "C25_short",
    "C25_derive"
   ],
   "note": "secretbox_open writes the decryption to msg even when it returns 0."
  },
  {
   "property": "C26",
   "status": "proved",
   "theorems": [
    "C26_aes_standard",
    "C26_aes",
    "C26_aes_sizes",
    "C26_blowfish",
    "C26_arc2",
    "C26_arc2_block",
    "C26_camellia",
    "C26_cast5",
    "C26_des",
    "C26_des_ede",
    "C26_des_ede3",
    "C26_des_ede_single",
    "C26_idea",
    "C26_idea_mul",
    "C26_serpent",
    "C26_serpent_boxes",
    "C26_serpent_unboxes",
    "C26_twofish",
    "C26_sizes"
   ],
   "note": ""
  },
  {
   "property": "C27",
   "status": "proved",
   "theorems": [
    "C27_unpad_accepts_iff_canonical",
    "C27_pad_then_unpad",
    "C27_pad_full"
   ],
   "note": ""
  },
  {
   "property": "C28",
   "status": "proved",
   "theorems": [
    "C28_ecb_roundtrip",
    "C28_alignment",
    "C28_cbc_roundtrip",
    "C28_grouping"
   ],
   "note": ""
  },
  {
   "property": "C29",
   "status": "proved",
   "theorems": [
    "C29_stealing"
   ],
   "note": "CBC-CTS and XTS through the stream API, any length of at least one block"
  },
  {
   "property": "C30",
   "status": "proved",
   "theorems": [
    "C30_xts_roundtrip",
    "C30_shift_is_mulx"
   ],
   "note": ""
  },
  {
   "property": "C31",
   "status": "proved",
   "theorems": [
    "C31_streams_are_the_modes",
    "C31_chunking",
    "C31_roundtrip"
   ],
   "note": ""
  },
  {
   "property": "C32",
   "status": "proved",
   "theorems": [
    "C32_table_mul_is_field_mul",
    "C32_ghash_any_chunking"
   ],
   "note": "GHASH under the CMUL-free table path; any chunking of AAD and data, data below 2^64 bytes."
  },
  {
   "property": "C33",
   "status": "proved",
   "theorems": [
    "C33_gcm_encrypt",
    "C33_gcm_roundtrip",
    "C33_eax_encrypt",
    "C33_eax_roundtrip",
    "C33_eax_empty_nonce",
    "C33_ccm_encrypt",
    "C33_ccm_roundtrip",
    "C33_ccm_width_total",
    "C33_ccm_rejects"
   ],
   "note": "GCM, EAX and CCM equal SP 800-38D, the EAX paper and RFC 3610 for any chunking, with decryption inverting and equal tags. CCM: tag checked by the caller; message length passed to setup must be the true one."
  },
  {
   "property": "C34",
   "status": "partial",
   "theorems": [
    "C34_short_nonce_refuted",
    "C34_long_nonce_refuted",
    "C34_fixed_length_nonces"
   ],
   "note": "False as stated: nonces are zero-padded or cut to 15-L bytes (C34_short_nonce_refuted, C34_long_nonce_refuted). Proved for distinct nonces of one length that fit."
  },
  {
   "property": "C35",
   "status": "proved",
   "theorems": [
    "C35_aead_sizes",
    "C35_chunking",
    "C35_update_size",
    "C35_final_size"
   ],
   "note": "all modes; chunking of the AEAD modes follows from C36_*_seal/open, whose results depend only on the concatenation; sizes for CCM are not stated separately"
  },
  {
   "property": "C36",
   "status": "proved",
   "theorems": [
    "C36_gcm_seal",
    "C36_gcm_open",
    "C36_gcm_roundtrip",
    "C36_eax_seal",
    "C36_eax_open",
    "C36_eax_roundtrip",
    "C36_ccm_seal",
    "C36_ccm_open",
    "C36_ccm_roundtrip",
    "C36_encrypt",
    "C36_decrypt",
    "C36_padding_exact"
   ],
   "note": "all modes, including tag checking for GCM, EAX and CCM"
  },
  {
   "property": "C37",
   "status": "proved",
   "theorems": [
    "C37_chunking",
    "C37_value",
    "C37_blake2b_keyed",
    "C37_blake2s_keyed"
   ],
   "note": ""
  },
  {
   "property": "C38",
   "status": "proved",
   "theorems": [
    "C38_padding",
    "C38_injective"
   ],
   "note": ""
  },
  {
   "property": "C39",
   "status": "proved",
   "theorems": [
    "C39_sha256",
    "C39_sha512",
    "C39_sha1",
    "C39_digests"
   ],
   "note": ""
  },
  {
   "property": "C40",
   "status": "partial",
   "theorems": [
    "C40_permutation",
    "C40_sponge_partial",
    "C40_sponge_refuted",
    "C40_long_output_aborts"
   ],
   "note": "Exact for every output length up to the rate. False beyond it: keccak_final squeezes once, so lengths above the rate (up to 200) emit capacity lanes; lengths above 200 abort."
  },
  {
   "property": "C41",
   "status": "proved",
   "theorems": [
    "C41_hmac"
   ],
   "note": ""
  },
  {
   "property": "C42",
   "status": "proved",
   "theorems": [
    "C42_hkdf_extract",
    "C42_hkdf_expand",
    "C42_pbkdf2",
    "C42_lengths"
   ],
   "note": ""
  },
  {
   "property": "C43",
   "status": "partial",
   "theorems": [
    "C43_terminates",
    "C43_iterated_partial",
    "C43_iterated_refuted"
   ],
   "note": "eb2k and the simple and salted PGP forms always return; the iterated form returns unless salt and passphrase are both empty and output is requested, when its inner loop never ends (C43_iterated_refuted)."
  },
  {
   "property": "C44",
   "status": "proved",
   "theorems": [
    "C44_decode_encode",
    "C44_verify_generate",
    "C44_no_overread",
    "C44_wraps",
    "C44_binding_refuted",
    "C44_record_unique_refuted"
   ],
   "note": ""
  },
  {
   "property": "C45",
   "status": "proved",
   "theorems": [
    "C45_ctr_drbg_aes",
    "C45_hmac_drbg",
    "C45_hash_drbg",
    "C45_ctr_drbg"
   ],
   "note": ""
  },
  {
   "property": "C46",
   "status": "partial",
   "theorems": [
    "C46_no_truncation",
    "C46_seed_bytes_refuted"
   ],
   "note": "refuted as stated: bytes past 512 (derivation) or past seedlen (no derivation) are dropped (C46_seed_bytes_refuted); injective encoding below that bound (C46_no_truncation)"
  },
  {
   "property": "C47",
   "status": "proved",
   "theorems": [
    "C47_unbiased",
    "C47_half",
    "C47_uniform",
    "C47_range",
    "C47_terminates"
   ],
   "note": ""
  },
  {
   "property": "C48",
   "status": "proved",
   "theorems": [
    "C48_each_word_once",
    "C48_queue",
    "C48_erased",
    "C48_seed",
    "C48_fork",
    "C48_same_pid",
    "C48_started"
   ],
   "note": ""
  },
  {
   "property": "C49",
   "status": "proved",
   "theorems": [
    "C49_add",
    "C49_sub",
    "C49_add_1",
    "C49_sub_1",
    "C49_sec_add_sub_1",
    "C49_mul_1",
    "C49_mul",
    "C49_sqr",
    "C49_mul_half_limbs",
    "C49_shift",
    "C49_neg",
    "C49_compare",
    "C49_sub_mod"
   ],
   "note": "Limb width is a parameter; the assembly and wide-integer macros are covered by their value (hi, lo), the half-limb macros are proved equal to it."
  },
  {
   "property": "C50",
   "status": "proved",
   "theorems": [
    "C50_divmod",
    "C50_divmod_1",
    "C50_div_2by1",
    "C50_div_half_limbs",
    "C50_mpz_quorem",
    "C50_mpz_divmod",
    "C50_mpz_by_zero",
    "C50_mpz_quo_word",
    "C50_mpz_div_word"
   ],
   "note": "Limb-level and signed division; the 3-by-2 step is compiled out in this build and not modelled"
  },
  {
   "property": "C51",
   "status": "proved",
   "theorems": [
    "C51_canonical",
    "C51_add_sub",
    "C51_add_sub_ui",
    "C51_add_sub_si",
    "C51_mul",
    "C51_mul_ui_si",
    "C51_sqr",
    "C51_addmul_submul",
    "C51_addmul_submul_ui_si",
    "C51_neg_abs",
    "C51_set",
    "C51_compare",
    "C51_compare_ui_si",
    "C51_bitlen"
   ],
   "note": ""
  },
  {
   "property": "C52",
   "status": "partial",
   "theorems": [
    "C52_and_ior_xor",
    "C52_com",
    "C52_word_ui",
    "C52_word_si",
    "C52_tstbit",
    "C52_shifts",
    "C52_setbit",
    "C52_clrbit",
    "C52_combit",
    "C52_setbit_refuted",
    "C52_clrbit_refuted"
   ],
   "note": "Everything proved except setbit/clrbit/combit on negative values divisible by a high power of two, which is refuted with witnesses"
  },
  {
   "property": "C53",
   "status": "proved",
   "theorems": [
    "C53_gcd",
    "C53_lcm",
    "C53_gcdext",
    "C53_invert",
    "C53_invert_small"
   ],
   "note": "Binary gcd, Bezout coefficients and inverses on integer values, with termination. For |y| <= 1 mpz_invert always fails (C53_invert_small)."
  },
  {
   "property": "C54",
   "status": "proved",
   "theorems": [
    "C54_inv_mod",
    "C54_montmul",
    "C54_mont",
    "C54_barrett",
    "C54_powm_limbs",
    "C54_sec_powm_limbs",
    "C54_powm",
    "C54_powm_sec",
    "C54_powm_by_zero",
    "C54_sec_invert"
   ],
   "note": ""
  },
  {
   "property": "C55",
   "status": "proved",
   "theorems": [
    "C55_rootrem",
    "C55_rootrem_domain",
    "C55_sqrtrem",
    "C55_perfect_square",
    "C55_pow_ui",
    "C55_jacobi",
    "C55_jacobi_prime",
    "C55_jacobi_abort",
    "C55_sqrtm_sound",
    "C55_sqrtm_complete"
   ],
   "note": "Roots, powers, perfect squares exact; mpz_jacobi is the product of Legendre symbols (quadratic reciprocity proved); square roots modulo odd primes sound and complete, including Tonelli-Shanks termination."
  },
  {
   "property": "C56",
   "status": "proved",
   "theorems": [
    "C56_import",
    "C56_export",
    "C56_bytelen",
    "C56_import_export",
    "C56_export_import",
    "C56_sign_refuted",
    "C56_set_str",
    "C56_get_str",
    "C56_sizeinbase",
    "C56_get_str_aborts",
    "C56_str_roundtrip"
   ],
   "note": ""
  },
  {
   "property": "C57",
   "status": "proved",
   "theorems": [
    "C57_key_check",
    "C57_pub_check",
    "C57_no_faulty_result",
    "C57_private_op",
    "C57_inverts_encryption",
    "C57_encrypt_of_decrypt"
   ],
   "note": ""
  },
  {
   "property": "C58",
   "status": "proved",
   "theorems": [
    "C58_verify_exact",
    "C58_encoding_unique",
    "C58_sign_verify",
    "C58_sign_succeeds",
    "C58_digest_info",
    "C58_gost_oid_refuted",
    "C58_no_domain_separation_refuted"
   ],
   "note": "Verification accepts exactly the unique EMSA-PKCS1-v1_5 encoding, signing verifies, DigestInfo prefixes are the DER of the registered OIDs. Findings: the GOST94 row carries the OID of the signature algorithm (C58_gost_oid_refuted); digests without a prefix are distinguished only by size (C58_no_domain_separation_refuted)."
  },
  {
   "property": "C59",
   "status": "proved",
   "theorems": [
    "C59_unpad_exact",
    "C59_decrypt_sound",
    "C59_encrypt_decrypt",
    "C59_decrypt_key"
   ],
   "note": ""
  },
  {
   "property": "C60",
   "status": "proved",
   "theorems": [
    "C60_mgf1",
    "C60_encode",
    "C60_decode_exact",
    "C60_roundtrip",
    "C60_sound",
    "C60_hashes"
   ],
   "note": ""
  },
  {
   "property": "C61",
   "status": "proved",
   "theorems": [
    "C61_encode",
    "C61_pss_exact",
    "C61_verify_pss_exact",
    "C61_sign_verify",
    "C61_zero_salt_is_auto_refuted"
   ],
   "note": ""
  },
  {
   "property": "C62",
   "status": "proved",
   "theorems": [
    "C62_veil_unveil",
    "C62_veil_succeeds"
   ],
   "note": ""
  },
  {
   "property": "C63",
   "status": "proved",
   "theorems": [
    "C63_reduce",
    "C63_verify_exact",
    "C63_sign_rfc6979",
    "C63_sign_deterministic",
    "C63_sign_succeeds",
    "C63_sign_verify",
    "C63_derive_agree",
    "C63_derive_sound"
   ],
   "note": ""
  },
  {
   "property": "C64",
   "status": "proved",
   "theorems": [
    "C64_naf",
    "C64_naf_signed",
    "C64_jsf",
    "C64_windows",
    "C64_minimize",
    "C64_split",
    "C64_split_secp256k1"
   ],
   "note": ""
  },
  {
   "property": "C65",
   "status": "proved",
   "theorems": [
    "C65_ed_group",
    "C65_ed_formulas",
    "C65_ed_mixed",
    "C65_ed_validate",
    "C65_ed_normalize",
    "C65_ed_mul",
    "C65_mont_group",
    "C65_mge_add",
    "C65_mge_dbl",
    "C65_mge_sub",
    "C65_mge_neg",
    "C65_mge_equal",
    "C65_mge_validate",
    "C65_mge_set_xy",
    "C65_mge_set_x",
    "C65_pge_set_mge",
    "C65_pge_dbl",
    "C65_pge_ladder",
    "C65_pge_equal",
    "C65_pge_is_zero",
    "C65_pge_validate",
    "C65_pge_set_x",
    "C65_mge_set_pge",
    "C65_group",
    "C65_affine",
    "C65_affine_var",
    "C65_jacobian_var",
    "C65_jacobian",
    "C65_mixed",
    "C65_convert",
    "C65_convert_back",
    "C65_convert_all",
    "C65_equal",
    "C65_jequal"
   ],
   "note": "Weierstrass (affine, Jacobian, mixed, unified) formulas are chord-and-tangent addition; extended Edwards formulas are Edwards addition on every complete curve; Montgomery affine and x-only formulas are the Montgomery group law."
  },
  {
   "property": "C66",
   "status": "partial",
   "theorems": [
    "C66_import_exact",
    "C66_verify_exact",
    "C66_sign",
    "C66_sign_total",
    "C66_sign_verifies",
    "C66_sign_recovers",
    "C66_normalize",
    "C66_is_low",
    "C66_negated_s",
    "C66_zero_s_refuted"
   ],
   "note": "Verification exact; nonces are RFC 6979; s low; signatures verify and recover, except that the statement is false for s = 0 (C66_zero_s_refuted): ecdsa_sign never retries on s = 0 and verify then refuses. Compressed keys and recovery for p = 3 mod 4 (secp256k1, P-192/256/384/521); recovery when p / n <= 1 as in every curve of the table."
  },
  {
   "property": "C67",
   "status": "proved",
   "theorems": [
    "C67_roundtrip",
    "C67_strict_exact",
    "C67_canonical",
    "C67_lax_in_bounds"
   ],
   "note": "Strict import decides DER exactly, round trip, canonical, no out-of-bounds read."
  },
  {
   "property": "C68",
   "status": "proved",
   "theorems": [
    "C68_bipschnorr_verify_exact",
    "C68_bipschnorr_sign",
    "C68_bipschnorr_sign_verifies",
    "C68_bipschnorr_batch_valid",
    "C68_bipschnorr_batch_one_invalid",
    "C68_bipschnorr_batch_exact",
    "C68_eddsa_verify_exact",
    "C68_eddsa_single_exact",
    "C68_eddsa_strict_loose",
    "C68_eddsa_loose_strict",
    "C68_eddsa_create",
    "C68_eddsa_sign",
    "C68_eddsa_sign_with_scalar",
    "C68_eddsa_sign_verifies",
    "C68_eddsa_sign_tweak",
    "C68_eddsa_batch_valid",
    "C68_eddsa_batch_one_invalid",
    "C68_eddsa_batch_exact",
    "C68_bip340_verify_exact",
    "C68_bip340_sign",
    "C68_bip340_sign_verifies",
    "C68_bip340_batch_valid",
    "C68_bip340_batch_one_invalid",
    "C68_bip340_batch_exact"
   ],
   "note": "BIP-Schnorr, BIP340 and EdDSA: verification exact (strict and cofactored), signatures are the specified ones and verify, batches accept valid lists and refuse any single forgery."
  },
  {
   "property": "C69",
   "status": "partial",
   "theorems": [
    "C69_ecdsa_derive_agrees",
    "C69_create",
    "C69_tweak_add",
    "C69_tweak_mul",
    "C69_negate",
    "C69_invert",
    "C69_combine",
    "C69_eddsa_pubkey_exact",
    "C69_eddsa_derive_agrees",
    "C69_eddsa_derive",
    "C69_eddsa_derive_small",
    "C69_eddsa_derive_torsion",
    "C69_eddsa_scalars",
    "C69_eddsa_tweak_add",
    "C69_eddsa_tweak_mul",
    "C69_eddsa_tweak_mul_cut",
    "C69_eddsa_pubkeys",
    "C69_eddsa_combine",
    "C69_eddsa_small",
    "C69_eddsa_torsion",
    "C69_eddsa_tweak_mul_refuted",
    "C69_ecdh_agree",
    "C69_bip340_create",
    "C69_bip340_pubkey_exact",
    "C69_bip340_derive_agrees",
    "C69_bip340_tweak_add",
    "C69_bip340_tweak_add_infinity",
    "C69_bip340_tweak_mul",
    "C69_bip340_tweak_checks",
    "C69_bip340_export"
   ],
   "note": "ECDSA, BIP340, EdDSA and Montgomery ECDH: derive agrees; tweaks, negation and sums commute with public keys; eddsa_pubkey_tweak_mul does so only below 2^(4 ceil(bits/4)) (C69_eddsa_tweak_mul_refuted)."
  },
  {
   "property": "C70",
   "status": "proved",
   "theorems": [
    "C70_scrypt",
    "C70_rejects",
    "C70_power_of_two"
   ],
   "note": ""
  },
  {
   "property": "C71",
   "status": "proved",
   "theorems": [
    "C71_eb2k",
    "C71_salted",
    "C71_iterated"
   ],
   "note": ""
  },
  {
   "property": "C72",
   "status": "proved",
   "theorems": [
    "C72_bcrypt_pbkdf"
   ],
   "note": ""
  },
  {
   "property": "C73",
   "status": "proved",
   "theorems": [
    "C73_mr_accepts_primes",
    "C73_trial",
    "C73_table",
    "C73_lucas",
    "C73_probab_prime",
    "C73_probab_prime_5",
    "C73_probab_prime_rejects",
    "C73_probab_prime_accepts"
   ],
   "note": ""
  },
  {
   "property": "C74",
   "status": "proved",
   "theorems": [
    "C74_factorial",
    "C74_multifactorial",
    "C74_binomial",
    "C74_binomial_neg",
    "C74_fib",
    "C74_lucas",
    "C74_fib_zero_refuted"
   ],
   "note": "At n = 0 the companion values are 0 rather than F(-1), L(-1): C74_fib_zero_refuted."
  },
  {
   "property": "C75",
   "status": "proved",
   "theorems": [
    "C75_recover_impossible",
    "C75_recover_refuted"
   ],
   "note": "A defect, proved as a universal failure and witnessed by a concrete valid key. Soundness of what the function does return is C76_from_ned."
  },
  {
   "property": "C76",
   "status": "proved",
   "theorems": [
    "C76_priv_roundtrip",
    "C76_priv_canonical",
    "C76_pub_roundtrip",
    "C76_pub_canonical",
    "C76_dumb_roundtrip",
    "C76_from_pqe",
    "C76_from_pqe_complete",
    "C76_from_pqd",
    "C76_from_ned",
    "C76_import_valid",
    "C76_generate",
    "C76_generate_no_assert"
   ],
   "note": ""
  },
  {
   "property": "C77",
   "status": "proved",
   "theorems": [
    "C77_priv_roundtrip",
    "C77_pub_roundtrip",
    "C77_group_roundtrip",
    "C77_canonical",
    "C77_sig_convert",
    "C77_sig_convert_back",
    "C77_privkey_import",
    "C77_group_check",
    "C77_priv_check",
    "C77_generate",
    "C77_create"
   ],
   "note": ""
  },
  {
   "property": "C78",
   "status": "proved",
   "theorems": [
    "C78_init",
    "C78_mul_g",
    "C78_mul",
    "C78_mul_double",
    "C78_mul_multi",
    "C78_ed_init",
    "C78_ed_mul_g",
    "C78_ed_mul_double",
    "C78_ed_mul_multi",
    "C78_ed_mul_cofactor"
   ],
   "note": "Every context reachable from wei_init / edwards_init by randomisation; constants enter through good_def and good_ed."
  },
  {
   "property": "C79",
   "status": "proved",
   "theorems": [
    "C79_enc_injective",
    "C79_import_exact",
    "C79_export",
    "C79_import_export"
   ],
   "note": ""
  },
  {
   "property": "C80",
   "status": "partial",
   "theorems": [
    "C80_domain_injective",
    "C80_domain",
    "C80_context_cut",
    "C80_long_context_refuted"
   ],
   "note": "Contexts up to 255 octets: domain strings injective and exactly what is hashed. Beyond, eddsa_hash_init silently cuts the context, so distinct contexts are interchangeable: C80_long_context_refuted."
  },
  {
   "property": "C81",
   "status": "proved",
   "theorems": [
    "C81_ladder",
    "C81_ladder_zero",
    "C81_ladder_even",
    "C81_init",
    "C81_clamp",
    "C81_enc_dec",
    "C81_create",
    "C81_create_abort",
    "C81_create_total",
    "C81_create_aborts",
    "C81_derive",
    "C81_derive_covers",
    "C81_derive_small",
    "C81_pubkey_verify",
    "C81_pubkey_is_small",
    "C81_pubkey_has_torsion",
    "C81_pubkey_export",
    "C81_create_refuted"
   ],
   "note": "create cannot be total: C81_create_refuted and C81_create_aborts show the assertion fails on the octets of h n whenever that is a clamped scalar, which is the case for X448 (C81_x448_ex); C81_create_total covers X25519."
  },
  {
   "property": "C82",
   "status": "proved",
   "theorems": [
    "C82_init",
    "C82_bijection",
    "C82_homomorphism",
    "C82_multiple",
    "C82_mont_to_edwards",
    "C82_edwards_to_mont",
    "C82_isogeny_on",
    "C82_isogeny_code",
    "C82_eddsa_convert_448",
    "C82_eddsa_convert",
    "C82_ecdh_convert",
    "C82_key_round_trip",
    "C82_key_round_trip"
   ],
   "note": ""
  },
  {
   "property": "C83",
   "status": "partial",
   "theorems": [
    "C83_mont_elligator2",
    "C83_mont_invert2",
    "C83_mont_preimages",
    "C83_mont_uniform",
    "C83_mont_from_hash",
    "C83_mont_hash_partial",
    "C83_edwards_elligator2",
    "C83_edwards_invert2",
    "C83_edwards_uniform",
    "C83_edwards_from_hash",
    "C83_edwards_hash_partial",
    "C83_sswu",
    "C83_sswu_inverse",
    "C83_svdw",
    "C83_svdw_inverse",
    "C83_wei_uniform",
    "C83_wei_from_hash",
    "C83_wei_hash",
    "C83_mont_zero_refuted",
    "C83_mont_hash_refuted",
    "C83_edwards_hash_refuted",
    "C83_sswu_zero_refuted",
    "C83_svdw_zero_refuted"
   ],
   "note": "The soundness of mont_point_to_hash and edwards_point_to_hash is proved when no draw maps to a point of order two, and refuted otherwise (continue in a do loop); the case u = 0 of the inverses is refuted. On Weierstrass curves without points of order two the loop is proved sound. Fields with p = 1 mod 8 (P224) are not covered."
  },
  {
   "property": "C84",
   "status": "proved",
   "theorems": [
    "C84_kronecker",
    "C84_kronecker_zero",
    "C84_kronecker_values",
    "C84_kronecker_mul",
    "C84_kronecker_mul_lower",
    "C84_kronecker_jacobi",
    "C84_legendre",
    "C84_legendre_abort"
   ],
   "note": ""
  },
  {
   "property": "C85",
   "status": "proved",
   "theorems": [
    "C85_urandomm",
    "C85_uniform",
    "C85_accepted",
    "C85_urandomm_zero",
    "C85_urandomb"
   ],
   "note": ""
  },
  {
   "property": "C86",
   "status": "proved",
   "theorems": [
    "C86_eddsa_import",
    "C86_eddsa_import_unique",
    "C86_eddsa_import_point",
    "C86_ecdh_import",
    "C86_pubkey_import",
    "C86_pubkey_import_unique",
    "C86_pubkey_export",
    "C86_pubkey_roundtrip",
    "C86_privkey_import",
    "C86_bip340_import",
    "C86_bip340_export",
    "C86_bip340_add",
    "C86_bip340_add_bad",
    "C86_bip340_combine",
    "C86_bip340_combine_bad"
   ],
   "note": ""
  },
  {
   "property": "C87",
   "status": "proved",
   "theorems": [
    "C87_generate",
    "C87_pubkey_grind",
    "C87_pubkey_grind_bad",
    "C87_pubkey_grind_tweak",
    "C87_privkey_grind",
    "C87_privkey_grind_ends",
    "C87_bip340_pubkey_grind",
    "C87_bip340_pubkey_grind_bad",
    "C87_bip340_privkey_grind"
   ],
   "note": ""
  },
  {
   "property": "C88",
   "status": "proved",
   "theorems": [
    "C88_direction",
    "C88_tag_after_final",
    "C88_no_tag_no_success",
    "C88_padding_locked",
    "C88_padding_modes"
   ],
   "note": ""
  },
  {
   "property": "C89",
   "status": "proved",
   "theorems": [
    "C89_keys",
    "C89_blocks",
    "C89_family",
    "C89_stream_roundtrip",
    "C89_aes",
    "C89_arc2_variants"
   ],
   "note": ""
  },
  {
   "property": "C90",
   "status": "proved",
   "theorems": [
    "C90_generate",
    "C90_clamped",
    "C90_grind",
    "C90_grind_create",
    "C90_grind_total"
   ],
   "note": ""
  },
  {
   "property": "C91",
   "status": "proved",
   "theorems": [
    "C91_generate",
    "C91_scalar",
    "C91_grind",
    "C91_grind_create"
   ],
   "note": ""
  },
  {
   "property": "C92",
   "status": "partial",
   "theorems": [
    "C92_keys",
    "C92_verify",
    "C92_arith",
    "C92_refused",
    "C92_import",
    "C92_from_uniform",
    "C92_generate",
    "C92_grind_partial",
    "C92_grind_zero_partial",
    "C92_grind_refuted"
   ],
   "note": "All private key functions and generation are proved. The result of ristretto_pubkey_grind is refuted: its accumulator is not initialized; proved is that it returns k plus the initial content, and that this is right when the content is zero. The encoding rge_export is any function of points; rge_import and ristretto_privkey_grind are not modelled."
  },
  {
   "property": "C93",
   "status": "proved",
   "theorems": [
    "C93_equal",
    "C93_is_zero",
    "C93_quotient",
    "C93_odd",
    "C93_a_needed"
   ],
   "note": ""
  },
  {
   "property": "C94",
   "status": "proved",
   "theorems": [
    "C94_rsqrt",
    "C94_import",
    "C94_unique",
    "C94_canonical",
    "C94_compare",
    "C94_zero"
   ],
   "note": ""
  }
 ]
}