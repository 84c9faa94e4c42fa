{
 "C03": [
  "proved",
  "All inputs; the in-bounds part is implicit in the list model (every index read is below the length)."
 ],
 "C04": [
  "proved",
  ""
 ],
 "C05": [
  "proved",
  "Decoding theorems are for the flag values 0 and 1 and strings shorter than 2^63."
 ],
 "C06": [
  "proved",
  "Includes that the internal assertion cannot fail."
 ],
 "C07": [
  "proved",
  ""
 ],
 "C08": [
  "proved",
  ""
 ],
 "C09": [
  null,
  "Exact characterisation of serializer and deserializer, round trip, canonical form, table index range. The checksum constant must be below 2^30."
 ],
 "C11": [
  null,
  "Exact characterisation, totality up to 90 characters, round trip, canonical form. Finding: version 17..31 is accepted, as in the code."
 ],
 "C12": [
  null,
  "Exact characterisation of all four functions, round trip, canonical form with or without the prefix."
 ],
 "C10": [
  null,
  "All patterns of up to four substitutions over the full length. Finding: if one substitute is '1' the separator moves and four substitutions can give another valid string."
 ],
 "C13": [
  null,
  "All patterns of up to four substitutions over the full length. Finding: if one substitute is ':' in an address without prefix, four substitutions can give another valid string."
 ],
 "C14": [
  null,
  "Readers and writers exact; mpz is a mathematical integer."
 ],
 "C15": [
  null,
  "Strict mode characterised exactly for sizes, integers and sequences. Finding: asn1_read_mpz passes strict=1 to asn1_read_size even in lax mode (C15_lax_mpz_exact)."
 ],
 "C16": [
  null,
  "A read past the end is a distinct result (ROob) that is proved unreachable."
 ],
 "C17": [
  "proved",
  ""
 ],
 "C18": [
  "proved",
  ""
 ],
 "C19": [
  "proved",
  "The 12-byte-nonce keystream is the RFC one until the 32-bit counter overflows; past that the counter carries into the nonce (C19_nonce12_overflow_refuted)."
 ],
 "C20": [
  "partial",
  "Proved for 8-byte (and hence 24-byte) nonces. False for 12-byte nonces: the low counter word is the last nonce word (C20_salsa20_nonce12_refuted). 16-byte nonces embed the counter in the nonce by design."
 ],
 "C21": [
  "proved",
  "The 128-bit products are modelled as in the __int128 branch; the _umul128 branch is not modelled separately."
 ],
 "C22": [
  "proved",
  ""
 ],
 "C23": [
  "proved",
  "siphash128_sum and siphash256_sum are the one-word variants the header documents, not SipHash-2-4 of a byte string."
 ],
 "C24": [
  "proved",
  "12-byte nonces within the RFC limit of 2^38-64 bytes; 8-byte nonces up to 2^64 bytes; every accepted nonce length for the round trip."
 ],
 "C25": [
  "proved",
  "secretbox_open writes the decryption to msg even when it returns 0."
 ],
 "C27": [
  "proved",
  ""
 ],
 "C28": [
  "proved",
  ""
 ],
 "C30": [
  "proved",
  ""
 ],
 "C31": [
  "proved",
  ""
 ],
 "C32": [
  null,
  "GHASH under the CMUL-free table path; any chunking of AAD and data, data below 2^64 bytes."
 ],
 "C33": [
  null,
  "GCM, EAX and CCM equal SP 800-38D, the EAX paper and RFC 3610 for any chunking, with decryption inverting and equal tags. CCM: tag checked by the caller; message length passed to setup must be the true one."
 ],
 "C34": [
  "partial",
  "False as stated: nonces are zero-padded or cut to 15-L bytes (C34_short_nonce_refuted, C34_long_nonce_refuted). Proved for distinct nonces of one length that fit."
 ],
 "C29": [
  null,
  "CBC-CTS and XTS through the stream API, any length of at least one block"
 ],
 "C35": [
  null,
  "all modes; chunking of the AEAD modes follows from C36_*_seal/open, whose results depend only on the concatenation; sizes for CCM are not stated separately"
 ],
 "C36": [
  null,
  "all modes, including tag checking for GCM, EAX and CCM"
 ],
 "C37": [
  null,
  ""
 ],
 "C38": [
  null,
  ""
 ],
 "C39": [
  null,
  ""
 ],
 "C41": [
  null,
  ""
 ],
 "C40": [
  "partial",
  "Exact for every output length up to the rate. False beyond it: keccak_final squeezes once, so lengths above the rate (up to 200) emit capacity lanes; lengths above 200 abort."
 ],
 "C43": [
  "partial",
  "eb2k and the simple and salted PGP forms always return; the iterated form returns unless salt and passphrase are both empty and output is requested, when its inner loop never ends (C43_iterated_refuted)."
 ],
 "C44": [
  null,
  ""
 ],
 "C26": [
  null,
  ""
 ],
 "C46": [
  "partial",
  "refuted as stated: bytes past 512 (derivation) or past seedlen (no derivation) are dropped (C46_seed_bytes_refuted); injective encoding below that bound (C46_no_truncation)"
 ],
 "C49": [
  null,
  "Limb width is a parameter; the assembly and wide-integer macros are covered by their value (hi, lo), the half-limb macros are proved equal to it."
 ],
 "C50": [
  null,
  "Limb-level and signed division; the 3-by-2 step is compiled out in this build and not modelled"
 ],
 "C51": [
  null,
  ""
 ],
 "C52": [
  "partial",
  "Everything proved except setbit/clrbit/combit on negative values divisible by a high power of two, which is refuted with witnesses"
 ],
 "C54": [
  null,
  ""
 ],
 "C53": [
  null,
  "Binary gcd, Bezout coefficients and inverses on integer values, with termination. For |y| <= 1 mpz_invert always fails (C53_invert_small)."
 ],
 "C55": [
  "proved",
  "Roots, powers, perfect squares exact; mpz_jacobi is the product of Legendre symbols (quadratic reciprocity proved); square roots modulo odd primes sound and complete, including Tonelli-Shanks termination."
 ],
 "C73": [
  null,
  ""
 ],
 "C74": [
  null,
  "At n = 0 the companion values are 0 rather than F(-1), L(-1): C74_fib_zero_refuted."
 ],
 "C57": [
  null,
  ""
 ],
 "C59": [
  null,
  ""
 ],
 "C60": [
  null,
  ""
 ],
 "C61": [
  null,
  ""
 ],
 "C62": [
  null,
  ""
 ],
 "C76": [
  null,
  ""
 ],
 "C58": [
  null,
  "Verification accepts exactly the unique EMSA-PKCS1-v1_5 encoding, signing verifies, DigestInfo prefixes are the DER of the registered OIDs. Findings: the GOST94 row carries the OID of the signature algorithm (C58_gost_oid_refuted); digests without a prefix are distinguished only by size (C58_no_domain_separation_refuted)."
 ],
 "C75": [
  null,
  "A defect, proved as a universal failure and witnessed by a concrete valid key. Soundness of what the function does return is C76_from_ned."
 ],
 "C65": [
  null,
  "Weierstrass (affine, Jacobian, mixed, unified) formulas are chord-and-tangent addition; extended Edwards formulas are Edwards addition on every complete curve; Montgomery affine and x-only formulas are the Montgomery group law."
 ],
 "C66": [
  "partial",
  "Verification exact; nonces are RFC 6979; s low; signatures verify and recover, except that the statement is false for s = 0 (C66_zero_s_refuted): ecdsa_sign never retries on s = 0 and verify then refuses. Compressed keys and recovery for p = 3 mod 4 (secp256k1, P-192/256/384/521); recovery when p / n <= 1 as in every curve of the table."
 ],
 "C67": [
  null,
  "Strict import decides DER exactly, round trip, canonical, no out-of-bounds read."
 ],
 "C69": [
  "partial",
  "ECDSA, BIP340, EdDSA and Montgomery ECDH: derive agrees; tweaks, negation and sums commute with public keys; eddsa_pubkey_tweak_mul does so only below 2^(4 ceil(bits/4)) (C69_eddsa_tweak_mul_refuted)."
 ],
 "C78": [
  null,
  "Every context reachable from wei_init / edwards_init by randomisation; constants enter through good_def and good_ed."
 ],
 "C68": [
  null,
  "BIP-Schnorr, BIP340 and EdDSA: verification exact (strict and cofactored), signatures are the specified ones and verify, batches accept valid lists and refuse any single forgery."
 ],
 "C80": [
  "partial",
  "Contexts up to 255 octets: domain strings injective and exactly what is hashed. Beyond, eddsa_hash_init silently cuts the context, so distinct contexts are interchangeable: C80_long_context_refuted."
 ],
 "C81": [
  null,
  "create cannot be total: C81_create_refuted and C81_create_aborts show the assertion fails on the octets of h n whenever that is a clamped scalar, which is the case for X448 (C81_x448_ex); C81_create_total covers X25519."
 ],
 "C83": [
  "partial",
  "The soundness of mont_point_to_hash and edwards_point_to_hash is proved when no draw maps to a point of order two, and refuted otherwise (continue in a do loop); the case u = 0 of the inverses is refuted. On Weierstrass curves without points of order two the loop is proved sound. Fields with p = 1 mod 8 (P224) are not covered."
 ],
 "C87": [
  "proved",
  ""
 ],
 "C88": [
  "proved",
  ""
 ],
 "C89": [
  "proved",
  ""
 ],
 "C90": [
  "proved",
  ""
 ],
 "C91": [
  "proved",
  ""
 ],
 "C92": [
  "partial",
  "All private key functions and generation are proved. The result of ristretto_pubkey_grind is refuted: its accumulator is not initialized; proved is that it returns k plus the initial content, and that this is right when the content is zero. The encoding rge_export is any function of points; rge_import and ristretto_privkey_grind are not modelled."
 ],
 "C93": [
  "proved",
  ""
 ],
 "C94": [
  "proved",
  ""
 ]
}