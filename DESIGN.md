# Formal model of libtorsion: design

## 1. Approach

The model is a set of total, computable Gallina functions, one per C function,
in `rocq/theories`. Each definition carries a comment with the C file and lines
it transcribes and says where it simplifies.

Conventions

* Bytes and machine words are `Z`; every C operation that wraps is written with
  an explicit `mod 2^n` (`add32`, `rotl32`, ...). Buffers are `list Z`;
  "this is a byte string" is the predicate `bytes l` (all elements in 0..255).
  `char` strings are lists of character codes (ASCII execution character set,
  the `torsion_a` branch of `torsion_ascii`).
* `size_t` lengths and loop counters are `nat` (list lengths), except where
  wrap-around matters, in which case they are `Z` with `mod 2^64`.
* Failure returns (`return 0`) are `None`/`false`; aborts (`CHECK`, `ASSERT`)
  and undefined behaviour are separate results, never identified with failure.
* Loops are structural recursion or explicit fuel; theorems exclude the
  out-of-fuel result.
* Data written through pointers is returned as a value. Aliasing (`out == in`)
  is modelled only where the text says so.
* External primitives that a layer is parametric in (block cipher permutation,
  hash function, random generator, curve group) are Section variables; the
  theorems then quantify over them and their algebraic hypotheses are stated in
  the theorem. Where the primitive itself is modelled, the instance is given.

File layout (logical name `Verif`)

* `Base/*`    words, bytes, lists, bit lemmas.
* `Model/*`   the transcribed code.
* `Spec/*`    small independent specifications used in statements.
* `Proof/*`   lemmas.
* `Props/*`   one file per area; only `Theorem ... exact lemma. Qed.`, a
              non-vacuity `Example` per theorem, and `Print Assumptions`.

## 2. Plan per property

| id | model | how proved |
|----|-------|------------|
| C01 | `torsion_memcmp`, `_var`, `memequal` with 32-bit masks | induction on length, word case split |
| C02 | `memxor`, `memxor3` | induction, `Z.lxor` algebra |
| C03 | `murmur3_sum` switch with fallthrough | equality with a block recurrence, by tail residue |
| C04 | base16/base16le encode/decode/test | 256-entry tables checked by computation, then induction on byte pairs |
| C05 | base32 (two alphabets, padding flag) | 5-byte group bijection by bit reasoning, tails by residue |
| C06 | base58 with explicit work buffer and carry assertion | radix conversion value invariant; size bound by real inequality on powers |
| C07 | base64, base64url | 3-byte group bijection, tails by residue |
| C08 | size macros | arithmetic over residues |
| C09 | bech32 serialize/deserialize/is | checksum linearity; parser inversion |
| C10 | polymod over GF(2)-linear state | linearity + kernel-computed meet-in-the-middle table |
| C11 | convert_bits, bech32_encode/decode | regrouping as base-2 expansions |
| C12 | cash32 encode/decode | as C09 |
| C13 | cash32 polymod | as C10 |
| C14-C16 | asn1.c readers/writers on lists | inversion lemmas; reader consumption bound |
| C17-C20 | stream.c state machines | keystream as a function of position, list induction |
| C21-C23 | mac.c limbs and chunking | limb invariants with explicit bounds, ring arithmetic mod 2^130-5 |
| C24-C25 | aead.c, ies.c | composition of C17, C21 |
| C26 | block ciphers of cipher.c | Feistel inversion lemma; AES by table inversion; others by round inversion; IDEA's multiplication as the group modulo 65537; Serpent's boxes against the published tables. The models of ARC2, Camellia, CAST5, DES, IDEA, Serpent and Twofish were also run against 34 vectors of test/data/cipher_vectors.h (two per variant) |
| C27 | pkcs7 | 32-bit masks, list reasoning |
| C28-C36 | cipher.c modes and stream API over an abstract block permutation | buffer invariant "state represents message so far" |
| C37-C41 | hash.c | generic block-buffer lemma; per hash compression equals specification; HMAC |
| C42-C44 | kdf.c | over abstract HMAC/hash |
| C45-C46 | drbg.c | over abstract primitives |
| C47-C48 | rand.c | counting |
| C49-C56 | mpi.c | limb lists valued in Z; loop invariants |
| C57-C62 | rsa.c | number theory in Z, byte list reasoning with abstract hash |
| C63 | dsa.c | modular algebra |
| C64 | wNAF, fixed window, comb and endomorphism recodings on integers | loop invariants over Z |
| C65, C78 | Weierstrass, Edwards and Montgomery points, tables, contexts | associativity by `nsatz`/`field` over an abstract field, instantiated at the integers modulo p; generic group lemmas for the multiplication loops |
| C66, C67 | ECDSA: sign, verify, recover, DER, tweaks | the curve group of C65 with a base point of prime order; RFC 6979 nonces from the modelled HMAC-DRBG |
| C68, C79, C80 | BIP-Schnorr, BIP340, EdDSA | as C66; encodings by little-endian value |
| C69, C81 | derive functions, Montgomery ladder | differential addition on the curve or a twist |
| C82 | maps between Montgomery and Edwards forms, key conversion | field identities by `nsatz`; the homomorphism by cases of the two addition laws. Left out: that the 4-isogenies are homomorphisms, and the round trip of ECDH keys on 448 bits, whose code is modelled |
| C83 | Elligator 2, simplified SWU, Shallue-van de Woestijne, their inverses, uniform octets, hash to curve | field identities by `nsatz` and multiplicativity of the quadratic character, for p = 3 mod 4 or 5 mod 8 (so not P224); the constants of a curve enter as the conditions the maps need. The hash loop is over arbitrary draws in place of the DRBG. Partial: the loop is unsound when a draw maps to a point of order two |
| C84 | mpz_kronecker, mpz_legendre (the variants with a machine word call them) | values in Z as in C55; the value on a factored y from the laws of the Jacobi symbol (quadratic reciprocity is proved in Proof/Reciprocity.v) |
| C85 | mpn_randomm, mpz_urandomm, mpz_urandomb | the generator is an arbitrary list of draws; None stands for a loop still running. Uniformity is a bijection between the draws that leave a value and [0, 2^s) |
| C86 | import of Weierstrass, Montgomery and Edwards keys by coordinates, export of Weierstrass keys, bip340_pubkey_add, bip340_pubkey_combine | on top of the codecs of C66 to C69; finding a second coordinate needs p = 3 mod 4 (not P224). Montgomery and Edwards curves need p = 3 mod 4 or p = 5 mod 8, and for the latter the complete addition law (no zero denominator when solving for a coordinate) |
| C87 | ecdsa_privkey_generate, the grinding of ECDSA and BIP340 keys, with the callback as any function | invariant of the loop: scalar plus counter is the number of steps modulo n; then the tweak theorems of C69. Both loops have no bound in C: the model counts draws and candidates, and the theorems hold for every count |
| C88 | the calls of cipher_stream_t as steps of a transition system; a refused call is no step | invariants over all finite runs: direction, mode and cipher never change, the tag of a decrypting stream is the last one set, a stream that looks ahead and has data keeps some |
| C89 | the cipher_t table as a tagged union over the modelled block ciphers | case by case from C26; the result is the hypothesis `family` of C28-C36 and C88, so that these hold of the real ciphers; the AES entries are FIPS 197 by C26, the ARC2 variants are compared with each other |
| C90 | ecdh_privkey_generate and ecdh_privkey_grind over the HMAC-DRBG model; fuel for the unbounded loop | induction over the candidates from the exactness of HMAC-DRBG behind C45, and C81 |
| C91 | eddsa_privkey_generate, eddsa_privkey_grind and eddsa_scalar_generate over the HMAC-DRBG model; fuel for the unbounded loop | as C90, with C68 in place of C81 |
| C92 | the ristretto private key functions over the scalar model; the search of ristretto_pubkey_grind from the decoded point, with the encoding as a function and the uninitialized scalar as a parameter | arithmetic modulo the prime n; induction over the candidates in the group; the last sentence is refuted with a witness |
| C93 | rge_equal, rge_is_zero over extended points | from the complete addition law: 2R = 0 exactly when x = 0 and 4R = 0 exactly when x = 0 or y = 0, applied to R = P - Q; `C93_a_needed` shows that with cofactor 8 the assumption a = -1 stated in ristretto_init cannot be dropped |
| C94 | fe_rsqrt, rge_import | the curve equation rewritten as x^2 V = 4 s^2, exact square roots (`isqrt_ok`), parity; cosets from C93's description of the points killed by 2 and 4 |
| C70-C72 | scrypt, eb2k, pgpdf, bcrypt_pbkdf | list reasoning over the modelled hashes |
| C73, C74 | primality tests, combinatorial functions | number theory over Z; the Lucas test by the Frobenius map of Z[x]/(x^2 - P x + 1) modulo p |
| C75-C77 | RSA and DSA keys: encoding, recovery, generation | number theory and DER lemmas; random numbers are arguments |

## 3. Trusted base

* The Coq 8.16.1 kernel, including its virtual machine (`vm_compute`).
  No kernel check is switched off and no plugin is used.
* Axioms: none. Every file of `Props` ends with a `Print Assumptions` of the
  tuple of all its theorems (one closed term mentions every theorem of the
  file, so the printed list is the union of their assumptions). Each prints
  "Closed under the global context". The standard library's axioms
  are therefore not used either.
* The transcription from C to Gallina. It was made by reading; the code is not
  run. Every definition cites the lines it transcribes.
* The small specifications in `Spec`, which say what the statements mean.
* `Succeed Definition ..._vector` items check published test vectors of the
  large primitives at build time. They are evaluated by the compiler but not
  stored in the object file, because the independent checker has no virtual
  machine and would need minutes for each. They are tests of the transcription
  and no theorem depends on them.

Assumptions that are hypotheses of theorems, not axioms:

* Curve and group theorems hold for every curve whose parameters satisfy
  `good_def`, `good_ed` or `good_mont` (p and n prime, base point of order n,
  discriminant, sizes). That the deployed constants of `ecc.c` satisfy them is
  not proved: primality of 192 to 521 bit numbers is not established here.
  The Examples instantiate the theorems with small curves for which every
  hypothesis is proved.
* Hash functions in RSA, DSA and the Schnorr schemes are those of the model
  when the code names one, and quantified functions otherwise.

### What is modelled

| source | modelled | not modelled |
|--------|----------|--------------|
| util.c | all comparison, xor and murmur functions | memzero |
| encoding.c | base16, base16le, base32 (hex), base58, base64(url), bech32, cash32 | |
| asn1.c | all readers and writers | |
| stream.c, aead.c, ies.c | all (ARC4, ChaCha20, Salsa20, ChaCha20-Poly1305, secretbox) | memzero |
| mac.c | Poly1305 (64 and 32 bit), SipHash variants | the `_umul128` emulation |
| cipher.c | every block cipher (AES, ARC2, Blowfish, Camellia, CAST5, DES, 3DES, IDEA, Serpent, Twofish), PKCS#7, all modes and the cipher_stream API over any block cipher, the cipher_t dispatch | enumerators outside the enumeration |
| hash.c | every hash, the dispatch, HMAC | |
| kdf.c | eb2k, hkdf, pbkdf2, pgpdf, scrypt, bcrypt, bcrypt_pbkdf | |
| drbg.c | HMAC-, Hash- and CTR-DRBG | |
| rand.c | the user-space generator, uniform | |
| entropy/* | | everything (operating system) |
| mpi.c | limb arithmetic, signed arithmetic, bit operations, modular exponentiation, number theory, primes, combinatorics, random numbers, import, export, strings | memory management, in-place aliasing, the 3-by-2 division step (compiled out) |
| rsa.c, dsa.c | all schemes, keys, encodings, generation from given draws | the drawing itself |
| ecc.c | scalar recodings, prime field layer by value, Weierstrass/Edwards/Montgomery points and contexts, ECDSA, BIP-Schnorr, BIP340, EdDSA, ECDH, the conversions between Montgomery and Edwards forms, the maps to and from uniform octets, hash to curve, ristretto private keys, comparisons and decoding | the fiat limb arithmetic under `fields/`, curve constants, the ristretto encoding (decoding is modelled), its maps and public keys, ristretto_privkey_grind, torsion tables |

Cleansing of memory and timing are outside the model everywhere.

## 4. Status

MANIFEST.json lists every theorem per property; `tools/mkmanifest.py` builds it
from the names in `Props` and the notes in `tools/status.json`. A property is
"partial" when its statement in properties.jsonl is false of the code or not
proved in full; the note says which.

Statements found false of the code (each has a theorem `..._refuted` with a
witness)

* C19: with a 12-byte nonce the 32-bit ChaCha20 counter carries into the nonce.
* C20: with a 12-byte nonce the low Salsa20 counter word is the last nonce word.
* C34: CCM nonces are zero-padded or cut to 15 - L bytes.
* C40: `keccak_final` squeezes once, so outputs longer than the rate are capacity
  lanes, and longer than 200 bytes abort.
* C43: `pgpdf_derive_iterated` never returns when salt and passphrase are empty.
* C46: CTR-DRBG drops seed bytes past 512 (or past seedlen).
* C52: `mpz_setbit`, `mpz_clrbit`, `mpz_combit` are wrong on negative values
  divisible by the power of two addressed.
* C56: `mpz_export` drops the sign, so only non-negative integers survive export and
  import (the statement was narrowed).
* C58: the GOST94 DigestInfo row carries the wrong OID.
* C66: `ecdsa_sign` never retries on s = 0.
* C69: `eddsa_pubkey_tweak_mul` reads only 4 ceil(bits / 4) bits of the tweak.
* C74: the companions of `mpz_fib2_ui(0)` and `mpz_lucnum2_ui(0)` are 0.
* C75: `rsa_priv_set_ned` misses the last squaring.
* C80: EdDSA contexts longer than 255 octets are cut silently.
* C81: `ecdh_pubkey_create` aborts when the clamped scalar is a multiple of n,
  which 4 n is on X448.
* C83: `wei_`, `mont_` and `edwards_point_to_hash` skip a point of order two with
  `continue` in a do loop, which goes on to test the p2 and hint of the round before
  (uninitialised in the first round) and can return a hash of another point; and an
  inverse map that returns u = 0 may report success for a point that is not the
  image of 0.
* C92: `ristretto_pubkey_grind` adds to the scalar `t` without setting it first (its two
  counterparts call `sc_zero`), so the tweak is off by what the stack held;
  `ristretto_privkey_grind` uses that tweak.

Other findings recorded in comments beside the theorems: bech32 addresses accept
versions 17 to 31; four substitutions can be missed by bech32 and cash32 when one
of them moves the separator; `asn1_read_mpz` is strict about sizes even in lax
mode; PBKDF2 with 0 iterations behaves as 1; bcrypt minor 'a' wraps the key length
modulo 256; `mpz_invert` always fails for |y| <= 1; `mpz_sqrtm` does not check its
result on composite moduli and can loop; PSS salt length 0 means automatic;
the Lucas test rejects every prime that
leaves 1 modulo each number up to 10002, because the search for its parameter stops
at 10000 (`C73_probab_prime_rejects`); `dsa_group_is_sane` does not check group membership; `mpn_barrett` aborts exactly
when the modulus is a power of the base; digests without a DigestInfo prefix are
told apart only by size.
