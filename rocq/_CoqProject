-Q theories Verif
theories/Base/Prelude.v
theories/Model/Bio.v
theories/Model/Util.v
theories/Spec/UtilSpec.v
theories/Proof/BioProof.v
theories/Proof/UtilProof.v
theories/Props/UtilProps.v
theories/Model/Encoding.v
theories/Spec/EncodingSpec.v
theories/Proof/EncodingProof.v
theories/Proof/Base64Proof.v
theories/Proof/Base32Proof.v
theories/Proof/Base58Proof.v
theories/Proof/EncSizeProof.v
theories/Props/EncodingProps.v
theories/Model/Bech32.v
theories/Spec/Bech32Spec.v
theories/Proof/PolymodProof.v
theories/Proof/Bech32Proof.v
theories/Proof/Bech32Des.v
theories/Proof/ConvertBits.v
theories/Proof/SegwitProof.v
theories/Proof/Cash32Proof.v
theories/Proof/LinOps.v
theories/Proof/Bech32Dist.v
theories/Proof/Cash32Dist.v
theories/Proof/DetectProof.v
theories/Props/Bech32Props.v
theories/Model/Asn1.v
theories/Spec/DerSpec.v
theories/Proof/Asn1Proof.v
theories/Props/Asn1Props.v
theories/Model/Stream.v
theories/Spec/StreamSpec.v
theories/Proof/BufCrypt.v
theories/Proof/StreamProof.v
theories/Proof/StreamInit.v
theories/Props/StreamProps.v
theories/Model/Block.v
theories/Spec/BlockSpec.v
theories/Proof/BlockProof.v
theories/Model/Mac.v
theories/Spec/MacSpec.v
theories/Proof/PolyProof.v
theories/Proof/Poly64.v
theories/Proof/Poly32.v
theories/Proof/PolyBuf.v
theories/Proof/SipProof.v
theories/Props/MacProps.v
theories/Model/Aead.v
theories/Spec/AeadSpec.v
theories/Proof/AeadProof.v
theories/Props/AeadProps.v
theories/Model/Modes.v
theories/Spec/ModesSpec.v
theories/Proof/Pkcs7Proof.v
theories/Proof/BlockModes.v
theories/Proof/GfShift.v
theories/Proof/XtsProof.v
theories/Proof/StreamModes.v
theories/Proof/CtrProof.v
theories/Props/ModesProps.v
theories/Proof/GhashMul.v
theories/Proof/GhashProof.v
theories/Proof/MacModes.v
theories/Proof/AeadModes.v
theories/Proof/CcmProof.v
theories/Props/AeadModesProps.v
theories/Spec/StreamApiSpec.v
theories/Model/CipherStream.v
theories/Proof/StreamApi.v
theories/Proof/StreamBlock.v
theories/Proof/StreamOpen.v
theories/Proof/StreamSizes.v
theories/Props/StreamApiProps.v
theories/Proof/StreamAead.v
theories/Props/StreamAeadProps.v
theories/Model/Sha.v
theories/Model/HashPrims.v
theories/Model/Keccak.v
theories/Model/Hash.v
theories/Spec/ShaSpec.v
theories/Proof/ShaProof.v
theories/Proof/MdProof.v
theories/Spec/KeccakSpec.v
theories/Proof/KeccakPerm.v
theories/Proof/WordsOut.v
theories/Proof/KeccakProof.v
theories/Spec/HashSpec.v
theories/Proof/HashOther.v
theories/Proof/HashProof.v
theories/Proof/HmacProof.v
theories/Proof/MdInj.v
theories/Props/HashProps.v
theories/Model/Kdf.v
theories/Spec/KdfSpec.v
theories/Proof/KdfProof.v
theories/Proof/PgpProof.v
theories/Proof/ScryptProof.v
theories/Props/KdfProps.v
theories/Model/Blowfish.v
theories/Proof/BlowfishProof.v
theories/Proof/BcryptProof.v
theories/Props/BcryptProps.v
theories/Model/Drbg.v
theories/Spec/DrbgSpec.v
theories/Proof/DrbgProof.v
theories/Proof/CtrDrbgProof.v
theories/Props/DrbgProps.v
theories/Model/Rand.v
theories/Spec/RandSpec.v
theories/Proof/RandProof.v
theories/Props/RandProps.v
theories/Model/Aes.v
theories/Spec/AesSpec.v
theories/Proof/AesProof.v
theories/Proof/AesInv.v
theories/Proof/AesKey.v
theories/Proof/FinInv.v
theories/Props/AesProps.v
theories/Model/Mpn.v
theories/Proof/MpnProof.v
theories/Proof/MpnShift.v
theories/Proof/MpnDiv.v
theories/Props/MpnProps.v
theories/Model/Mpz.v
theories/Proof/MpzProof.v
theories/Proof/MpzOps.v
theories/Proof/MpzBits.v
theories/Proof/MpzLogic.v
theories/Props/MpzProps.v
theories/Model/MpnMod.v
theories/Model/MpzPow.v
theories/Proof/MpnModProof.v
theories/Proof/MpnPow.v
theories/Proof/MpnPowm.v
theories/Proof/Fermat.v
theories/Proof/MpnBarrett.v
theories/Proof/MpzPowProof.v
theories/Props/MpnModProps.v
theories/Model/NumTheory.v
theories/Model/Primes.v
theories/Proof/NumGcd.v
theories/Proof/NumInv.v
theories/Proof/NumRoot.v
theories/Proof/NumJacobi.v
theories/Proof/PrimesProof.v
theories/Proof/CombProof.v
theories/Props/NumTheoryProps.v
theories/Model/Rsa.v
theories/Spec/RsaSpec.v
theories/Proof/RsaKey.v
theories/Proof/RsaCodec.v
theories/Proof/Cong.v
theories/Proof/RsaPrim.v
theories/Proof/RsaV15.v
theories/Proof/RsaMgf.v
theories/Proof/RsaGen.v
theories/Proof/RsaScheme.v
theories/Props/RsaProps.v
theories/Model/Dsa.v
theories/Spec/DsaSpec.v
theories/Proof/DsaCodec.v
theories/Proof/Rfc6979.v
theories/Proof/DsaProof.v
theories/Props/DsaProps.v
theories/Spec/EcSpec.v
theories/Proof/EcGroup.v
theories/Proof/GrpMul.v
theories/Model/Field.v
theories/Proof/FieldProof.v
theories/Model/EcScalar.v
theories/Proof/EcScalarProof.v
theories/Model/Wei.v
theories/Proof/WeiProof.v
theories/Proof/WeiMul.v
theories/Proof/EndoSplit.v
theories/Props/EcScalarProps.v
theories/Props/WeiProps.v
theories/Spec/EcdsaSpec.v
theories/Model/Ecdsa.v
theories/Proof/WeiCtx.v
theories/Proof/EcCodec.v
theories/Proof/EcdsaProof.v
theories/Proof/EcdsaKeys.v
theories/Props/EcdsaProps.v
theories/Model/Schnorr.v
theories/Spec/SchnorrSpec.v
theories/Proof/FieldSquare.v
theories/Proof/SchnorrProof.v
theories/Proof/SchnorrSig.v
theories/Proof/SchnorrBatch.v
theories/Proof/SchnorrMore.v
theories/Proof/SchnorrTweak.v
theories/Props/SchnorrProps.v
theories/Proof/Reciprocity.v
theories/Proof/FieldJacobi.v
theories/Proof/SqrtComplete.v
theories/Proof/Lucas.v
theories/Props/BipSchnorrProps.v
theories/Spec/EdSpec.v
theories/Model/Edwards.v
theories/Proof/FieldNsatz.v
theories/Proof/EdGroup.v
theories/Proof/EdProof.v
theories/Proof/EdMul.v
theories/Model/Eddsa.v
theories/Spec/EddsaSpec.v
theories/Proof/EdCodec.v
theories/Proof/EdCtx.v
theories/Proof/EddsaProof.v
theories/Proof/EddsaVerify.v
theories/Proof/EddsaKeys.v
theories/Props/EdwardsProps.v
theories/Props/EddsaProps.v
theories/Spec/MontSpec.v
theories/Model/Mont.v
theories/Proof/MontGroup.v
theories/Proof/MontProof.v
theories/Proof/EcdhProof.v
theories/Props/MontProps.v
theories/Spec/StrSpec.v
theories/Model/MpzStr.v
theories/Proof/MpzImport.v
theories/Proof/MpzStrProof.v
theories/Proof/MpzStrOut.v
theories/Props/MpzStrProps.v
theories/Model/Ciphers64.v
theories/Model/Ciphers128.v
theories/Spec/SerpentSpec.v
theories/Proof/CipherGen.v
theories/Proof/Serpent.v
theories/Proof/Twofish.v
theories/Proof/Camellia.v
theories/Proof/Cipher64.v
theories/Proof/Idea.v
theories/Props/CipherProps.v
theories/Model/Convert.v
theories/Spec/ConvSpec.v
theories/Proof/ConvGroup.v
theories/Proof/ConvProof.v
theories/Proof/ConvKeys.v
theories/Props/ConvProps.v
theories/Model/CurveMaps.v
theories/Spec/MapSpec.v
theories/Proof/CurveMapsProof.v
theories/Proof/CurveMapsPoints.v
theories/Props/CurveMapsProps.v
theories/Model/Kronecker.v
theories/Proof/KroneckerProof.v
theories/Props/KroneckerProps.v
theories/Model/MpzRand.v
theories/Proof/MpzRandProof.v
theories/Props/MpzRandProps.v
theories/Model/PubKeys.v
theories/Model/PubKeysLe.v
theories/Model/Grind.v
theories/Proof/PubKeysProof.v
theories/Proof/PubKeysLeProof.v
theories/Proof/GrindProof.v
theories/Props/PubKeysProps.v
theories/Props/PubKeysLeProps.v
theories/Props/GrindProps.v
theories/Proof/StreamMisuse.v
theories/Props/StreamMisuseProps.v
theories/Model/CipherTable.v
theories/Props/CipherTableProps.v
theories/Model/KeyGen.v
theories/Props/KeyGenProps.v
theories/Model/KeyGenEd.v
theories/Props/KeyGenEdProps.v
theories/Model/RistrettoKeys.v
theories/Props/RistrettoKeysProps.v
theories/Model/RistrettoEq.v
theories/Proof/RistrettoEqProof.v
theories/Props/RistrettoEqProps.v
theories/Model/RistrettoImport.v
theories/Proof/RistrettoImportProof.v
theories/Props/RistrettoImportProps.v
