-Q theories Verif
theories/Base.v
theories/MUtils.v
theories/SHex.v
theories/PUtils.v
theories/PropHex.v
theories/MBase.v
theories/SRfc4648.v
theories/PBase.v
theories/PropBase.v
theories/SFips180.v
theories/SShaLib.v
theories/MSha.v
theories/MFront.v
theories/SHash.v
theories/PWords.v
theories/PSha.v
theories/PShaStream.v
theories/PShaInst.v
theories/PropSha.v
theories/SMd5.v
theories/MMd5.v
theories/PMd5.v
theories/PropMd5.v
theories/SFips202.v
theories/MKeccak.v
theories/PKeccak.v
theories/PSponge.v
theories/PSponge2.v
theories/SKeccakFns.v
theories/PKeccakFns.v
theories/PropKeccak.v
theories/SHashFns.v
theories/PShort.v
theories/PropFront.v
theories/MHmac.v
theories/SHmac.v
theories/PTyped.v
theories/PHmac.v
theories/PropHmac.v
theories/MOtp.v
theories/SOtp.v
theories/POtp.v
theories/PropOtp.v
theories/MCppSize.v
theories/PCppSize.v
theories/MCppBase.v
theories/SCppBase.v
theories/PCppBase.v
theories/PCppBase2.v
theories/PropCppBase.v
theories/MOtpObj.v
theories/SOtpObj.v
theories/PropOtpObj.v
theories/SBlowfish.v
theories/MBlowfish.v
theories/PBlowfish.v
theories/PBlowfish2.v
theories/PBlowfish3.v
theories/PBfFast.v
theories/PropBlowfish.v
theories/MHashEnc.v
theories/SHashEnc.v
theories/PHashEnc.v
theories/PHashEnc2.v
theories/PropHashEnc.v
theories/SSeqData.v
theories/MSeqData.v
theories/PropSeqData.v
theories/SConst.v
theories/PSin.v
theories/PropConst.v
theories/SBaseText.v
theories/PBase2.v
theories/PropBase2.v
theories/SHexText.v
theories/MUtils2.v
theories/PropHex2.v
theories/MHmac2.v
theories/SHmac2.v
theories/PropHmac2.v
theories/SMerkle.v
theories/PMerkle.v
theories/PropMerkle.v
theories/SOrder.v
theories/PropBase3.v
theories/SStream.v
theories/MFront2.v
theories/PropStream.v
theories/SWipe.v
theories/PropWipe.v
theories/MNull.v
theories/SNull.v
theories/PropNull.v
theories/MPoly.v
theories/SPoly.v
theories/PropPoly.v
theories/PropRemain.v
theories/MLife.v
theories/SLife.v
theories/PropLife.v
theories/SHmac3.v
theories/PropHmac3.v
theories/MFail.v
theories/SFail.v
theories/PropFail.v
theories/MFail2.v
theories/SFail2.v
theories/PropFail2.v
theories/SExtend.v
theories/PropExtend.v
theories/PKeccakInj.v
theories/SSponge.v
theories/PropSponge.v
theories/MVariadic.v
theories/SVariadic.v
theories/PropVariadic.v
theories/MTotpThreads.v
theories/STotpThreads.v
theories/PropTotpThreads.v
theories/PPi.v
theories/PropPi.v
theories/MAlias.v
theories/SAlias.v
theories/PropAlias.v
theories/MAlias2.v
theories/PropAlias2.v
theories/MEndian.v
theories/SEndian.v
theories/PEndian.v
theories/PropEndian.v
theories/SXofBits.v
theories/PXofBits.v
theories/PropXofBits.v
theories/PSpongeOn.v
theories/PSponge2On.v
theories/PropEndian2.v
theories/PropBlowfish2.v
theories/MHashThreads.v
theories/SHashThreads.v
theories/PropHashThreads.v
theories/MHashThreads2.v
theories/PropHashThreads2.v
theories/MBfThreads.v
theories/SBfThreads.v
theories/PBfThreads.v
theories/PropBfThreads.v
theories/PropSponge2.v
theories/MDigestThreads.v
theories/SDigestThreads.v
theories/PDigestThreads.v
theories/PropDigestThreads.v
theories/MTotpProgram.v
theories/STotpProgram.v
theories/PropTotpProgram.v
theories/PropPipeline.v
theories/PropDigestText.v
theories/PropSecretText.v
theories/PropKeyText.v
