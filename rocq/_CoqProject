-Q theories Verif
theories/Base.v
theories/CbcModel.v
theories/CbcSpec.v
theories/Toy.v
theories/CbcProofs.v
theories/CbcProps.v
theories/CbcLong.v
theories/CbcLongProps.v
theories/GcmModel.v
theories/GcmSpec.v
theories/GfProofs.v
theories/GcmProofs.v
theories/GcmProps.v
theories/ParModel.v
theories/ParProofs.v
theories/ParProps.v
theories/FileModel.v
theories/FileProofs.v
theories/FileProps.v
theories/CipherExt.v
theories/Word32.v
theories/Sm4Model.v
theories/Sm4Spec.v
theories/Sm4Proofs.v
theories/Sm4Props.v
theories/Sm4KeyProofs.v
theories/Sm4KeyProps.v
theories/Sm3Model.v
theories/Sm3Spec.v
theories/Sm3Proofs.v
theories/Sm3Props.v
theories/FpeModel.v
theories/FpeSpec.v
theories/FpeCore.v
theories/FpeProofs.v
theories/FpeProps.v
theories/FailSpec.v
theories/FailProofs.v
theories/FailProps.v
theories/FpeCharsProofs.v
theories/FpeCharsProps.v
theories/FpeLongSpec.v
theories/FpeLongProofs.v
theories/FpeLongProps.v
theories/AppModel.v
theories/AppSpec.v
theories/AppProofs.v
theories/CnProofs.v
theories/AppProps.v
theories/UdfModel.v
theories/UdfProofs.v
theories/UdfProps.v
theories/MatModel.v
theories/MatSpec.v
theories/MatProofs.v
theories/GaussProofs.v
theories/ComProofs.v
theories/MatProps.v
theories/Mat128Model.v
theories/Mat128Spec.v
theories/Mat128Proofs.v
theories/Mat128Gen.v
theories/Mat128Com.v
theories/Mat128Props.v
theories/Wbsm4Model.v
theories/Wbsm4Proofs.v
theories/Wbsm4Enc.v
theories/WbkeyModel.v
theories/WbkeyProofs.v
theories/Wbsm4Spec.v
theories/Wbsm4Thms.v
theories/Wbsm4Props.v
theories/Gf8Proofs.v
theories/SewbTables.v
theories/SewbPairs.v
theories/SewbModel.v
theories/SewbProofs.v
theories/SewbProps.v
theories/AesSpec.v
theories/AesModel.v
theories/WbaesModel.v
theories/AesProofs.v
theories/AesProps.v
theories/WbaesProofs.v
theories/FpeExt.v
theories/WbaesThms.v
theories/WbaesProps.v
theories/WbgcmModel.v
theories/WbgcmSpec.v
theories/WbgcmProofs.v
theories/WbgcmKeys.v
theories/WbgcmThms.v
theories/WbgcmTop.v
theories/WbgcmWit.v
theories/WbgcmProps.v
theories/GfField.v
theories/GfGhash.v
theories/GcmAuth.v
theories/GcmIv.v
theories/GcmAuthProps.v
theories/GcmLong.v
theories/GcmLongProps.v
theories/FileExact.v
theories/FileExactProps.v
theories/BoundsSpec.v
theories/BoundsProofs.v
theories/BoundsProps.v
theories/KeyexModel.v
theories/KeyexProofs.v
theories/KeyexProps.v
theories/RandNum.v
theories/RandModel.v
theories/RandProofs.v
theories/RandRefine.v
theories/RandTables.v
theories/RandEnc.v
theories/RandThms.v
theories/RandSeeds.v
theories/RandProps.v
theories/MatBitsModel.v
theories/MatBitsProofs.v
theories/MatBitsProps.v
theories/LifeModel.v
theories/LifeSpec.v
theories/LifeProofs.v
theories/LifeTotal.v
theories/LifeTree.v
theories/LifeGen.v
theories/LifeOps.v
theories/LifeSafe.v
theories/LifeThms.v
theories/LifeMask.v
theories/LifeProps.v
theories/Reach.v
theories/ReachProps.v
theories/CnOther.v
theories/CnOtherProps.v
theories/WrandModel.v
theories/Few.v
theories/WrandProps.v
theories/OverlapModel.v
theories/OverlapProofs.v
theories/OverlapGcm.v
theories/OverlapCbc.v
theories/OverlapProps.v
theories/GcmAgain.v
theories/GcmAgainProps.v
theories/CbcBlocks.v
theories/CbcBlocksProps.v
theories/TraceModel.v
theories/TraceProofs.v
theories/TraceGcm.v
theories/TraceProps.v
theories/Sm3More.v
theories/Sm3MoreProps.v
theories/AppTweak.v
theories/Ff3Slide.v
theories/AppTweakProps.v
theories/GcmReuse.v
theories/GcmReuseProps.v
theories/Span.v
theories/SboxStruct.v
theories/WbaesKey.v
theories/WbaesKeyProps.v
theories/Wbsm4Key.v
theories/SewbKey.v
theories/Wbsm4KeyProps.v
theories/AppPerm.v
theories/AppPermProps.v
theories/CmacTags.v
theories/CmacTagsProps.v
theories/OneWay.v
theories/OneWayProps.v
theories/GmacTweak.v
theories/GmacTweakProps.v
theories/WrongDir.v
theories/WrongDirProps.v
theories/KeyfileKey.v
theories/KeyfileKeyProps.v
theories/FileAgain.v
theories/FileAgainProps.v
theories/Stale.v
theories/WbStale.v
theories/StaleProps.v
theories/WbAuth.v
theories/WbMaskXor.v
theories/WbAuthProps.v
