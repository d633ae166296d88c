-Q theories Verif
theories/Base.v
theories/BaseLemmas.v
theories/SatModel.v
theories/SatSpec.v
theories/SatProofs.v
theories/SatProps.v
theories/MpModel.v
theories/MpProofs.v
theories/MpProps.v
theories/DarkModel.v
theories/DarkSpec.v
theories/DarkProofs.v
theories/DarkProps.v
theories/RBase.v
theories/SFLemmas.v
theories/LinModel.v
theories/LinSpec.v
theories/LinProofs.v
theories/LinProps.v
theories/FLaws.v
theories/MedianModel.v
theories/MedianProofs.v
theories/MedianProps.v
theories/OutlierModel.v
theories/OutlierProps.v
theories/JumpModel.v
theories/JumpProofs.v
theories/JumpSpec.v
theories/JumpIter.v
theories/JumpStage.v
theories/JumpProps.v
theories/SnowModel.v
theories/SnowSpec.v
theories/SnowProofs.v
theories/SnowProps.v
theories/Cas22Model.v
theories/Cas22Spec.v
theories/Cas22Proofs.v
theories/Cas22Fit.v
theories/Cas22Props.v
theories/OlsModel.v
theories/OlsSpec.v
theories/OlsProofs.v
theories/OlsFit.v
theories/OlsErr.v
theories/OlsPyModel.v
theories/OlsPyProofs.v
theories/OlsProps.v
theories/OlsPyProps.v
theories/LikelyModel.v
theories/LikelySpec.v
theories/LikelyProofs.v
theories/LikelyFit.v
theories/LikelyNoise.v
theories/LikelyOmit.v
theories/LikelyMask.v
theories/LikelyImage.v
theories/LikelyProps.v
theories/LikelyProps2.v
theories/SkyModel.v
theories/SkySpec.v
theories/SkyProofs.v
theories/SkySim.v
theories/SkyProps.v
theories/SkyProps2.v
theories/SkyProps3.v
theories/RNBase.v
theories/ResModel.v
theories/ResSpec.v
theories/ResProofs.v
theories/ResProps.v
theories/ResVar.v
theories/ResUtilModel.v
theories/ResUtilProps.v
theories/ResUtilProps2.v
theories/TwModel.v
theories/TwProps.v
theories/TwProps2.v
theories/TwProps3.v
theories/TwProps4.v
theories/AlModel.v
theories/AlProps.v
theories/AlProps2.v
theories/AlProps3.v
theories/OptModel.v
theories/OptProps.v
theories/OptProps2.v
theories/OptProps3.v
theories/ShModel.v
theories/ShProps.v
theories/ShProps2.v
theories/ShProps3.v
theories/RsModel.v
theories/RsProps.v
theories/RsProps2.v
theories/ChgProps.v
theories/DrvModel.v
theories/DrvProps.v
theories/LkzProps.v
theories/CwModel.v
theories/CwProps.v
theories/JmProps.v
theories/JmCas.v
theories/OvProps.v
theories/SrModel.v
theories/SrProps.v
theories/PdProps.v
theories/NsProps.v
theories/SiProps.v
theories/TiProps.v
theories/TjProps.v
theories/DsProps.v
theories/PjProps.v
theories/UnProps.v
theories/JsProps.v
theories/JdModel.v
theories/JdProofs.v
theories/JdProps.v
theories/JdUnits.v
theories/JtProps.v
theories/JgProps.v
theories/CsProps.v
theories/LdModel.v
theories/LdProps.v
theories/LrLift.v
theories/LrProps.v
theories/LuProps.v
theories/CuProps.v
theories/CpProps.v
theories/ClProps.v
theories/OlProps.v
theories/RvModel.v
theories/RvProps.v
theories/OnProps.v
theories/OtProps.v
theories/SuProps.v
theories/NmModel.v
theories/NmProps.v
theories/DkProps.v
theories/JrProps.v
theories/JfProps.v
theories/UgProps.v
theories/CfProps.v
theories/MiProps.v
theories/MrProps.v
theories/JwProps.v
theories/RuProps.v
theories/OqProps.v
