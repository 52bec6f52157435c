-Q theories Verif
theories/Prelude.v
theories/ArrayModel.v
theories/ArrayProofs.v
theories/PeriModel.v
theories/PeriSpec.v
theories/PeriProofs.v
theories/PeriProofs2.v
theories/PeriProofs3.v
theories/PeriProofs4.v
theories/ArrayPeri.v
theories/ArrayProps.v
theories/PeriProps.v
theories/CtxModel.v
theories/CtxSpec.v
theories/CtxProofs.v
theories/CtxProps.v
theories/OptimModel.v
theories/OptimSpec.v
theories/OptimProofs.v
theories/OptimProps.v
theories/MvmModel.v
theories/MvmSpec.v
theories/MvmProofs.v
theories/MvmProps.v
theories/ConvModel.v
theories/ConvProofs.v
theories/ConvProps.v
theories/NoiseModel.v
theories/NoiseSpec.v
theories/NoiseProofs.v
theories/NoiseProps.v
theories/LifeModel.v
theories/LifeSpec.v
theories/LifeProps.v
theories/QuantModel.v
theories/QuantSpec.v
theories/QuantProofs.v
theories/QuantProps.v
theories/Rand.v
theories/DevModel.v
theories/DevSpec.v
theories/DevProofs.v
theories/DevProps.v
theories/DevProps2.v
theories/DevProps3.v
theories/PulseModel.v
theories/PulseSpec.v
theories/PulseProofs.v
theories/PulseProps.v
theories/CompModel.v
theories/CompSpec.v
theories/CompProofs.v
theories/CompProofs2.v
theories/CompProps.v
theories/CompProps2.v
theories/CompProps3.v
theories/CompProofs3.v
theories/CompProps4.v
theories/CompProofs4.v
theories/CompProps5.v
theories/CompProps6.v
theories/TransModel.v
theories/TransSpec.v
theories/TransProofs.v
theories/TransProps.v
theories/TransProofs2.v
theories/TransProps2.v
theories/TransProofs3.v
theories/TransProps3.v
theories/TransProps4.v
theories/TransProps5.v
theories/TransProps6.v
theories/TransProps7.v
theories/MixModel.v
theories/MixSpec.v
theories/MixProofs.v
theories/MixProps.v
theories/MixProps2.v
theories/MixProps3.v
theories/MixProps4.v
theories/MixProps5.v
theories/MixProps6.v
theories/MixProps7.v
theories/MixProps8.v
theories/HwaModel.v
theories/HwaSpec.v
theories/HwaProofs.v
theories/HwaProps.v
theories/HwaProps2.v
theories/HwaProps3.v
theories/HwaProofs2.v
theories/HwaProps4.v
theories/HwaProps5.v
theories/HwaProps6.v
theories/FbModel.v
theories/FbSpec.v
theories/FbProofs.v
theories/FbProps.v
theories/FbProps2.v
theories/FbProps3.v
theories/FbProps4.v
theories/FbProps5.v
theories/FbProps6.v
theories/FbProps7.v
theories/FbProps8.v
theories/FbProps9.v
theories/CnnModel.v
theories/CnnSpec.v
theories/CnnProofs.v
theories/CnnProofs2.v
theories/CnnProps.v
theories/CnnProps2.v
theories/CnnProofs3.v
theories/CnnProps3.v
theories/CnnProofs4.v
theories/CnnProps4.v
theories/CnnProofs5.v
theories/CnnProps5.v
theories/NnModel.v
theories/NnSpec.v
theories/NnProofs.v
theories/NnProps.v
theories/NnProps2.v
theories/NnProps3.v
theories/NnModel2.v
theories/NnProofs2.v
theories/NnProps4.v
theories/SdModel.v
theories/SdProps.v
theories/SdProps2.v
theories/SdProps3.v
theories/SdOpt.v
theories/RnnModel.v
theories/RnnSpec.v
theories/RnnProofs.v
theories/RnnProps.v
theories/RnnProps2.v
theories/RnnProps3.v
theories/CalModel.v
theories/CalSpec.v
theories/CalProofs.v
theories/CalProps.v
theories/CalProps2.v
theories/CalProps3.v
theories/CalProps4.v
theories/CalProps5.v
theories/LpModel.v
theories/LpSpec.v
theories/LpProofs.v
theories/LpProps.v
theories/LpProps2.v
theories/LpProps3.v
theories/LpProps4.v
theories/PttModel.v
theories/PttSpec.v
theories/PttProofs.v
theories/PttProps.v
theories/PttProps2.v
theories/PttProps3.v
theories/PttProps4.v
theories/PttProps5.v
theories/PttProps6.v
theories/PttProps7.v
theories/AgdModel.v
theories/AgdSpec.v
theories/AgdProofs.v
theories/AgdProps.v
theories/AgdProps2.v
theories/AgdProps3.v
theories/AgdProps4.v
theories/AgdProps5.v
theories/IrModel.v
theories/IrSpec.v
theories/IrProofs.v
theories/IrProofs2.v
theories/IrProofs3.v
theories/IrProps.v
theories/IrProps2.v
theories/IrProps3.v
theories/IrProps4.v
theories/IrProps5.v
theories/IrProps6.v
theories/FpcModel.v
theories/FpcSpec.v
theories/FpcProofs.v
theories/FpcProofs2.v
theories/FpcProps.v
theories/FpcProps2.v
theories/FpcProps3.v
theories/LinModel.v
theories/LinSpec.v
theories/LinProps.v
theories/LinProps2.v
theories/AiModel.v
theories/AiSpec.v
theories/AiProps.v
theories/CtModel.v
theories/CtProps.v
theories/WpoModel.v
theories/WpoProofs.v
theories/WpoProps.v
theories/WpoProps2.v
theories/ClModel.v
theories/ClSpec.v
theories/ClProps.v
theories/ClModel2.v
theories/ClProps2.v
theories/PmxModel.v
theories/PmxProps.v
theories/CfgModel.v
theories/CfgSpec.v
theories/CfgProps.v
theories/CfgProofs.v
theories/CfgProps2.v
theories/BldModel.v
theories/BldSpec.v
theories/BldProps.v
theories/FlModel.v
theories/FlSpec.v
theories/FlProofs.v
theories/FlProps.v
theories/LgcModel.v
theories/LgcSpec.v
theories/LgcProofs.v
theories/LgcProps.v
theories/ExpModel.v
theories/ExpSpec.v
theories/ExpProofs.v
theories/ExpProps.v
theories/ExpProps2.v
theories/FitModel.v
theories/FitSpec.v
theories/FitProps.v
theories/TtiModel.v
theories/TtiSpec.v
theories/TtiProps.v
theories/MoreProps.v
theories/MoreProps2.v
theories/MoreProps3.v
theories/QpModel.v
theories/QpSpec.v
theories/QpProps.v
theories/QpProps2.v
theories/QpProps3.v
theories/MoreProps4.v
theories/CuModel.v
theories/CuSpec.v
theories/CuProofs.v
theories/CuProofs2.v
theories/CuProofs3.v
theories/CuProofs4.v
theories/CuProofs5.v
theories/CuProofs6.v
theories/CuProofs7.v
theories/CuProps.v
theories/CuTrModel.v
theories/CuTrProofs.v
theories/CuTrProps.v
