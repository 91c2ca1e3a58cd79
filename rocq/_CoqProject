-Q theories Verif

theories/KvModel.v
theories/KvSpec.v
theories/KvProofs.v
theories/UndoModel.v
theories/UndoSpec.v
theories/UndoProofs.v
theories/DbKeyModel.v
theories/DbKeyProofs.v
theories/KvProperties.v
theories/Prelude.v
theories/PreludeFacts.v
theories/AccountModel.v
theories/AccountSpec.v
theories/AccountProofs.v
theories/TxModel.v
theories/TxSpec.v
theories/TxProofs.v
theories/FeeModel.v
theories/FeeSpec.v
theories/FeeProofs.v
theories/PermModel.v
theories/PermProofs.v
theories/AccountProperties.v
theories/SysParamModel.v
theories/SysParamSpec.v
theories/SysParamProofs.v
theories/GovModel.v
theories/GovSpec.v
theories/GovProofs.v
theories/DoubleModel.v
theories/DoubleFacts.v
theories/AxcModel.v
theories/AxcSpec.v
theories/AxcProofs.v
theories/GovProperties.v
theories/CodecModel.v
theories/CodecSpec.v
theories/CodecProofs.v
theories/Base58Model.v
theories/Base58Spec.v
theories/Base58Proofs.v
theories/CodecProperties.v
theories/UtxoModel.v
theories/UtxoSpec.v
theories/UtxoProofs.v
theories/UtxoProperties.v
theories/DexModel.v
theories/DexSpec.v
theories/DexProofs.v
theories/DexProperties.v
theories/VoteModel.v
theories/VoteSpec.v
theories/VoteProofs.v
theories/VoteProperties.v
theories/CdpModel.v
theories/CdpSpec.v
theories/CdpProofs.v
theories/CdpDouble.v
theories/CdpInv.v
theories/CdpActions.v
theories/CdpClose.v
theories/CdpForce.v
theories/CdpReach.v
theories/CdpRatio.v
theories/CdpEffects.v
theories/CdpLists.v
theories/CdpProperties.v
theories/CdpInstance.v
theories/ContainerModel.v
theories/ContainerSpec.v
theories/ContainerProofs.v
theories/ContainerProperties.v
theories/MerkleModel.v
theories/MerkleSpec.v
theories/MerkleProofs.v
theories/MerkleProperties.v
theories/ChainModel.v
theories/ChainSpec.v
theories/ChainProofs.v
theories/ChainProperties.v
theories/SchedModel.v
theories/SchedSpec.v
theories/SchedProofs.v
theories/SchedProperties.v
theories/SelectModel.v
theories/FinalModel.v
theories/FinalSpec.v
theories/SelectProofs.v
theories/FinalProofs.v
theories/FinalProperties.v
theories/BestSpec.v
theories/BestProofs.v
theories/BestWorld.v
theories/BestProperties.v
theories/PriceModel.v
theories/PriceSpec.v
theories/PriceProofs.v
theories/PriceProperties.v
theories/ReplayModel.v
theories/ReplaySpec.v
theories/ReplayProofs.v
theories/ReplayProperties.v
theories/IterModel.v
theories/IterSpec.v
theories/IterProofs.v
theories/IterProperties.v
theories/RegidModel.v
theories/RegidSpec.v
theories/RegidProofs.v
theories/RegidDeploy.v
theories/RegidProperties.v
theories/RewardSpec.v
theories/RewardProofs.v
theories/RewardProperties.v
theories/SingleModel.v
theories/SingleFacts.v
theories/FuelModel.v
theories/FuelFloat.v
theories/FuelSpec.v
theories/FuelRates.v
theories/FuelProofs.v
theories/FuelProperties.v
theories/IntakeModel.v
theories/IntakeSpec.v
theories/IntakeProofs.v
theories/IntakeProperties.v
theories/PoolModel.v
theories/PoolSpec.v
theories/PoolProofs.v
theories/PoolProperties.v
theories/OrderModel.v
theories/OrderSpec.v
theories/OrderProofs.v
theories/OrderCands.v
theories/OrderProperties.v
theories/LuaModel.v
theories/LuaSpec.v
theories/LuaProofs.v
theories/LuaTx.v
theories/LuaApps.v
theories/LuaVerdict.v
theories/LuaRun.v
theories/LuaProperties.v
theories/WasmModel.v
theories/WasmSpec.v
theories/WasmTx.v
theories/WasmBank.v
theories/WasmSteps.v
theories/WasmProofs.v
theories/WasmProperties.v
theories/WireModel.v
theories/WireSpec.v
theories/WireForm.v
theories/WireProofs.v
theories/WireTxProofs.v
theories/WireBridge.v
theories/WireProperties.v
theories/CrashModel.v
theories/CrashSpec.v
theories/CrashProofs.v
theories/CrashProperties.v
theories/MoneyModel.v
theories/MoneySpec.v
theories/MoneyProofs.v
theories/MoneyProperties.v
theories/FrameModel.v
theories/FrameSpec.v
theories/FrameProofs.v
theories/FrameProperties.v
theories/StoreModel.v
theories/StoreSpec.v
theories/StoreProofs.v
theories/StoreDbProofs.v
theories/StoreProperties.v
theories/FilesModel.v
theories/FilesSpec.v
theories/FilesProofs.v
theories/FilesProperties.v
theories/ClockModel.v
theories/ClockSpec.v
theories/ClockProofs.v
theories/ClockProperties.v
theories/AlertModel.v
theories/AlertSpec.v
theories/AlertProofs.v
theories/AlertProperties.v
theories/PenaltyModel.v
theories/PenaltySpec.v
theories/PenaltyProofs.v
theories/PenaltyProperties.v
