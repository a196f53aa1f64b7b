-Q theories Verif
theories/Assoc.v
theories/ParamModel.v
theories/ParamSpec.v
theories/ParamProofs.v
theories/ParamProofs2.v
theories/ParamProofs3.v
theories/ParamProps.v
theories/DataModel.v
theories/DataSpec.v
theories/DataProofs.v
theories/DataProofs2.v
theories/DataProofs3.v
theories/DataProofs4.v
theories/DataProofs5.v
theories/DataProofs6.v
theories/DataProps.v
theories/SolverModel.v
theories/SolverSpec.v
theories/SolverProofs.v
theories/SolverProofs2.v
theories/SolverProps.v
theories/LossScaleModel.v
theories/LossScaleProps.v
theories/LrModel.v
theories/LrProps.v
theories/CgModel.v
theories/CgSpec.v
theories/CgProofs.v
theories/CgProofs2.v
theories/CgProofs3.v
theories/CgProofs4.v
theories/CgProps.v
theories/RefModel.v
theories/RefProps.v
theories/BwModel.v
theories/BwSpec.v
theories/BwProofs.v
theories/BwProofs2.v
theories/BwProofs3.v
theories/BwProps.v
theories/SyncModel.v
theories/SyncSpec.v
theories/SyncProofs.v
theories/SyncProofs2.v
theories/SyncProofs3.v
theories/SyncProofs4.v
theories/SyncProofs5.v
theories/SyncProofs6.v
theories/SyncProofs7.v
theories/SyncProofs8.v
theories/SyncProofs9.v
theories/SyncProofs10.v
theories/SyncProofs11.v
theories/SyncProofs12.v
theories/SyncProps.v
theories/GradModel.v
theories/GradSpec.v
theories/GradProofs.v
theories/GradProofs2.v
theories/GradProofs3.v
theories/GradProps.v
theories/AllocModel.v
theories/AllocSpec.v
theories/AllocProofs.v
theories/AllocProofs2.v
theories/AllocProofs3.v
theories/AllocProofs4.v
theories/AllocProofs5.v
theories/AllocProps.v
theories/NdModel.v
theories/NdSpec.v
theories/NdProofs.v
theories/NdProps.v
theories/SliceModel.v
theories/SliceSpec.v
theories/SliceProofs.v
theories/SliceProps.v
theories/PackModel.v
theories/PackSpec.v
theories/PackProofs.v
theories/PackProps.v
theories/CsvModel.v
theories/CsvSpec.v
theories/CsvProofs.v
theories/CsvProps.v
theories/ScopeModel.v
theories/ScopeProps.v
theories/NameModel.v
theories/NameProofs.v
theories/NameProps.v
theories/ProtoModel.v
theories/ProtoProps.v
theories/ProtoLoad.v
theories/IdModel.v
theories/IdSpec.v
theories/IdProofs1.v
theories/IdProofs2.v
theories/IdProofs3.v
theories/IdProofs4.v
theories/IdProps.v
theories/PfileModel.v
theories/PfileSpec.v
theories/PfileProofs.v
theories/PfileProofs2.v
theories/PfileProofs3.v
theories/PfileProps.v
theories/PrefModel.v
theories/PrefSpec.v
theories/PrefProofs.v
theories/PrefProofs2.v
theories/PrefProps.v
theories/HalfModel.v
theories/HalfSpec.v
theories/HalfProofs.v
theories/HalfProofs2.v
theories/HalfProofs3.v
theories/HalfProps.v
theories/IdxModel.v
theories/IdxSpec.v
theories/IdxProofs1.v
theories/IdxProofs2.v
theories/IdxProofs3.v
theories/IdxProofs4.v
theories/IdxProofs5.v
theories/IdxProofs6.v
theories/IdxProps.v
theories/JoinModel.v
theories/JoinSpec.v
theories/JoinProofs.v
theories/JoinProofs2.v
theories/JoinProps.v
theories/ScanModel.v
theories/ScanSpec.v
theories/ScanProofs1.v
theories/ScanProofs2.v
theories/ScanProofs3.v
theories/ScanProofs4.v
theories/ScanProps.v
theories/ReduceModel.v
theories/ReduceSpec.v
theories/ReduceProofs1.v
theories/ReduceProofs2.v
theories/ReduceProofs3.v
theories/ReduceProofs4.v
theories/ReduceProofs5.v
theories/ReduceProps.v
theories/SortModel.v
theories/SortSpec.v
theories/SortProofs1.v
theories/SortProofs2.v
theories/SortProofs3.v
theories/SortProps.v
theories/ConvModel.v
theories/ConvSpec.v
theories/ConvProofs1.v
theories/ConvProofs2.v
theories/ConvProofs3.v
theories/ConvProofs4.v
theories/ConvProofs5.v
theories/ConvProofs6.v
theories/ConvProofs7.v
theories/ConvProofs8.v
theories/ConvProps.v
theories/PoolModel.v
theories/PoolSpec.v
theories/PoolProofs1.v
theories/PoolProofs2.v
theories/PoolProofs3.v
theories/PoolProofs4.v
theories/PoolProofs5.v
theories/PoolProps.v
theories/MatModel.v
theories/MatSpec.v
theories/MatProofs1.v
theories/MatProofs2.v
theories/MatProofs3.v
theories/MatProps.v
theories/MaskModel.v
theories/MaskSpec.v
theories/MaskProofs1.v
theories/MaskProofs2.v
theories/MaskProps.v
theories/ScatModel.v
theories/ScatSpec.v
theories/ScatProofs1.v
theories/ScatProofs2.v
theories/ScatProps.v
theories/KeyModel.v
theories/KeySpec.v
theories/KeyProofs1.v
theories/KeyProofs2.v
theories/KeyProofs3.v
theories/KeyProofs4.v
theories/KeyProps.v
theories/BinModel.v
theories/BinSpec.v
theories/BinProofs1.v
theories/BinProofs2.v
theories/BinProofs3.v
theories/BinProps.v
theories/ActModel.v
theories/ActSpec.v
theories/ActProofs1.v
theories/ActProofs2.v
theories/ActProofs3.v
theories/ActProofs4.v
theories/ActProps.v
theories/SmModel.v
theories/SmSpec.v
theories/SmProofs1.v
theories/SmProofs2.v
theories/SmProofs3.v
theories/SmProofs4.v
theories/SmProofs5.v
theories/SmProps.v
theories/BnModel.v
theories/BnSpec.v
theories/BnProofs1.v
theories/BnProofs2.v
theories/BnProofs3.v
theories/BnProofs4.v
theories/BnProofs5.v
theories/BnProofs6.v
theories/BnProps.v
theories/UpdModel.v
theories/UpdSpec.v
theories/UpdProofs1.v
theories/UpdProofs2.v
theories/UpdProofs3.v
theories/UpdProofs4.v
theories/UpdProps.v
theories/BfModel.v
theories/BfSpec.v
theories/BfProofs1.v
theories/BfProofs2.v
theories/BfProofs3.v
theories/BfProofs4.v
theories/BfProofs5.v
theories/BfProofs6.v
theories/BfProps.v
theories/BfaModel.v
theories/BfaSpec.v
theories/BfaProofs1.v
theories/BfaProofs2.v
theories/BfaProps.v
theories/SwapModel.v
theories/SwapSpec.v
theories/SwapProofs1.v
theories/SwapProofs2.v
theories/SwapProofs3.v
theories/SwapProofs4.v
theories/SwapProofs5.v
theories/SwapProofs6.v
theories/SwapProofs7.v
theories/SwapProofs8.v
theories/SwapProofs9.v
theories/SwapProofs10.v
theories/SwapProofs11.v
theories/SwapProofs12.v
theories/SwapProofs13.v
theories/SwapProofs14.v
theories/SwapProps.v
theories/FindModel.v
theories/FindSpec.v
theories/FindProofs1.v
theories/FindProofs2.v
theories/FindProofs3.v
theories/FindProofs4.v
theories/FindProofs5.v
theories/FindProofs6.v
theories/FindProofs7.v
theories/FindProofs8.v
theories/FindProps.v
theories/NmsModel.v
theories/NmsSpec.v
theories/NmsProofs1.v
theories/NmsProofs2.v
theories/NmsProofs3.v
theories/NmsProofs4.v
theories/NmsProofs5.v
theories/NmsProofs6.v
theories/NmsProps.v
theories/QuantModel.v
theories/QuantSpec.v
theories/QuantProofs1.v
theories/QuantProofs2.v
theories/QuantProofs3.v
theories/QuantProofs4.v
theories/QuantProofs5.v
theories/QuantProofs6.v
theories/QuantProofs7.v
theories/QuantProps.v
theories/GenModel.v
theories/GenSpec.v
theories/GenProofs1.v
theories/GenProofs2.v
theories/GenProofs3.v
theories/GenProofs4.v
theories/GenProofs5.v
theories/GenProofs6.v
theories/GenProps.v
theories/GcvModel.v
theories/GcvSpec.v
theories/GcvProofs1.v
theories/GcvProofs2.v
theories/GcvProofs3.v
theories/GcvProofs4.v
theories/GcvProofs5.v
theories/GcvProofs6.v
theories/GcvProofs7.v
theories/GcvProofs8.v
theories/GcvProofs9.v
theories/GcvProps.v
theories/FoldModel.v
theories/FoldSpec.v
theories/FoldProofs1.v
theories/FoldProofs2.v
theories/FoldProofs3.v
theories/FoldProofs4.v
theories/FoldProofs5.v
theories/FoldProofs6.v
theories/FoldProps.v
theories/ItpModel.v
theories/ItpSpec.v
theories/ItpProofs1.v
theories/ItpProofs2.v
theories/ItpProofs3.v
theories/ItpProofs4.v
theories/ItpProofs5.v
theories/ItpProps.v
theories/RcModel.v
theories/RcSpec.v
theories/RcProofs1.v
theories/RcProofs2.v
theories/RcProofs3.v
theories/RcProps.v
theories/PcModel.v
theories/PcSpec.v
theories/PcProofs1.v
theories/PcProofs2.v
theories/PcProps.v
theories/WgModel.v
theories/WgSpec.v
theories/WgProofs1.v
theories/WgProofs2.v
theories/WgProps.v
theories/WgGradModel.v
theories/WgGradSpec.v
theories/WgGradProofs1.v
theories/WgGradProofs2.v
theories/WgGradProps.v
theories/MonModel.v
theories/MonSpec.v
theories/MonProps.v
theories/DropModel.v
theories/DropSpec.v
theories/DropProps.v
theories/NaryModel.v
theories/NarySpec.v
theories/NaryProps.v
theories/MsubModel.v
theories/MsubSpec.v
theories/MsubProps.v
theories/ClipModel.v
theories/ClipProps.v
theories/ModModel.v
theories/ModProps.v
theories/FlipModel.v
theories/FlipSpec.v
theories/FlipProps.v
theories/FlowModel.v
theories/FlowSpec.v
theories/FlowProps.v
theories/ShiftModel.v
theories/ShiftSpec.v
theories/ShiftProps.v
theories/CropModel.v
theories/CropSpec.v
theories/CropProps.v
