-Q theories Verif
theories/Base.v
theories/IndexSpec.v
theories/LayoutModel.v
theories/ViewSpec.v
theories/LayoutProofs.v
theories/LayoutProofs2.v
theories/BcastProofs.v
theories/LayoutRefute.v
theories/PropLayout.v
theories/KernelModel.v
theories/TensorModel.v
theories/TensorSpec.v
theories/KernelProofs.v
theories/TensorProofs.v
theories/ElementwiseProofs.v
theories/PropElementwise.v
theories/EncodeModel.v
theories/EncodeSpec.v
theories/EncodeProofs.v
theories/PropEncode.v
theories/SelectModel.v
theories/SelectProofs.v
theories/PropSelect.v
theories/ReduceModel.v
theories/ReduceSpec.v
theories/ReduceProofs.v
theories/ReduceProofs2.v
theories/PropReduce.v
theories/ScanModel.v
theories/ScanProofs.v
theories/PropScan.v
theories/MoveModel.v
theories/MoveProofs.v
theories/MoveProofs2.v
theories/MoveProofs3.v
theories/PropMove.v
theories/IndexModel.v
theories/IndexProofs.v
theories/IndexProofs2.v
theories/PropIndex.v
theories/PermFacts.v
theories/SortModel.v
theories/SortProofs.v
theories/PropSort.v
theories/WindowModel.v
theories/WindowProofs.v
theories/PropWindow.v
theories/MatrixModel.v
theories/GridProofs.v
theories/MatrixProofs.v
theories/MatrixProofs2.v
theories/MatrixProofs3.v
theories/MatrixProofs4.v
theories/PropMatrix.v
theories/DataModel.v
theories/DataProofs.v
theories/DataProofs2.v
theories/PropData.v
theories/RpcModel.v
theories/RpcProofs.v
theories/RpcProofs2.v
theories/PropRpc.v
theories/CliModel.v
theories/CliProofs.v
theories/CliProofs2.v
theories/PropCli.v
theories/RegistryModel.v
theories/RegistryProofs.v
theories/RegistryProofs2.v
theories/PropRegistry.v
theories/OptimModel.v
theories/OptimSpec.v
theories/OptimProofs.v
theories/OptimProofs2.v
theories/OptimReal.v
theories/PropOptim.v
theories/SymbolicModel.v
theories/SymbolicProofs.v
theories/PropSymbolic.v
theories/GradModel.v
theories/GradSpec.v
theories/GradProofs.v
theories/GradProofs2.v
theories/GradProofs3.v
theories/GradProofs4.v
theories/GradSample.v
theories/PropGrad.v
theories/RuleModel.v
theories/RuleSpec.v
theories/RuleProofs.v
theories/RuleProofs2.v
theories/RuleProofs3.v
theories/RuleProofs4.v
theories/RuleProofs5.v
theories/RuleProofs6.v
theories/PropRule.v
theories/ShapeGradModel.v
theories/ShapeGradSpec.v
theories/ShapeGradProofs.v
theories/ShapeGradProofs2.v
theories/ShapeGradProofs3.v
theories/PropShapeGrad.v
theories/LifeModel.v
theories/LifeSpec.v
theories/LifeProofs.v
theories/LifeProofs2.v
theories/PropLife.v
theories/SnapModel.v
theories/SnapSpec.v
theories/SnapProofs.v
theories/SnapProofs2.v
theories/SnapProofs3.v
theories/PropSnap.v
theories/EinsumModel.v
theories/EinsumSpec.v
theories/EinsumProofs.v
theories/EinsumProofs2.v
theories/EinsumProofs3.v
theories/PropEinsum.v
theories/CountModel.v
theories/CountProofs.v
theories/CountProofs2.v
theories/CountProofs3.v
theories/CountProofs4.v
theories/PropCount.v
theories/ConvModel.v
theories/ConvSpec.v
theories/ConvProofs.v
theories/ConvProofs2.v
theories/ConvProofs3.v
theories/ConvProofs4.v
theories/ConvProofs5.v
theories/ConvReal.v
theories/PropConv.v
theories/ResizeModel.v
theories/ResizeSpec.v
theories/ResizeProofs.v
theories/ResizeProofs2.v
theories/ResizeProofs3.v
theories/PropResize.v
theories/NumModel.v
theories/DenSpec.v
theories/DenProofs.v
theories/NnModel.v
theories/NnSpec.v
theories/NnProofs.v
theories/NnProofs2.v
theories/NnProofs3.v
theories/NnProofs4.v
theories/PropNn.v
theories/LayerModel.v
theories/LayerSpec.v
theories/LayerProofs.v
theories/LayerProofs2.v
theories/LayerProofs3.v
theories/LayerProofs4.v
theories/LayerProofs5.v
theories/PropLayer.v
theories/NormModel.v
theories/NormSpec.v
theories/NormProofs.v
theories/NormProofs2.v
theories/NormProofs3.v
theories/PropNorm.v
theories/AttnModel.v
theories/AttnSpec.v
theories/AttnProofs.v
theories/AttnProofs2.v
theories/AttnProofs3.v
theories/AttnProofs4.v
theories/PropAttn.v
theories/EmbedModel.v
theories/EmbedSpec.v
theories/EmbedProofs.v
theories/PropEmbed.v
theories/PoolModel.v
theories/PoolSpec.v
theories/PoolProofs.v
theories/PoolProofs2.v
theories/PoolProofs3.v
theories/PoolProofs4.v
theories/PropPool.v
theories/LinSpec.v
theories/LinProofs.v
theories/LinModel.v
theories/LinProofs2.v
theories/LinProofs3.v
theories/LinProofs4.v
theories/LinModel2.v
theories/LinProofs5.v
theories/LinProofs6.v
theories/PropLin.v
theories/LinGradModel.v
theories/LinGradProofs.v
theories/LinGradProofs2.v
theories/PropLinGrad.v
theories/MatGradModel.v
theories/MatGradSpec.v
theories/MatGradProofs.v
theories/PropMatGrad.v
theories/FlowModel.v
theories/FlowSpec.v
theories/FlowProofs.v
theories/PropFlow.v
theories/MoveGradModel.v
theories/MoveGradSpec.v
theories/MoveGradProofs.v
theories/PropMoveGrad.v
theories/IndexGradModel.v
theories/IndexGradProofs.v
theories/IndexGradProofs2.v
theories/PropIndexGrad.v
theories/RedModel.v
theories/RedSpec.v
theories/RedProofs.v
theories/PropRed.v
theories/RedGradModel.v
theories/RedGradSpec.v
theories/RedGradProofs.v
theories/PropRedGrad.v
theories/SimdModel.v
theories/SimdSpec.v
theories/SimdProofs.v
theories/PropSimd.v
theories/PadGradModel.v
theories/PadGradSpec.v
theories/PadGradProofs.v
theories/PropPadGrad.v
theories/WinGradModel.v
theories/WinGradSpec.v
theories/WinGradProofs.v
theories/PropWinGrad.v
theories/EinGradModel.v
theories/EinGradProofs.v
theories/PropEinGrad.v
theories/SmallFloatModel.v
theories/SmallFloatSpec.v
theories/SmallFloatProofs.v
theories/SmallFloatProofs2.v
theories/PropSmallFloat.v
theories/ScalarModel.v
theories/ScalarSpec.v
theories/ScalarProofs.v
theories/ScalarProofs2.v
theories/PropScalar.v
theories/IntOpModel.v
theories/IntOpSpec.v
theories/IntOpProofs.v
theories/PropIntOp.v
theories/JsonModel.v
theories/JsonSpec.v
theories/JsonProofs.v
theories/PropJson.v
theories/DisplayModel.v
theories/DisplaySpec.v
theories/DisplayProofs.v
theories/PropDisplay.v
theories/FloatIntProofs.v
theories/SeqModel.v
theories/SeqSpec.v
theories/SeqProofs.v
theories/PropSeq.v
theories/DispatchModel.v
theories/DispatchSpec.v
theories/DispatchProofs.v
theories/PropDispatch.v
theories/PathModel.v
theories/PathSpec.v
theories/PathProofs.v
theories/PropPath.v
theories/InstallModel.v
theories/InstallSpec.v
theories/InstallProofs.v
theories/PropInstall.v
theories/AtomicModel.v
theories/AtomicSpec.v
theories/AtomicProofs.v
theories/PropAtomic.v
theories/TileModel.v
theories/TileSpec.v
theories/TileProofs.v
theories/TileProofs2.v
theories/TileProofs3.v
theories/TileProofs4.v
theories/PropTile.v
theories/LaunchModel.v
theories/LaunchSpec.v
theories/LaunchProofs.v
theories/LaunchProofs2.v
theories/PropLaunch.v
theories/DeviceModel.v
theories/DeviceProofs.v
theories/PropDevice.v
theories/CudaIndexModel.v
theories/CudaIndexProofs.v
theories/CudaIndexProofs2.v
theories/PropCudaIndex.v
theories/CudaTopkModel.v
theories/CudaTopkProofs.v
theories/PropCudaTopk.v
theories/CudaMoveModel.v
theories/CudaMoveProofs.v
theories/PropCudaMove.v
theories/CudaScanModel.v
theories/CudaScanProofs.v
theories/PropCudaScan.v
theories/CudaNonzeroModel.v
theories/CudaNonzeroProofs.v
theories/PropCudaNonzero.v
theories/CudaReduceModel.v
theories/CudaReduceProofs.v
theories/PropCudaReduce.v
theories/BitonicProofs.v
theories/CudaUniqueModel.v
theories/CudaUniqueProofs.v
theories/CudaUniqueProofs2.v
theories/CudaUniqueProofs3.v
theories/PropCudaUnique.v
theories/CudaCompressModel.v
theories/CudaCompressProofs.v
theories/PropCudaCompress.v
theories/FillModel.v
theories/FillProofs.v
theories/PropFill.v
theories/CudaWindowModel.v
theories/CudaWindowProofs.v
theories/PropCudaWindow.v
theories/CudaEinsumModel.v
theories/CudaEinsumProofs.v
theories/PropCudaEinsum.v
theories/CudaLinModel.v
theories/CudaLinProofs.v
theories/PropCudaLin.v
theories/CudaConvModel.v
theories/CudaConvProofs.v
theories/CudaConvProofs2.v
theories/PropCudaConv.v
theories/CudaResizeModel.v
theories/CudaResizeProofs.v
theories/PropCudaResize.v
theories/CudaConvModel2.v
theories/CudaConvProofs3.v
theories/PropCudaConv2.v
theories/CudaConvModel3.v
theories/CudaConvProofs4.v
theories/PropCudaConv3.v
