-Q theories Verif
theories/Common.v
theories/GridModel.v
theories/GridSpec.v
theories/GridArith.v
theories/GridProofs.v
theories/GridProofs2.v
theories/GridIOModel.v
theories/GridProofs3.v
theories/GridProps.v
theories/NdArrayModel.v
theories/NdArraySpec.v
theories/NdArrayProofs.v
theories/NdArrayProofs2.v
theories/NdArrayProps.v
theories/KdTreeModel.v
theories/KdTreeProofs.v
theories/KdTreeProps.v
theories/TextModel.v
theories/TextProofs.v
theories/XYModel.v
theories/XYSpec.v
theories/XYProofs.v
theories/XYProofs2.v
theories/XYProofs3.v
theories/XYProps.v
theories/ConfigModel.v
theories/ConfigSpec.v
theories/ConfigProofs.v
theories/ConfigProofs2.v
theories/ConfigProofs3.v
theories/ConfigProps.v
theories/ThreadPoolModel.v
theories/ThreadPoolSpec.v
theories/ThreadPoolProofs.v
theories/ThreadPoolProofs2.v
theories/ThreadPoolProofs3.v
theories/ThreadPoolProps.v
theories/FilePoolModel.v
theories/FilePoolSpec.v
theories/FilePoolProofs.v
theories/FilePoolProofs2.v
theories/FilePoolProofs3.v
theories/FilePoolProofs4.v
theories/FilePoolProps.v
theories/DblModel.v
theories/DblProofs.v
theories/SOMModel.v
theories/SOMSpec.v
theories/SOMProofs.v
theories/SOMProofs2.v
theories/SOMProps.v
theories/TableModel.v
theories/TableSpec.v
theories/TableProofs.v
theories/TableProps.v
theories/AsciiModel.v
theories/AsciiSpec.v
theories/AsciiProofs.v
theories/AsciiProofs2.v
theories/AsciiProofs3.v
theories/AsciiProps.v
theories/CatalogModel.v
theories/CatalogSpec.v
theories/CatalogProofs.v
theories/CatalogProps.v
theories/HistModel.v
theories/HistSpec.v
theories/HistProofs.v
theories/HistProofs2.v
theories/HistProps.v
theories/CumulModel.v
theories/CumulSpec.v
theories/CumulProofs.v
theories/CumulProps.v
theories/ModeModel.v
theories/ModeSpec.v
theories/ModeProofs.v
theories/ModeProofs2.v
theories/ModeProps.v
theories/FunModel.v
theories/FunSpec.v
theories/FunProofs.v
theories/FunProofs2.v
theories/FunProps.v
theories/InterpModel.v
theories/InterpSpec.v
theories/InterpProofs.v
theories/InterpProps.v
theories/SimpsonModel.v
theories/SimpsonProofs.v
theories/SimpsonProps.v
theories/GridInterpModel.v
theories/GridInterpSpec.v
theories/GridInterpProofs.v
theories/GridInterpProps.v
theories/InvCumulModel.v
theories/InvCumulSpec.v
theories/InvCumulProofs.v
theories/InvCumulProps.v
theories/NpyModel.v
theories/NpySpec.v
theories/NpyProofs.v
theories/NpyProofs2.v
theories/NpyProofs3.v
theories/NpyProps.v
theories/FitsModel.v
theories/FitsSpec.v
theories/FitsProofs.v
theories/FitsProps.v
theories/ParserModel.v
theories/ParserSpec.v
theories/ParserProofs.v
theories/ParserProofs2.v
theories/ParserProps.v
theories/CosmoModel.v
theories/CosmoSpec.v
theories/CosmoProofs.v
theories/CosmoProps.v
theories/SamplerModel.v
theories/SamplerSpec.v
theories/SamplerProofs.v
theories/SamplerProps.v
theories/CatConfModel.v
theories/CatConfSpec.v
theories/CatConfProofs.v
theories/CatConfProofs2.v
theories/CatConfProofs3.v
theories/CatConfProps.v
theories/GridFitsModel.v
theories/GridFitsSpec.v
theories/GridFitsProofs.v
theories/GridFitsProps.v
theories/NdInterpModel.v
theories/NdInterpSpec.v
theories/NdInterpProofs.v
theories/NdInterpProps.v
theories/DistModel.v
theories/DistSpec.v
theories/DistProofs.v
theories/DistProps.v
theories/FloatModel.v
theories/FloatProofs.v
theories/DoubleProofs.v
theories/DCumulModel.v
theories/DCumulSpec.v
theories/DCumulProofs.v
theories/DCumulProps.v
theories/DoubleProofs2.v
theories/DHistModel.v
theories/DHistSpec.v
theories/DHistProofs.v
theories/DHistProofs2.v
theories/DHistProps.v
theories/DKdModel.v
theories/DKdSpec.v
theories/DKdProofs.v
theories/DKdProps.v
theories/ThreadPoolLiveSpec.v
theories/ThreadPoolLiveProofs.v
theories/ThreadPoolLiveProofs2.v
theories/ThreadPoolLiveProps.v
theories/FPThreadsModel.v
theories/FPThreadsSpec.v
theories/FPThreadsProofs.v
theories/FPThreadsProofs2.v
theories/FPThreadsProofs3.v
theories/FPThreadsProofs4.v
theories/FPThreadsProofs5.v
theories/FPThreadsProps.v
theories/NpyCrashModel.v
theories/NpyCrashSpec.v
theories/NpyCrashProofs.v
theories/NpyCrashProofs2.v
theories/NpyCrashProofs3.v
theories/NpyCrashProofs4.v
theories/NpyCrashProps.v
theories/AsciiCrashModel.v
theories/AsciiCrashSpec.v
theories/AsciiCrashProofs.v
theories/AsciiCrashProps.v
theories/AsciiHeadModel.v
theories/AsciiHeadSpec.v
theories/AsciiHeadProofs.v
theories/AsciiHeadProofs2.v
theories/AsciiHeadProps.v
theories/NdIterModel.v
theories/NdIterProps.v
theories/AsciiPlainSpec.v
theories/AsciiPlainProofs.v
theories/AsciiPlainProps.v
theories/CatConfOut.v
theories/CatConfOutProps.v
theories/FPModeModel.v
theories/FPModeProps.v
theories/FPModeThreadsProps.v
theories/DInterpModel.v
theories/DInterpSpec.v
theories/DInterpProofs.v
theories/DInterpProofs2.v
theories/DInterpProps.v
theories/DSOMModel.v
theories/DSOMSpec.v
theories/DSOMProofs.v
theories/DSOMProofs2.v
theories/DSOMProps.v
theories/GridProofs4.v
theories/DSplineSpec.v
theories/DSplineModel.v
theories/DSplineProofs.v
theories/DSplineProofs2.v
theories/DSplineProofs3.v
theories/DSplineProofs4.v
theories/DSplineProofs5.v
theories/DSplineProofs6.v
theories/DSplineProofs7.v
theories/DSplineProps.v
theories/DQuadModel.v
theories/DQuadSpec.v
theories/DQuadProofs.v
theories/DQuadProofs2.v
theories/DQuadProofs3.v
theories/DQuadProps.v
theories/DPieceModel.v
theories/DPieceSpec.v
theories/DPieceProofs.v
theories/DPieceProofs2.v
theories/DPieceProps.v
theories/DModeModel.v
theories/DModeSpec.v
theories/DModeProofs.v
theories/DModeProofs2.v
theories/DModeProofs3.v
theories/DModeProps.v
theories/DDiffModel.v
theories/DDiffSpec.v
theories/DDiffProofs.v
theories/DDiffProofs2.v
theories/DDiffProps.v
theories/DInvModel.v
theories/DInvSpec.v
theories/DInvProofs.v
theories/DInvProofs2.v
theories/DInvProofs3.v
theories/DInvProofs4.v
theories/DInvProofs5.v
theories/DInvProps.v
theories/PhotModel.v
theories/PhotSpec.v
theories/PhotProofs.v
theories/PhotProps.v
theories/DGridModel.v
theories/DGridSpec.v
theories/DGridProofs.v
theories/DGridProofs2.v
theories/DGridProps.v
theories/DNdModel.v
theories/DNdSpec.v
theories/DNdProofs.v
theories/DNdProps.v
theories/DCosmoModel.v
theories/DCosmoSpec.v
theories/DCosmoProofs.v
theories/DCosmoProps.v
theories/SimpsonSmoothProofs.v
theories/SimpsonSmoothProps.v
theories/DIntegralSpec.v
theories/DIntegralProofs.v
theories/DIntegralProofs2.v
theories/DIntegralProps.v
theories/SOMInitModel.v
theories/SOMInitSpec.v
theories/SOMInitProofs.v
theories/SOMInitProps.v
theories/AsciiStreamModel.v
theories/AsciiStreamSpec.v
theories/AsciiStreamProofs.v
theories/AsciiStreamProps.v
theories/SolversProps.v
