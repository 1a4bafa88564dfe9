-Q theories Verif
theories/Base.v
theories/WellsModel.v
theories/WellsSpec.v
theories/WellsProof.v
theories/WellsProps.v
theories/HashModel.v
theories/HashProof.v
theories/HashProps.v
theories/SparseModel.v
theories/SparseSpec.v
theories/SparseProof.v
theories/SparseProps.v
theories/CsrModel.v
theories/CsrSpec.v
theories/CsrProof.v
theories/CsrProps.v
theories/PartModel.v
theories/PartProof.v
theories/PartProps.v
theories/DfsModel.v
theories/DfsProof.v
theories/DfsProps.v
theories/SplitModel.v
theories/SplitProof.v
theories/SplitProps.v
theories/TarjanModel.v
theories/TarjanProof.v
theories/TarjanProps.v
theories/GridModel.v
theories/GridSpec.v
theories/ReorderModel.v
theories/ReorderProof.v
theories/ReorderProps.v
theories/TofModel.v
theories/TofSpec.v
theories/TofProof.v
theories/TofProps.v
theories/LoopModel.v
theories/LoopProof.v
theories/CartModel.v
theories/CartSpec.v
theories/CartProof.v
theories/Cart2Proof.v
theories/CartProps.v
theories/CartGeomProof.v
theories/CartGeomProps.v
theories/AppendModel.v
theories/AppendSpec.v
theories/AppendProof.v
theories/AppendProps.v
theories/ParamModel.v
theories/ParamSpec.v
theories/ParamProof.v
theories/ParamRoundSpec.v
theories/ParamRoundProof.v
theories/ParamProps.v
theories/ClockModel.v
theories/ClockProps.v
theories/ColumnModel.v
theories/ColumnProof.v
theories/ColumnProps.v
theories/TableModel.v
theories/UTableProof.v
theories/UTableProps.v
theories/NTableProof.v
theories/NTableProps.v
theories/RootModel.v
theories/RootProps.v
theories/MonoModel.v
theories/MonoProof.v
theories/MonoProps.v
theories/AccModel.v
theories/AccProof.v
theories/SpuModel.v
theories/SpuProps.v
theories/HalfProof.v
theories/TransModel.v
theories/TransProps.v
theories/IfsModel.v
theories/IfsSpec.v
theories/IfsProof.v
theories/IfsOps.v
theories/IfsBal.v
theories/IfsSol.v
theories/IfsEq.v
theories/IfsFin.v
theories/IfsProps.v
theories/PhaseModel.v
theories/PhaseProps.v
theories/RockModel.v
theories/RockProps.v
theories/GroupModel.v
theories/GroupSpec.v
theories/GroupProof.v
theories/GroupCheck.v
theories/GroupProps.v
theories/CoarseModel.v
theories/CoarseSpec.v
theories/CoarseProof.v
theories/CoarseBuild.v
theories/CoarseProps.v
theories/UniqModel.v
theories/UniqSpec.v
theories/UniqProof.v
theories/UniqFind.v
theories/UniqLoop.v
theories/PillarModel.v
theories/UniqProps.v
theories/PrepModel.v
theories/HorizSpec.v
theories/HorizProof.v
theories/HorizLoop.v
theories/HorizEnd.v
theories/HorizProps.v
theories/VertModel.v
theories/VertSpec.v
theories/VertGeom.v
theories/VertSlots.v
theories/VertLoop.v
theories/VertProc.v
theories/VertLink.v
theories/VertProps.v
theories/FileModel.v
theories/FileSpec.v
theories/FileProps.v
theories/DeckModel.v
theories/DeckSpec.v
theories/DeckProps.v
theories/DeckVec.v
theories/MiscModel.v
theories/MiscSpec.v
theories/MiscProps.v
theories/MiscMob.v
theories/MiscTrans.v
theories/GrdModel.v
theories/GrdSpec.v
theories/GrdProps.v
theories/GrdNodes.v
theories/GrdEnd.v
theories/GrdCases.v
theories/TwoModel.v
theories/TwoSpec.v
theories/TwoProof.v
theories/TwoMulti.v
theories/TwoProps.v
theories/GravModel.v
theories/GravSpec.v
theories/GravProof.v
theories/GravCol.v
theories/GravProps.v
theories/PolyModel.v
theories/PolySpec.v
theories/PolyProof.v
theories/PolyProps.v
theories/PolyPlane.v
theories/PolyPlaneCases.v
theories/PolyCell.v
theories/PolyCellProps.v
theories/PolyCases.v
theories/PolyNotch.v
theories/TopoModel.v
theories/TopoProps.v
theories/TopoGrid.v
theories/TopoCases.v
theories/MimModel.v
theories/MimSpec.v
theories/MimLoop.v
theories/MimProof.v
theories/MimAlg.v
theories/MimGrid.v
theories/MimProps.v
theories/WrepModel.v
theories/WrepSpec.v
theories/WrepProof.v
theories/WrepProps.v
theories/WrepCases.v
theories/KrModel.v
theories/KrSpec.v
theories/KrProof.v
theories/KrProps.v
theories/KrSeg.v
theories/KrInitModel.v
theories/KrInit.v
theories/KrCases.v
theories/EpsModel.v
theories/EpsSpec.v
theories/EpsProof.v
theories/EpsProps.v
theories/EpsPoints.v
theories/EpsMany.v
theories/EpsInit.v
theories/EpsCases.v
theories/PvtModel.v
theories/PvtMakeModel.v
theories/PvtSpec.v
theories/PvtProof.v
theories/PvtProps.v
theories/PvtGas.v
theories/PvtCases.v
theories/PvtMakeSpec.v
theories/PvtMakeProof.v
theories/PvtMakeProps.v
theories/PvtMakeCases.v
theories/RdeckModel.v
theories/RdeckSpec.v
theories/RdeckProof.v
theories/RdeckProps.v
theories/BasicPropsModel.v
theories/BasicPropsProps.v
theories/BasicPropsCases.v
theories/SideModel.v
theories/SideSpec.v
theories/SideProps.v
theories/SideCases.v
theories/InspectModel.v
theories/InspectSpec.v
theories/InspectProps.v
theories/InspectDips.v
theories/InspectCases.v
