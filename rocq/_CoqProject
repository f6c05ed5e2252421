-Q theories Verif

theories/PyBase.v
theories/IndexModel.v
theories/DMModel.v
theories/StructModel.v
theories/PowerModel.v
theories/StructSpec.v
theories/IndexProofs.v
theories/StructProofs.v
theories/LayoutProofs.v
theories/LayoutThms.v
theories/LayoutExamples.v
theories/PropsLayout.v
theories/DMProofs.v
theories/PowerSpec.v
theories/PowerProofs.v
theories/PowerThms.v
theories/SliceProofs.v
theories/PowerThms2.v
theories/PowerThms3.v
theories/PowerThms4.v
theories/PowerThms5.v
theories/PowerExamples.v
theories/PropsPower.v
theories/LabelModel.v
theories/LabelSpec.v
theories/LabelThms.v
theories/LabelExamples.v
theories/PropsLabel.v
theories/EntryModel.v
theories/EntrySpec.v
theories/EntryProofs.v
theories/EntryExamples.v
theories/PropsEntry.v
theories/StructsModel.v
theories/StructsSpec.v
theories/StructsThms1.v
theories/StructsThms2.v
theories/StructsThms3.v
theories/StructsThms4.v
theories/StructsThms5.v
theories/StructsThms6.v
theories/StructsThms7.v
theories/ViewThms.v
theories/StructsThms8.v
theories/StructsThms9.v
theories/StructsThms10.v
theories/ReadSpec.v
theories/SimThms.v
theories/ReadThms.v
theories/SymModel.v
theories/SymSpec.v
theories/SymThms.v
theories/ReadExamples.v
theories/PropsRead.v
theories/StructsExamples.v
theories/StructsExamples2.v
theories/StructsExamples3.v
theories/PropsStructs.v
theories/StructsThms11.v
theories/IneqModel.v
theories/IneqSpec.v
theories/IneqThms.v
theories/IneqExamples.v
theories/DaeModel.v
theories/DaeSpec.v
theories/DaeThms.v
theories/DaeExamples.v
theories/PropsDae.v
theories/NumModel.v
theories/NumInst.v
theories/PolySpec.v
theories/NumSpec.v
theories/PolynomialModel.v
theories/PolyMath.v
theories/PolynomialBase.v
theories/PolynomialThms.v
theories/PolynomialThms2.v
theories/PiecewiseModel.v
theories/PiecewiseSpec.v
theories/PiecewiseThms.v
theories/PiecewiseThms2.v
theories/PolynomialExamples.v
theories/PropsPoly.v
theories/PdqModel.v
theories/PdqSpec.v
theories/PdqThms.v
theories/PdqThms2.v
theories/PdqThms3.v
theories/PdqExamples.v
theories/PropsPdq.v
theories/SchemeModel.v
theories/SchemeSpec.v
theories/SchemeThms.v
theories/SchemeThms2.v
theories/SchemeThms3.v
theories/SchemeThms4.v
theories/SchemeThms5.v
theories/SchemeAttrModel.v
theories/SchemeThms6.v
theories/SchemeExamples.v
theories/SchemeExamples2.v
theories/PropsScheme.v
theories/PickleModel.v
theories/PickleSpec.v
theories/PickleThms.v
theories/PickleExamples.v
theories/SqRepThms.v
theories/SqRepExamples.v
theories/PrefixAttrModel.v
theories/PrefixAttrThms.v
theories/PrefixAttrExamples.v
theories/PdqAttrThms.v
theories/PropsPickle.v
theories/MxViewModel.v
theories/MxViewThms.v
theories/MxViewExamples.v
theories/PropsMx.v
theories/StructsSymThms.v
theories/StructsSymExamples.v
theories/SimulateModel.v
theories/SimulateThms.v
theories/StrModel.v
theories/StrSpec.v
theories/StrThms.v
theories/StrExamples.v
theories/PropsPrint.v
theories/SymmBlockThms.v
theories/ExtraThms.v
theories/ExtraExamples.v
theories/SymmBlockExamples.v
theories/PropsExtra.v
theories/PropsSymm.v
theories/SliceWriteThms.v
theories/PrefixThms.v
theories/SymFrameThms.v
theories/SliceWriteExamples.v
theories/NamesThms.v
theories/PickleWriteThms.v
theories/NamesExamples.v
theories/PdqLeftThms.v
theories/PdqLeftExamples.v
theories/PropsSlice.v
theories/RepoTests.v
theories/ListRhsThms.v
theories/CtorErrThms.v
theories/ListRhsExamples.v
theories/PropsLists.v
theories/AliasModel.v
theories/AliasThms.v
theories/InvThms.v
theories/OrderSpec.v
theories/OrderMath.v
theories/OrderThms.v
theories/OrderExamples.v
theories/PropsOrder.v
theories/ConvSpec.v
theories/ConvThms.v
theories/ConvExamples.v
theories/PropsConv.v
theories/BlockSpec.v
theories/BlockThms.v
theories/BlockExamples.v
theories/PropsBlock.v
theories/GridSpec.v
theories/GridThms.v
theories/GridExamples.v
theories/PropsGrid.v
theories/ErrSpec.v
theories/ErrThms.v
theories/ErrExamples.v
theories/PropsErr.v
theories/AssignSpec.v
theories/AssignThms.v
theories/AssignExamples.v
theories/PropsAssign.v
theories/CallSpec.v
theories/CallThms.v
theories/CallThms2.v
theories/CallExamples.v
theories/PropsCall.v
theories/SuperSpec.v
theories/SuperThms.v
theories/SuperExamples.v
theories/PropsSuper.v
theories/F64Spec.v
theories/F64Thms.v
theories/F64Thms2.v
theories/F64Thms3.v
theories/F64Thms4.v
theories/F64Thms5.v
theories/F64Thms6.v
theories/F64Examples.v
theories/PropsF64.v
theories/RndSpec.v
theories/RndThms.v
theories/RndThms2.v
theories/RndThms3.v
theories/RndThms4.v
theories/RndExamples.v
theories/PropsRnd.v
theories/RevSpec.v
theories/RevThms.v
theories/RevThms2.v
theories/RevExamples.v
theories/PropsRev.v
theories/StiffSpec.v
theories/StiffThms.v
theories/StiffExamples.v
theories/PropsStiff.v
theories/MonoSpec.v
theories/MonoThms.v
theories/MonoThms2.v
theories/MonoThms3.v
theories/MonoThms4.v
theories/MonoExamples.v
theories/PropsMono.v
theories/DissSpec.v
theories/DissThms.v
theories/DissThms2.v
theories/DissThms3.v
theories/DissThms4.v
theories/DissExamples.v
theories/PropsDiss.v
theories/DissErrThms.v
theories/DissErrExamples.v
theories/PropsDissErr.v
theories/SensSpec.v
theories/SensThms.v
theories/SensThms2.v
theories/SensExamples.v
theories/PropsSens.v
theories/Sens2Spec.v
theories/SensThms3.v
theories/Sens2Examples.v
theories/PropsSens2.v
theories/RefineSpec.v
theories/RefineThms.v
theories/RefineThms2.v
theories/RefineThms3.v
theories/RefineExamples.v
theories/PropsRefine.v
theories/StiffRefThms.v
theories/StiffRefThms2.v
theories/StiffRefExamples.v
theories/PropsStiffRef.v
theories/SettledSpec.v
theories/SettledThms.v
theories/SettledExamples.v
theories/PropsSettled.v
theories/PropsAlias.v
theories/NameSelThms.v
theories/NameSelExamples.v
theories/PropsNameSel.v
theories/ErrClassSpec.v
theories/ErrClassThms.v
theories/ErrClassExamples.v
theories/PropsErrClass.v
theories/MXSymmThms.v
theories/MXSymmThms2.v
theories/PropsMXSymm.v
theories/ViewAcceptThms.v
theories/PropsViewAccept.v
