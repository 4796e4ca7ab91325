-Q theories Verif
theories/Prim.v
theories/PrimLemmas.v
theories/MoeModel.v
theories/MoeSpec.v
theories/MoeProofs.v
theories/MoeProps.v
theories/CkptModel.v
theories/CkptSpec.v
theories/CkptSlices.v
theories/CkptSave.v
theories/CkptRestore.v
theories/CkptProofs.v
theories/CkptProofs2.v
theories/CkptProps.v
theories/BaseModel.v
theories/BaseSpec.v
theories/BaseProofs.v
theories/BaseProofs2.v
theories/BaseProofs3.v
theories/BaseProofs4.v
theories/BaseExamples.v
theories/BaseProps.v
theories/SerModel.v
theories/SerSpec.v
theories/SerProofs.v
theories/SerProofs2.v
theories/SerProps.v
theories/Py.v
theories/PyLemmas.v
theories/NdArray.v
theories/NdLemmas.v
theories/MeshModel.v
theories/MeshSpec.v
theories/MeshProofs.v
theories/MeshProps.v
theories/TreeModel.v
theories/TreeSpec.v
theories/TreeProofs.v
theories/TreeProofs2.v
theories/TreeProps.v
theories/TreeProofs3.v
theories/MapModel.v
theories/MapSpec.v
theories/MapProofs.v
theories/MapProofs2.v
theories/MapProofs3.v
theories/MapProps.v
theories/SchedModel.v
theories/SchedProofs.v
theories/SchedProps.v
theories/OptModel.v
theories/OptSpec.v
theories/OptProofs.v
theories/OptProofs2.v
theories/OptProofs3.v
theories/OptProps.v
theories/StepModel.v
theories/StepSpec.v
theories/StepProofs.v
theories/StepProps.v
theories/MixModel.v
theories/MixSpec.v
theories/MixProofs.v
theories/MixProps.v
theories/LoopModel.v
theories/LoopSpec.v
theories/LoopProofs.v
theories/LoopProps.v
theories/EvalModel.v
theories/EvalSpec.v
theories/EvalProofs.v
theories/EvalProps.v
theories/DataModel.v
theories/DataSpec.v
theories/DataProofs.v
theories/DataProps.v
theories/AttModel.v
theories/AttSpec.v
theories/AttProofs.v
theories/AttProps.v
theories/SoftModel.v
theories/SoftSpec.v
theories/SoftProofs.v
theories/SoftProps.v
theories/AuxModel.v
theories/AuxSpec.v
theories/AuxProofs.v
theories/AuxProps.v
theories/CwModel.v
theories/CwSpec.v
theories/CwProofs.v
theories/CwProps.v
theories/EnsModel.v
theories/EnsSpec.v
theories/EnsProofs.v
theories/EnsProps.v
theories/ElmModel.v
theories/ElmSpec.v
theories/ElmProofs.v
theories/ElmProps.v
theories/FewModel.v
theories/FewSpec.v
theories/FewProofs.v
theories/FewProps.v
theories/FitModel.v
theories/FitSpec.v
theories/FitProofs.v
theories/FitProps.v
theories/PpModel.v
theories/PpSpec.v
theories/PpProofs.v
theories/PpProps.v
theories/OtModel.v
theories/OtSpec.v
theories/OtProofs.v
theories/OtProps.v
theories/TfModel.v
theories/TfSpec.v
theories/TfProofs.v
theories/TfProps.v
theories/VitModel.v
theories/VitSpec.v
theories/VitProofs.v
theories/VitProps.v
theories/RngModel.v
theories/RngSpec.v
theories/RngProofs.v
theories/RngProps.v
theories/CfgModel.v
theories/CfgSpec.v
theories/CfgProofs.v
theories/CfgProps.v
theories/SumModel.v
theories/SumSpec.v
theories/SumProofs.v
theories/SumProps.v
theories/ConModel.v
theories/ConSpec.v
theories/ConProofs.v
theories/ConProps.v
theories/NumModel.v
theories/NumSpec.v
theories/NumProofs.v
theories/NumProofs2.v
theories/NumProofs3.v
theories/NumProps.v
theories/RxModel.v
theories/RxSpec.v
theories/RxProofs.v
theories/RxProofs2.v
theories/RxProofs3.v
theories/RxProps.v
theories/StoModel.v
theories/StoSpec.v
theories/StoProofs.v
theories/StoProofs2.v
theories/StoProofs3.v
theories/StoProps.v
theories/StaModel.v
theories/StaSpec.v
theories/StaProofs.v
theories/StaProps.v
theories/HookModel.v
theories/HookSpec.v
theories/HookProofs.v
theories/HookProofs2.v
theories/HookProofs3.v
theories/HookProps.v
theories/BfModel.v
theories/BfSpec.v
theories/BfProofs.v
theories/BfProofs2.v
theories/BfProofs3.v
theories/BfProps.v
theories/TpModel.v
theories/TpSpec.v
theories/TpProofs.v
theories/TpProps.v
theories/IniModel.v
theories/IniSpec.v
theories/IniProofs.v
theories/IniProofs2.v
theories/IniProofs3.v
theories/IniProofs4.v
theories/IniProofs5.v
theories/IniProps.v
theories/SynModel.v
theories/SynSpec.v
theories/SynProofs.v
theories/SynProofs2.v
theories/SynProofs3.v
theories/SynProofs4.v
theories/SynProofs5.v
theories/SynProofs6.v
theories/SynProofs7.v
theories/SynProps.v
theories/GrdModel.v
theories/GrdSpec.v
theories/GrdProofs.v
theories/GrdProofs2.v
theories/GrdProofs3.v
theories/GrdProofs4.v
theories/GrdProofs5.v
theories/GrdProps.v
theories/SdrModel.v
theories/SdrSpec.v
theories/SdrProofs.v
theories/SdrProofs2.v
theories/SdrProps.v
theories/NngModel.v
theories/NngSpec.v
theories/NngProofs.v
theories/NngProps.v
theories/SmnModel.v
theories/SmnSpec.v
theories/SmnProofs.v
theories/SmnProps.v
theories/SkhModel.v
theories/SkhSpec.v
theories/SkhProofs.v
theories/SkhProofs2.v
theories/SkhProps.v
theories/SqlModel.v
theories/SqlSpec.v
theories/SqlProofs.v
theories/SqlProofs2.v
theories/SqlProps.v
theories/RtrModel.v
theories/RtrSpec.v
theories/RtrProofs.v
theories/RtrProofs2.v
theories/RtrProps.v
theories/BldModel.v
theories/BldSpec.v
theories/BldProofs.v
theories/BldProofs2.v
theories/BldProps.v
theories/SdsModel.v
theories/SdsSpec.v
theories/SdsProofs.v
theories/SdsProps.v
theories/ObxModel.v
theories/ObxSpec.v
theories/ObxProofs.v
theories/ObxProofs2.v
theories/ObxProps.v
theories/CacModel.v
theories/CacSpec.v
theories/CacProofs.v
theories/CacProps.v
theories/AdaModel.v
theories/AdaSpec.v
theories/AdaProofs.v
theories/AdaProps.v
