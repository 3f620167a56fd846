-Q theories Verif
theories/Base.v
theories/BaseFacts.v
theories/PositionModel.v
theories/PositionSpec.v
theories/PositionProofs.v
theories/PositionProps.v
theories/TranslateModel.v
theories/TranslateSpec.v
theories/TranslateProofs.v
theories/TranslateProps.v
theories/Unicode.v
theories/VersionModel.v
theories/VersionSpec.v
theories/VersionProofs.v
theories/VersionProps.v
theories/CommandModel.v
theories/CommandSpec.v
theories/CommandProofs.v
theories/CommandProps.v
theories/ServerModel.v
theories/ServerSpec.v
theories/ServerProofs.v
theories/ServerProps.v
theories/SyntaxModel.v
theories/AttrModel.v
theories/AttrSpec.v
theories/AttrProofs.v
theories/AttrProps.v
theories/TemplateModel.v
theories/UtilModel.v
theories/UtilSpec.v
theories/UtilProofs.v
theories/UtilProps.v
theories/EditModel.v
theories/EditSpec.v
theories/EditProofs.v
theories/EditProps.v
theories/SuggestModel.v
theories/SuggestSpec.v
theories/SuggestProofs.v
theories/SuggestProps.v
theories/TreeModel.v
theories/TreeSpec.v
theories/TreeProofs.v
theories/TreeProps.v
theories/Blake2Model.v
theories/CallableModel.v
theories/CallableSpec.v
theories/CallableProofs.v
theories/CallableProps.v
theories/ResolveModel.v
theories/ResolveSpec.v
theories/ResolveProofs.v
theories/ResolveProps.v
theories/ArgEditModel.v
theories/ArgEditSpec.v
theories/ArgEditProofs.v
theories/ArgEditProps.v
theories/HintModel.v
theories/HintSpec.v
theories/HintProofs.v
theories/HintProps.v
theories/FlattenModel.v
theories/FlattenSpec.v
theories/FlattenProofs.v
theories/FlattenProps.v
theories/ImplModel.v
theories/ImplSpec.v
theories/ImplProofs.v
theories/ImplProps.v
theories/MigrateModel.v
theories/MigrateSpec.v
theories/MigrateProofs.v
theories/MigrateProps.v
theories/ScaleFixModel.v
theories/ScaleFixSpec.v
theories/ScaleFixProofs.v
theories/ScaleFixProps.v
theories/RuleModel.v
theories/RuleSpec.v
theories/RuleProofs.v
theories/RuleProps.v
theories/ArgCheckModel.v
theories/ArgCheckSpec.v
theories/ArgCheckProofs.v
theories/ArgCheckProps.v
theories/ExternalModel.v
theories/ExternalSpec.v
theories/ExternalProofs.v
theories/ExternalProps.v
theories/EnvModel.v
theories/EnvSpec.v
theories/EnvProofs.v
theories/EnvProps.v
theories/EntityModel.v
theories/EntitySpec.v
theories/EntityProofs.v
theories/EntityProps.v
theories/ChainModel.v
theories/ChainSpec.v
theories/ChainProofs.v
theories/ChainProps.v
theories/TravModel.v
theories/TravProofs.v
theories/HostModel.v
theories/HostSpec.v
theories/HostProofs.v
theories/HostProps.v
theories/E2EModel.v
theories/E2ESpec.v
theories/E2EProofs.v
theories/E2EProps.v
theories/ImportModel.v
theories/ImportSpec.v
theories/ImportProofs.v
theories/ImportProps.v
theories/CustomModel.v
theories/CustomSpec.v
theories/CustomProofs.v
theories/CustomProps.v
theories/ExtractModel.v
theories/ExtractSpec.v
theories/ExtractProofs.v
theories/ExtractProps.v
theories/FocusModel.v
theories/FocusSpec.v
theories/FocusProofs.v
theories/FocusProps.v
theories/VisitModel.v
theories/VisitSpec.v
theories/VisitProofs.v
theories/VisitProps.v
theories/CompleteModel.v
theories/CompleteSpec.v
theories/CompleteProofs.v
theories/CompleteProps.v
theories/OfferModel.v
theories/OfferSpec.v
theories/OfferProofs.v
theories/OfferProps.v
theories/FinishModel.v
theories/FinishSpec.v
theories/FinishProofs.v
theories/FinishProps.v
theories/MoveModel.v
theories/MoveSpec.v
theories/MoveProofs.v
theories/MoveProps.v
theories/AnnotateModel.v
theories/AnnotateSpec.v
theories/AnnotateProofs.v
theories/AnnotateProps.v
theories/StructureModel.v
theories/StructureSpec.v
theories/StructureProofs.v
theories/StructureProps.v
theories/TogetherModel.v
theories/TogetherSpec.v
theories/TogetherProofs.v
theories/TogetherProps.v
theories/ManifestSpec.v
theories/ManifestProps.v
theories/QuerySpec.v
theories/QueryProofs.v
theories/QueryProps.v
theories/RuleTextProps.v
theories/ArgManySpec.v
theories/ArgManyProofs.v
theories/ArgManyProps.v
theories/WholeModel.v
theories/WholeSpec.v
theories/WholeProofs.v
theories/WholeProps.v
