-Q theories Verif
theories/PyStr.v
theories/PyStrLemmas.v
theories/RegionsModel.v
theories/RegionsSpec.v
theories/RegionsProofs.v
theories/RegionsProps.v
theories/TextModel.v
theories/TextSpec.v
theories/TextProofs.v
theories/TextProofs2.v
theories/TextProofs3.v
theories/TextProps.v
theories/ScopeModel.v
theories/ScopeSpec.v
theories/ScopeProofs.v
theories/ScopeProofs2.v
theories/ScopeProps.v
theories/OverloadModel.v
theories/OverloadSpec.v
theories/OverloadProofs.v
theories/OverloadProofs2.v
theories/OverloadProps.v
theories/ModuleModel.v
theories/ModuleSpec.v
theories/ModuleProofs.v
theories/ModuleProofs2.v
theories/ModuleProofs3.v
theories/ModuleProps.v
theories/PyNum.v
theories/NamesModel.v
theories/NamesSpec.v
theories/NamesProofs.v
theories/NamesProps.v
theories/PyDict.v
theories/NumberModel.v
theories/NumberSpec.v
theories/NumberProofs.v
theories/NumberProofs2.v
theories/NumberProofs3.v
theories/NumberProps.v
theories/TemplateModel.v
theories/TemplateSpec.v
theories/TemplateProofs.v
theories/TemplateProofs2.v
theories/TemplateProofs3.v
theories/TemplateProofs4.v
theories/TemplateProps.v
theories/HeaderModel.v
theories/HeaderSpec.v
theories/HeaderProofs.v
theories/HeaderProofs2.v
theories/HeaderProofs3.v
theories/HeaderProofs4.v
theories/HeaderProps.v
theories/CommentModel.v
theories/CommentSpec.v
theories/CommentProofs.v
theories/CommentProofs2.v
theories/CommentProofs3.v
theories/CommentProofs4.v
theories/CommentProps.v
theories/PublishModel.v
theories/PublishSpec.v
theories/PublishProofs.v
theories/PublishProps.v
theories/TypeTextModel.v
theories/TypeTextSpec.v
theories/TypeTextProofs.v
theories/TypeTextProps.v
theories/FillModel.v
theories/FillSpec.v
theories/FillProofs.v
theories/FillProofs2.v
theories/FillProofs3.v
theories/FillProofs4.v
theories/FillProps.v
theories/TreeModel.v
theories/TreeSpec.v
theories/TreeProofs.v
theories/TreeProofs2.v
theories/TreeProofs3.v
theories/TreeProps.v
theories/LookupModel.v
theories/LookupSpec.v
theories/LookupProofs.v
theories/LookupProofs2.v
theories/LookupProps.v
theories/LambdaModel.v
theories/AdapterModel.v
theories/BufferModel.v
theories/LambdaSpec.v
theories/LambdaProofs.v
theories/AdapterSpec.v
theories/AdapterProofs.v
theories/AdapterProofs2.v
theories/AdapterProofs3.v
theories/AdapterProofs4.v
theories/AdapterProofs5.v
theories/SignatureSpec.v
theories/SignatureProofs.v
theories/AdapterProps.v
theories/SignatureProps.v
theories/BufferSpec.v
theories/BufferProofs.v
theories/BufferProofs2.v
theories/BufferProofs3.v
theories/BufferProofs4.v
theories/BufferProofs5.v
theories/BufferProofs6.v
theories/BufferProofs7.v
theories/BufferProps.v
theories/ChainModel.v
theories/ChainSpec.v
theories/ChainProofs.v
theories/ChainProofs2.v
theories/ChainProofs3.v
theories/ChainProofs4.v
theories/ChainProofs5.v
theories/ChainProofs6.v
theories/ChainProofs7.v
theories/ChainProofs8.v
theories/ChainProps.v
theories/DefaultSpec.v
theories/DefaultProofs.v
theories/DefaultProps.v
theories/BindModel.v
theories/BindSpec.v
theories/BindProofs.v
theories/BindProps.v
theories/NamedModel.v
theories/NamedSpec.v
theories/NamedProofs.v
theories/NamedProofs2.v
theories/NamedProofs3.v
theories/NamedProps.v
theories/EnumModel.v
theories/EnumSpec.v
theories/EnumProofs.v
theories/EnumProofs2.v
theories/EnumProofs3.v
theories/EnumProps.v
theories/MemberModel.v
theories/MemberSpec.v
theories/MemberProofs.v
theories/MemberProofs2.v
theories/MemberProps.v
theories/LambdaTextSpec.v
theories/LambdaTextProofs.v
theories/LambdaTextProofs2.v
theories/LambdaTextProofs3.v
theories/LambdaTextProofs4.v
theories/LambdaTextProps.v
theories/ClassModel.v
theories/ClassSpec.v
theories/ClassProofs.v
theories/ClassProofs2.v
theories/ClassProofs3.v
theories/ClassProofs4.v
theories/ClassProofs5.v
theories/ClassProofs6.v
theories/ClassProofs7.v
theories/ClassProofs8.v
theories/ClassProofs9.v
theories/ClassArgProofs.v
theories/ClassProps.v
theories/StubTreeModel.v
theories/StubTreeSpec.v
theories/StubTreeProofs.v
theories/StubTreeProofs2.v
theories/StubTreeProofs3.v
theories/StubTreeProofs4.v
theories/StubTreeProofs5.v
theories/StubTreeProps.v
theories/GlueModel.v
theories/GlueSpec.v
theories/GlueProofs.v
theories/GlueProofs2.v
theories/GlueProofs3.v
theories/GlueProofs4.v
theories/GlueProofs5.v
theories/GlueProps.v
theories/PimplModel.v
theories/PimplSpec.v
theories/PimplProofs.v
theories/PimplProofs2.v
theories/PimplProofs3.v
theories/PimplProofs4.v
theories/PimplProofs5.v
theories/PimplProps.v
theories/InstanceModel.v
theories/InstanceSpec.v
theories/InstanceProofs.v
theories/InstanceProofs2.v
theories/InstanceProps.v
theories/QualifyModel.v
theories/QualifySpec.v
theories/QualifyProofs.v
theories/QualifyProofs2.v
theories/QualifyProps.v
theories/PolicyModel.v
theories/PolicySpec.v
theories/PolicyProofs.v
theories/PolicyProps.v
theories/LiteralModel.v
theories/LiteralSpec.v
theories/LiteralProofs.v
theories/LiteralProofs2.v
theories/LiteralProofs3.v
theories/LiteralProps.v
theories/EnumRefModel.v
theories/EnumRefSpec.v
theories/EnumRefProofs.v
theories/EnumRefProofs2.v
theories/EnumRefProofs3.v
theories/EnumRefProps.v
theories/TypeRuleModel.v
theories/TypeRuleSpec.v
theories/TypeRuleProofs.v
theories/TypeRuleProofs2.v
theories/TypeRuleProofs3.v
theories/TypeRuleProofs4.v
theories/TypeRuleProps.v
theories/TypeValueSpec.v
theories/TypeValueProps.v
theories/CommentWordModel.v
theories/CommentWordSpec.v
theories/CommentWordProofs.v
theories/CommentWordProofs2.v
theories/CommentWordProofs3.v
theories/CommentWordProps.v
