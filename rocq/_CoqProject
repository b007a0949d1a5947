-Q theories Verif
theories/Base.v
theories/CompModel.v
theories/CompSpec.v
theories/CompProofs.v
theories/CompProperties.v
theories/PackageModel.v
theories/PackageProofs.v
theories/PackageProofs2.v
theories/PackageProperties.v
theories/ResourceModel.v
theories/ResourceSpec.v
theories/ResourceProofs1.v
theories/ResourceProofs2.v
theories/ResourceProofs3.v
theories/ResourceProofs4.v
theories/ResourceProofs5.v
theories/ResourceProofs6.v
theories/ResourceProofs7.v
theories/ResourceProofs8.v
theories/ResourceProofs9.v
theories/ResourceProofs10.v
theories/ResourceProofs11.v
theories/ResourceProofs12.v
theories/ResourceProofs13.v
theories/ResourceProperties.v
theories/ResourceDbProperties.v
theories/BufModel.v
theories/BufSpec.v
theories/BufProofs1.v
theories/BufProofs2.v
theories/BufProofs3.v
theories/BufProofs4.v
theories/BufProofs5.v
theories/BufProofs6.v
theories/BufProofs7.v
theories/BufProperties.v
theories/MapModel.v
theories/MapSpec.v
theories/MapProofs.v
theories/MapProperties.v
theories/GreedyModel.v
theories/GreedySpec.v
theories/GreedyProofs1.v
theories/GreedyProofs2.v
theories/GreedyProofs3.v
theories/GreedyProofs4.v
theories/GreedyProofs5.v
theories/GreedyProofs6.v
theories/GreedyExamples.v
theories/GreedyProperties.v
theories/ExchangeModel.v
theories/ExchangeSpec.v
theories/ExchangeProofs1.v
theories/ExchangeProofs2.v
theories/ExchangeProofs3.v
theories/ExchangeProofs4.v
theories/ExchangeProofs5.v
theories/ExchangeProofs6.v
theories/ExchangeProofs7.v
theories/ExchangeProofs8.v
theories/ExchangeProofs9.v
theories/ExchangeExamples.v
theories/ExchangeProperties.v
theories/LoadSolverModel.v
theories/LoadSolverProofs.v
theories/LoadSolverProperties.v
theories/TradeModel.v
theories/TradeSpec.v
theories/TradeProofs.v
theories/TradeProperties.v
theories/SimModel.v
theories/SimSpec.v
theories/SimProofs1.v
theories/SimProofs2.v
theories/SimProofs3.v
theories/SimProofs4.v
theories/SimProofs5.v
theories/SimProofs6.v
theories/SimProofs7.v
theories/SimProofs8.v
theories/SimProofs9.v
theories/SimExamples.v
theories/SimProofs10.v
theories/SimProofs11.v
theories/SimProofs12.v
theories/SimProofs13.v
theories/SimProofs14.v
theories/SimProperties.v
theories/RecorderModel.v
theories/RecorderSpec.v
theories/RecorderProofs.v
theories/RecorderProperties.v
theories/TrackerModel.v
theories/TrackerSpec.v
theories/TrackerProofs.v
theories/TrackerProperties.v
theories/BuyModel.v
theories/BuySpec.v
theories/BuyProofs1.v
theories/BuyProofs2.v
theories/BuyProofs3.v
theories/BuyProofs4.v
theories/BuyProofs5.v
theories/BuyProofs6.v
theories/BuyProofs7.v
theories/BuyProofs8.v
theories/BuyProofs9.v
theories/BuyProperties.v
theories/SpecModel.v
theories/SpecSpec.v
theories/SpecProofs.v
theories/SpecProperties.v
theories/EnrichModel.v
theories/EnrichSpec.v
theories/EnrichProofs.v
theories/EnrichProperties.v
theories/PiecewiseModel.v
theories/PiecewiseSpec.v
theories/PiecewiseProofs.v
theories/PiecewiseProperties.v
theories/QueryModel.v
theories/QuerySpec.v
theories/QueryProofs.v
theories/QueryProperties.v
theories/MemBackModel.v
theories/MemBackSpec.v
theories/MemBackProofs1.v
theories/MemBackProofs2.v
theories/MemBackProofs3.v
theories/MemBackProperties.v
theories/SellModel.v
theories/SellSpec.v
theories/SellProofs1.v
theories/SellProofs2.v
theories/SellProofs3.v
theories/SellProofs4.v
theories/SellProofs5.v
theories/SellProperties.v
theories/RestartModel.v
theories/RestartSpec.v
theories/RestartProofs1.v
theories/RestartProofs2.v
theories/RestartProofs3.v
theories/RestartExamples.v
theories/RestartProofs4.v
theories/RestartProperties.v
theories/ReloadModel.v
theories/ReloadSpec.v
theories/ReloadProofs.v
theories/ReloadProofs2.v
theories/ReloadProperties.v
theories/MatQueryModel.v
theories/MatQueryProofs.v
theories/MatQueryProperties.v
theories/CrashSpec.v
theories/CrashProofs.v
theories/CrashProofs2.v
theories/CrashProperties.v
theories/ProgModel.v
theories/ProgSpec.v
theories/ProgProofs1.v
theories/ProgProofs2.v
theories/ProgProofs3.v
theories/ProgProofs4.v
theories/ProgProofs5.v
theories/ProgSolveModel.v
theories/ProgSolveSpec.v
theories/ProgProofs6.v
theories/ProgProofs7.v
theories/ProgSolveExamples.v
theories/ProgSolveProperties.v
theories/ProgProperties.v
theories/SupplyModel.v
theories/SupplySpec.v
theories/SupplyProofs.v
theories/SupplyProofs2.v
theories/SupplyProofs3.v
theories/SupplyProofs4.v
theories/SupplyExamples.v
theories/SupplyProperties.v
theories/DreModel.v
theories/DreSpec.v
theories/DreProofs1.v
theories/DreProofs2.v
theories/DreProofs3.v
theories/DreProofs4.v
theories/DreProofs5.v
theories/DreExamples.v
theories/DreProperties.v
theories/SqlModel.v
theories/SqlSpec.v
theories/SqlProofs.v
theories/SqlProofs2.v
theories/SqlProofs3.v
theories/SqlProofs4.v
theories/SqlProofs5.v
theories/SqlExamples.v
theories/SqlProperties.v
theories/PpModel.v
theories/PpSpec.v
theories/PpProofs.v
theories/PpProofs2.v
theories/PpProofs3.v
theories/PpProofs4.v
theories/PpProofs5.v
theories/PpProofs6.v
theories/PpProofs7.v
theories/PpProofs8.v
theories/PpExamples.v
theories/PpProperties.v
theories/LoaderModel.v
theories/LoaderSpec.v
theories/LoaderProofs.v
theories/LoaderProofs2.v
theories/LoaderProofs3.v
theories/LoaderProofs4.v
theories/LoaderProofs5.v
theories/LoaderProofs6.v
theories/LoaderProofs7.v
theories/LoaderProofs8.v
theories/LoaderProofs9.v
theories/LoaderProofs10.v
theories/LoaderExamples.v
theories/LoaderProperties.v
theories/SaveModel.v
theories/SaveSpec.v
theories/SaveProofs.v
theories/SaveProofs2.v
theories/SaveProofs3.v
theories/SaveProofs4.v
theories/SaveExamples.v
theories/SaveProperties.v
theories/ConfigModel.v
theories/ConfigSpec.v
theories/ConfigProofs.v
theories/ConfigProofs2.v
theories/ConfigProofs3.v
theories/ConfigProofs4.v
theories/ConfigProofs5.v
theories/ConfigExamples.v
theories/ConfigProperties.v
theories/FacModel.v
theories/FacSpec.v
theories/FacProofs1.v
theories/FacProofs2.v
theories/FacProofs3.v
theories/FacProofs4.v
theories/FacProofs5.v
theories/FacProofs6.v
theories/FacProofs7.v
theories/FacProofs8.v
theories/FacExamples.v
theories/FacProperties.v
theories/ServerModel.v
theories/ServerSpec.v
theories/ServerProofs1.v
theories/ServerProofs2.v
theories/ServerProofs3.v
theories/ServerProofs4.v
theories/ServerProofs5.v
theories/ServerExamples.v
theories/ServerProperties.v
theories/ConvModel.v
theories/ConvSpec.v
theories/ConvProofs1.v
theories/ConvProofs2.v
theories/ConvProofs3.v
theories/ConvExamples.v
theories/ConvProperties.v
theories/RecCtxModel.v
theories/RecCtxSpec.v
theories/RecCtxProofs.v
theories/RecCtxProperties.v
theories/PosModel.v
theories/PosSpec.v
theories/PosProofs1.v
theories/PosProofs2.v
theories/PosProperties.v
theories/WarnModel.v
theories/WarnSpec.v
theories/WarnProofs.v
theories/WarnProperties.v
